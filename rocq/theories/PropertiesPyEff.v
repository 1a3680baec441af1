(** Property theorems C85: the accessors of the python module for the end effector.  Vocabulary: SpecEff.v. *)
From Verif Require Import Vec SpecBezier ModelData ModelDispatch ModelCont ModelSolver ModelTraj ModelEff ModelPy ModelPyEff
  SpecCom SpecWp SpecCtr SpecTraj SpecEff ProofPyEff.
Open Scope R_scope.

(** C85: computeEndEffectorConstantWaypoints: the control points of every curve of the planner are the columns,
    with the free points in place of columns 4, 5 ... *)
Theorem C85_waypoints : forall pData T, In (flag_of pData) effector_flags -> 0 < T ->
  let nf := eff_free (flag_of pData) in
  exists pi, py_constantWaypoints pData T = Ok pi /\
  forall xs, length xs = nf -> exists cv, eff_curve pData T xs = Ok cv /\ bc_T cv = T /\ length (bc_pts cv) = length pi /\
    bc_pts cv = firstn 4 pi ++ xs ++ skipn (4 + nf) pi.
Proof. exact c85_waypoints. Qed.
Print Assumptions C85_waypoints.

(** computeEndEffectorConstraints and computeEndEffectorVelocityCost: what they return is the problem that
    computeEndEffector has solved.  Its result depends on the back end only through the answer to the problem
    assembled from them. *)
Theorem C85_problem : forall pData T, In (flag_of pData) effector_flags -> 0 < T ->
  let nf := eff_free (flag_of pData) in
  exists A b H g, py_effConstraints pData T = Ok (A, b) /\ py_velocityCost pData T = Ok (H, g) /\
  Forall (fun r => length r = (3 * nf)%nat) A /\ length b = length A /\
  length H = (3 * nf)%nat /\ Forall (fun r => length r = (3 * nf)%nat) H /\ length g = (3 * nf)%nat /\
  forall with_glpk glpk init quadprog quadprog',
    (forall x0, quadprog (QP H g [] [] (map (map Ropp) A) b) x0 = quadprog' (QP H g [] [] (map (map Ropp) A) b) x0) ->
    py_computeEndEffector with_glpk quadprog glpk init pData T = py_computeEndEffector with_glpk quadprog' glpk init pData T.
Proof. exact c85_problem. Qed.
Print Assumptions C85_problem.

(** A x <= b bounds velocity and jerk and keeps the effector above the lower end. *)
Theorem C85_meaning : forall pData T, In (flag_of pData) effector_flags -> 0 < T ->
  exists A b, py_effConstraints pData T = Ok (A, b) /\
  forall xs, length xs = eff_free (flag_of pData) -> satX (combine A b) (flat xs) -> exists cv, eff_curve pData T xs = Ok cv /\
    (T <= 1000000 -> boundary_within 10000 pData T -> forall t, 0 <= t <= T ->
       exists v j, is_deriv_n 1 (cv_fun cv) t v /\ within 10000 v /\ is_deriv_n 3 (cv_fun cv) t j /\ within 10000 j) /\
    (boundary_above (Rmin (vz (c0 pData)) (vz (c1 pData))) pData T -> forall t, 0 <= t <= T ->
       Rmin (vz (c0 pData)) (vz (c1 pData)) <= vz (cv_fun cv t)).
Proof. exact c85_meaning. Qed.
Print Assumptions C85_meaning.

(** x'Hx + 2 g'x is, up to a positive factor and a constant, the integral of the squared speed, as far as the
    decimal constants allow. *)
Theorem C85_cost : forall pData T, In (flag_of pData) effector_flags -> 0 < T ->
  exists H g N K, py_velocityCost pData T = Ok (H, g) /\ 0 < N /\
  (forall i j, nth j (nth i H []) 0 = nth i (nth j H []) 0) /\
  forall xs M, length xs = eff_free (flag_of pData) -> exists cv, eff_curve pData T xs = Ok cv /\
    (Forall (within M) (bc_pts cv) -> exists i, speed_integral cv T i /\
       Rabs (N * (quad H (flat xs) + 2 * rdot g (flat xs)) + K - (2 * eff_degree (flag_of pData) - 1) * i) <= 3 * velocity_eps (flag_of pData) * (M * M) / T).
Proof. exact c85_cost. Qed.
Print Assumptions C85_cost.
