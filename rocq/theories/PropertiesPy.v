(** Property theorems C68, C69 and C71: the functions of the python module.
    Vocabulary: SpecPy.v, Spec0Step.v, SpecEnd3.v, SpecEnd4.v.  [mem] is whatever the
    solver's vectors contain beforehand. *)
From Verif Require Import Vec SpecBezier ModelData ModelDispatch ModelCont ModelSolver ModelTraj Model0Step ModelEff ModelQp ModelPy
  SpecCom SpecWp SpecCtr SpecTraj Spec0Step SpecEff SpecQp SpecEnd3 SpecEnd4 SpecPy ProofPy ProofPy2.
Open Scope R_scope.

(** C68: zeroStepCapturability returns; a motion it calls successful starts at the given
    state, ends at rest at the first three entries of x, and meets the contact cone and
    the rows of Kin up to the solver's tolerance.  With angular momentum the rows apply
    to the sum of the two halves of x. *)
Theorem C68_continuous : forall with_glpk mem glpk ph com dCom l0 useAng T dt K k M kap, py_valid ph T K k -> z_no_steps T dt ->
  py_on_scale ph com dCom useAng T K M kap ->
  let tau := z_tol useAng (5 * length (cp_poly ph) + length k) in
  exists r, py_zeroStepKin with_glpk (solve_quadprog mem) glpk (Some ph) com dCom l0 useAng T dt (kin_matrix K) (kin_vector k) = Ok r /\
    (r0_success r = true -> exists x xL, py_x (r0_x r) = Ok (z_vec useAng x xL) /\ captured r com dCom T x /\
       (forall t, 0 <= t <= T -> wrench_near tau ph r t) /\ rows_near tau K k (if useAng then vadd x xL else x)).
Proof. exact c68_continuous. Qed.
Print Assumptions C68_continuous.
Theorem C68_samples : forall with_glpk mem glpk ph com dCom l0 useAng T dt N K k M kap, py_valid ph T K k -> z_steps T dt N -> (1 <= N)%nat ->
  py_on_scale ph com dCom useAng T K M kap ->
  let tau := z_tol useAng ((N + 1) * length (cp_poly ph) + length k) in
  exists r, py_zeroStepKin with_glpk (solve_quadprog mem) glpk (Some ph) com dCom l0 useAng T dt (kin_matrix K) (kin_vector k) = Ok r /\
    (r0_success r = true -> exists x xL, py_x (r0_x r) = Ok (z_vec useAng x xL) /\ captured r com dCom T x /\
       (forall i, (i <= N)%nat -> wrench_near tau ph r (INR i * (T / INR N))) /\ rows_near tau K k (if useAng then vadd x xL else x)).
Proof. exact c68_samples. Qed.
Print Assumptions C68_samples.
(** If coming back to the initial position meets the constraints, that is the result. *)
Theorem C68_return : forall with_glpk mem glpk ph com dCom l0 useAng T dt K k, py_valid ph T K k -> (z_no_steps T dt \/ exists N, z_steps T dt N) ->
  let xL := vscal (3 / 4) l0 in
  (z_no_steps T dt -> z_stable_ctrl ph useAng com dCom l0 T com xL) ->
  (forall N, z_steps T dt N -> (1 <= N)%nat -> forall i, (i <= N)%nat -> z_stable ph useAng com dCom l0 T com xL (INR i * (T / INR N))) ->
  rows_near 0 K k (if useAng then vadd com xL else com) ->
  exists r, py_zeroStepKin with_glpk (solve_quadprog mem) glpk (Some ph) com dCom l0 useAng T dt (kin_matrix K) (kin_vector k) = Ok r /\
    r0_success r = true /\ py_x (r0_x r) = Ok (z_vec useAng com xL) /\ captured r com dCom T com /\ (useAng = false -> r0_cost r = 0).
Proof. exact c68_return. Qed.
Print Assumptions C68_return.
(** Without Kin and kin the function does what it does with empty ones, with any solver. *)
Theorem C68_plain : forall with_glpk quadprog glpk eq com dCom l0 useAng T dt,
  py_zeroStep with_glpk quadprog glpk eq com dCom l0 useAng T dt =
  py_zeroStepKin with_glpk quadprog glpk eq com dCom l0 useAng T dt (kin_matrix []) (kin_vector []).
Proof. exact c68_plain. Qed.
Print Assumptions C68_plain.
(** With angular momentum the capture point can violate Kin x <= kin by more than 1/2. *)
Theorem C68_kinematics_refuted : forall mem glpk, exists ph com dCom l0 T dt K k r x, py_valid ph T K k /\
  py_zeroStepKin false (solve_quadprog mem) glpk (Some ph) com dCom l0 true T dt (kin_matrix K) (kin_vector k) = Ok r /\
  r0_success r = true /\ captured r com dCom T x /\ ~ rows_near (1 / 2) K k x.
Proof. exact c68_kinematics_refuted. Qed.
Print Assumptions C68_kinematics_refuted.
(** None instead of an Equilibrium, a Kin that has not three columns, more entries in kin
    than rows in Kin: undefined behaviour. *)
Theorem C68_null : forall with_glpk quadprog glpk com dCom l0 useAng T dt K k,
  py_zeroStep with_glpk quadprog glpk None com dCom l0 useAng T dt = UB /\
  py_zeroStepKin with_glpk quadprog glpk None com dCom l0 useAng T dt (kin_matrix K) (kin_vector k) = UB.
Proof. exact c68_null. Qed.
Print Assumptions C68_null.
Theorem C68_shape : forall with_glpk quadprog glpk eq com dCom l0 useAng T dt Kin kin, mx_cols Kin <> 3%nat ->
  py_zeroStepKin with_glpk quadprog glpk eq com dCom l0 useAng T dt Kin kin = UB.
Proof. exact c68_shape. Qed.
Print Assumptions C68_shape.
Theorem C68_short : forall with_glpk quadprog glpk ph com dCom l0 useAng T dt K k, py_valid ph T [] [] -> (z_no_steps T dt \/ exists N, z_steps T dt N) ->
  (length K < length k)%nat ->
  py_zeroStepKin with_glpk quadprog glpk (Some ph) com dCom l0 useAng T dt (kin_matrix K) (kin_vector k) = UB.
Proof. exact c68_short. Qed.
Print Assumptions C68_short.

(** C69: reading x of a result raises an exception exactly if success is False, with any
    solver; a result without success is the default one.  The cost of
    computeEndEffector is always -1. *)
Theorem C69_zero_step : forall with_glpk quadprog glpk eq com dCom l0 useAng T dt Kin kin r,
  py_zeroStep with_glpk quadprog glpk eq com dCom l0 useAng T dt = Ok r \/
  py_zeroStepKin with_glpk quadprog glpk eq com dCom l0 useAng T dt Kin kin = Ok r ->
  if r0_success r then py_x (r0_x r) = Ok (r0_x r) else r = default_result0 /\ py_x (r0_x r) = Throw.
Proof. exact c69_zero_step. Qed.
Print Assumptions C69_zero_step.
Theorem C69_com : forall with_glpk quadprog glpk scaled pData Ts dt solver r,
  py_computeCOMTraj with_glpk quadprog glpk scaled pData Ts dt solver = Ok r ->
  if rc_success r then py_x (rc_x r) = Ok (rc_x r) else r = default_result /\ py_x (rc_x r) = Throw.
Proof. exact c69_com. Qed.
Print Assumptions C69_com.
Theorem C69_effector : forall with_glpk quadprog glpk init pData T r,
  py_computeEndEffector with_glpk quadprog glpk init pData T = Ok r ->
  if rc_success r then py_x (rc_x r) = Ok (rc_x r) /\ rc_cost r = -1 else r = default_result /\ py_x (rc_x r) = Throw.
Proof. exact c69_effector. Qed.
Print Assumptions C69_effector.
(** Without a solver argument computeCOMTraj uses the bundled one, with or without GLPK. *)
Theorem C69_default : forall with_glpk with_glpk' quadprog glpk glpk' scaled pData Ts dt,
  py_computeCOMTraj with_glpk quadprog glpk scaled pData Ts dt None =
  py_computeCOMTraj with_glpk' quadprog glpk' scaled pData Ts dt (Some SOLVER_QUADPROG).
Proof. exact c69_default. Qed.
Print Assumptions C69_default.

(** C71: computeEndEffector. *)
Theorem C71_plan : forall with_glpk mem glpk init pData T, (forall n, length (init n) = n) -> In (flag_of pData) effector_flags ->
  shortest (flag_of pData) <= T <= 1000000 ->
  let tau := eff_tol (flag_of pData) 0 in
  exists r, py_computeEndEffector with_glpk (solve_quadprog mem) glpk init pData T = Ok r /\
    (rc_success r = true -> exists xs, length xs = eff_free (flag_of pData) /\ py_x (rc_x r) = Ok (flat xs) /\ eff_curve pData T xs = Ok (rc_c r) /\
      bc_T (rc_c r) = T /\ meets_all pData T (cv_fun (rc_c r)) /\
      (boundary_within 10000 pData T -> forall t, 0 <= t <= T ->
         exists v j, is_deriv_n 1 (cv_fun (rc_c r)) t v /\ within (10000 + tau) v /\ is_deriv_n 3 (cv_fun (rc_c r)) t j /\ within (10000 + tau) j) /\
      (boundary_above (Rmin (vz (c0 pData)) (vz (c1 pData))) pData T -> forall t, 0 <= t <= T ->
         Rmin (vz (c0 pData)) (vz (c1 pData)) - tau <= vz (cv_fun (rc_c r) t))).
Proof. exact c71_plan. Qed.
Print Assumptions C71_plan.
(** The least criterion without constraints, if it meets them. *)
Theorem C71_best : forall with_glpk mem glpk init pData T, (forall n, length (init n) = n) -> In (flag_of pData) effector_flags -> 0 < T ->
  exists pi M H g, computeConstantWaypoints pData T = Ok pi /\ computeEndEffectorConstraints pData T pi = Ok M /\
    computeEndEffectorCost pData (fun _ => Ok vzero) T 0 pi = Ok (H, g) /\
    forall ys, length ys = eff_free (flag_of pData) -> unconstrained_best H g (flat ys) -> satX M (flat ys) ->
    exists r, py_computeEndEffector with_glpk (solve_quadprog mem) glpk init pData T = Ok r /\ rc_success r = true /\
      rc_x r = flat ys /\ eff_curve pData T ys = Ok (rc_c r).
Proof. exact c71_best. Qed.
Print Assumptions C71_best.
(** Feasible free points mean success with the least integral of the squared speed, up
    to the error of the decimal constants, unless the solver gave up. *)
Theorem C71_optimal : forall pData T with_glpk mem glpk init, In (flag_of pData) effector_flags -> shortest (flag_of pData) <= T ->
  (forall n, length (init n) = n) ->
  exists pi M H g r, computeConstantWaypoints pData T = Ok pi /\ computeEndEffectorConstraints pData T pi = Ok M /\
    computeEndEffectorCost pData (fun _ => Ok vzero) T 0 pi = Ok (H, g) /\
    py_computeEndEffector with_glpk (solve_quadprog mem) glpk init pData T = Ok r /\
    let q := eqp_of (ineq_qp H g M) in
    (well_scaled q -> forall ys, length ys = eff_free (flag_of pData) -> satX M (flat ys) ->
     (rc_success r = true /\ exists xs, length xs = eff_free (flag_of pData) /\ rc_x r = flat xs /\ eff_curve pData T xs = Ok (rc_c r) /\
        forall zs cv B i j, length zs = eff_free (flag_of pData) -> satX M (flat zs) -> eff_curve pData T zs = Ok cv ->
          Forall (within B) (bc_pts (rc_c r)) -> Forall (within B) (bc_pts cv) ->
          speed_integral (rc_c r) T i -> speed_integral cv T j ->
          i <= j + 6 * velocity_eps (flag_of pData) * (B * B) / ((2 * eff_degree (flag_of pData) - 1) * T)) \/
     (rc_success r = false /\ (1000 <= subsets (length M) (3 * eff_free (flag_of pData)))%nat /\ exists st, returns q mem st_MAX_ITER st)).
Proof. exact c71_optimal. Qed.
Print Assumptions C71_optimal.
(** computeEndEffectorDistanceCost is defined exactly for a number of points between
    three and the number of columns. *)
Theorem C71_distance : forall pData T numPoints pts, In (flag_of pData) effector_flags -> 0 < T ->
  ((exists Hg, py_distanceCost pData T numPoints pts = Ok Hg) <-> (3 <= numPoints <= Z.of_nat (length pts))%Z) /\
  (~ (3 <= numPoints <= Z.of_nat (length pts))%Z -> py_distanceCost pData T numPoints pts = UB).
Proof. exact c71_distance. Qed.
Print Assumptions C71_distance.
