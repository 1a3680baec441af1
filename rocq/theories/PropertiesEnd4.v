(** Property theorems C66, C67: end-effector trajectories planned with the bundled QP
    solver.  Vocabulary: SpecEff.v, SpecEnd4.v, and SpecQp.v for [well_scaled] and
    [returns].  [mem] is whatever the solver's vectors contain beforehand. *)
From Verif Require Import Vec SpecBezier ModelData ModelDispatch ModelCont ModelSolver ModelTraj ModelEff ModelQp
  SpecCom SpecWp SpecTraj Spec0Step SpecEff SpecQp SpecEnd3 SpecEnd4 ProofEnd12.
Open Scope R_scope.

(** C66: a call returns, and a plan it calls successful has the eight boundary values
    and respects the bounds of velocity and jerk and the floor up to a tolerance. *)
Theorem C66_plan : forall with_glpk mem glpk init pData path (p : R -> vec3) T wd,
  (forall n, length (init n) = n) -> In (flag_of pData) effector_flags -> 0 < T -> T <= 1000000 ->
  (forall s, 0 <= s <= 1 -> path s = Ok (p s)) -> 0 <= wd <= 1 -> eff_on_scale (flag_of pData) T wd ->
  let tau := eff_tol (flag_of pData) wd in
  exists r, solveEndEffector with_glpk (solve_quadprog mem) glpk init pData path T wd = Ok r /\
    (rc_success r = true -> exists xs, length xs = eff_free (flag_of pData) /\ rc_x r = flat xs /\ eff_curve pData T xs = Ok (rc_c r) /\
      bc_T (rc_c r) = T /\ meets_all pData T (cv_fun (rc_c r)) /\
      (boundary_within 10000 pData T -> forall t, 0 <= t <= T ->
         exists v j, is_deriv_n 1 (cv_fun (rc_c r)) t v /\ within (10000 + tau) v /\ is_deriv_n 3 (cv_fun (rc_c r)) t j /\ within (10000 + tau) j) /\
      (boundary_above (Rmin (vz (c0 pData)) (vz (c1 pData))) pData T -> forall t, 0 <= t <= T ->
         Rmin (vz (c0 pData)) (vz (c1 pData)) - tau <= vz (cv_fun (rc_c r) t))).
Proof. exact c66_plan. Qed.
Print Assumptions C66_plan.

(** C67: if the free points that minimise the criterion without constraints meet the
    constraints, they are the plan. *)
Theorem C67_best : forall with_glpk mem glpk init pData path (p : R -> vec3) T wd,
  (forall n, length (init n) = n) -> In (flag_of pData) effector_flags -> 0 < T ->
  (forall s, 0 <= s <= 1 -> path s = Ok (p s)) -> 0 <= wd <= 1 ->
  exists pi M H g, computeConstantWaypoints pData T = Ok pi /\ computeEndEffectorConstraints pData T pi = Ok M /\
    computeEndEffectorCost pData path T wd pi = Ok (H, g) /\
    forall ys, length ys = eff_free (flag_of pData) -> unconstrained_best H g (flat ys) -> satX M (flat ys) ->
    exists r, solveEndEffector with_glpk (solve_quadprog mem) glpk init pData path T wd = Ok r /\ rc_success r = true /\
      rc_x r = flat ys /\ eff_curve pData T ys = Ok (rc_c r).
Proof. exact c67_best. Qed.
Print Assumptions C67_best.

(** With all the weight on the distance to the path, a path whose 50 samples are those
    of a curve that meets the constraints is followed: that curve is returned. *)
Theorem C67_follow : forall with_glpk mem glpk init pData path (p : R -> vec3) T pi M ys cv,
  (forall n, length (init n) = n) -> In (flag_of pData) effector_flags -> 0 < T ->
  (forall s, 0 <= s <= 1 -> path s = Ok (p s)) ->
  computeConstantWaypoints pData T = Ok pi -> computeEndEffectorConstraints pData T pi = Ok M ->
  length ys = eff_free (flag_of pData) -> satX M (flat ys) -> eff_curve pData T ys = Ok cv ->
  path_gap 50 pData T cv (fun k => p (INR k * (1 / (INR 50 - 1)))) = 0 ->
  exists r, solveEndEffector with_glpk (solve_quadprog mem) glpk init pData path T 1 = Ok r /\ rc_success r = true /\
    rc_x r = flat ys /\ rc_c r = cv.
Proof. exact c67_follow. Qed.
Print Assumptions C67_follow.

(** With the QP well scaled: feasible free points [ys] mean success with the least
    criterion, up to the approximation of C36, unless the solver gave up after its
    maximal number of iterations. *)
Theorem C67_optimal : forall pData path (p : R -> vec3) T,
  In (flag_of pData) effector_flags -> 0 < T -> (forall s, 0 <= s <= 1 -> path s = Ok (p s)) ->
  exists a b, 0 < a /\ 0 < b /\ forall with_glpk mem glpk init wd,
  (forall n, length (init n) = n) -> 0 <= wd <= 1 -> eff_on_scale (flag_of pData) T wd ->
  exists pi M H g r, computeConstantWaypoints pData T = Ok pi /\ computeEndEffectorConstraints pData T pi = Ok M /\
    computeEndEffectorCost pData path T wd pi = Ok (H, g) /\
    solveEndEffector with_glpk (solve_quadprog mem) glpk init pData path T wd = Ok r /\
    let q := eqp_of (ineq_qp H g M) in
    (well_scaled q -> forall ys, length ys = eff_free (flag_of pData) -> satX M (flat ys) ->
     (rc_success r = true /\ exists xs, length xs = eff_free (flag_of pData) /\ rc_x r = flat xs /\ eff_curve pData T xs = Ok (rc_c r) /\
        forall zs cv B i j, length zs = eff_free (flag_of pData) -> satX M (flat zs) -> eff_curve pData T zs = Ok cv ->
          Forall (within B) (bc_pts (rc_c r)) -> Forall (within B) (bc_pts cv) ->
          speed_integral (rc_c r) T i -> speed_integral cv T j ->
          (1 - wd) * a * i + wd * b * path_gap 50 pData T (rc_c r) (fun k => p (INR k * (1 / (INR 50 - 1)))) <=
          (1 - wd) * a * j + wd * b * path_gap 50 pData T cv (fun k => p (INR k * (1 / (INR 50 - 1))))
          + (1 - wd) * a * (6 * velocity_eps (flag_of pData) * (B * B)) / ((2 * eff_degree (flag_of pData) - 1) * T)) \/
     (rc_success r = false /\ (1000 <= subsets (length M) (3 * eff_free (flag_of pData)))%nat /\ exists st, returns q mem st_MAX_ITER st)).
Proof. exact c67_optimal. Qed.
Print Assumptions C67_optimal.
