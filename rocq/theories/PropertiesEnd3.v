(** Property theorems C64, C65: the zero-step capture problem solved with the bundled
    QP solver, and the accuracy of that solver (C41).  Vocabulary: Spec0Step.v,
    SpecEnd3.v, and SpecQp.v for [well_scaled], [conditioned] and [returns].  [mem] is
    whatever the solver's vectors contain beforehand. *)
From Verif Require Import Vec SpecBezier ModelData ModelDispatch ModelCont ModelSolver ModelTraj Model0Step ModelQp
  SpecCom SpecWp SpecCtr SpecSolver SpecTraj Spec0Step SpecQp SpecEnd3 ProofQp16 ProofEnd10.
Open Scope R_scope.

(** C41: the accuracy of an optimal answer, from the data of the problem alone. *)
Theorem C41_accuracy : forall (q : eqp) (mem : qst) (lam : R),
  symmetric q -> conditioned q lam -> e_E q = 0%nat ->
  exists status st, returns q mem status st /\ (status = st_OPTIMAL \/ status = st_MAX_ITER \/ status = st_UNBOUNDED) /\
    (status = st_OPTIMAL -> violation q (q_x st) <= accuracy (e_n q) (e_I q) (trace (e_n q) (e_H q)) lam).
Proof. exact c41_accuracy. Qed.
Print Assumptions C41_accuracy.

(** C64: a call returns, and a plan it calls successful has the required ends, the
    reported cost, and meets the constraints up to the solver's tolerance: at every
    instant without samples ... *)
Theorem C64_continuous : forall with_glpk mem glpk pData Ts ct ph T dt M kap, z_posed pData Ts ct ph T ->
  z_no_steps T dt -> z_on_scale pData ct ph T M kap ->
  let tau := z_tol (useAngularMomentum pData) (z_rows (useAngularMomentum pData) ct ph 5) in
  exists r, solve0step with_glpk (solve_quadprog mem) glpk pData Ts dt = Ok r /\
    (r0_success r = true -> exists x xL, z_plan pData T r x xL /\ z_cost_reported pData T r x /\
      cv_fun (r0_c r) 0 = c0 pData /\ is_deriv_n 1 (cv_fun (r0_c r)) 0 (dc0 pData) /\
      cv_fun (r0_c r) T = x /\ is_deriv_n 1 (cv_fun (r0_c r)) T vzero /\
      (forall t acc, 0 <= t <= T -> is_deriv_n 2 (cv_fun (r0_c r)) t acc ->
         cone0_near tau ph (giwL (cp_mass ph) (cp_gravity ph) (cv_fun (r0_c r) t) acc (dL_fun (r0_dL r) t))) /\
      z_geom (useAngularMomentum pData) (loosen tau ct) x xL).
Proof. exact c64_continuous. Qed.
Print Assumptions C64_continuous.

(** ... at the samples with [N] steps. *)
Theorem C64_samples : forall with_glpk mem glpk pData Ts ct ph T dt M kap, z_posed pData Ts ct ph T ->
  forall N, z_steps T dt N -> (1 <= N)%nat -> z_on_scale pData ct ph T M kap ->
  let tau := z_tol (useAngularMomentum pData) (z_rows (useAngularMomentum pData) ct ph (N + 1)) in
  exists r, solve0step with_glpk (solve_quadprog mem) glpk pData Ts dt = Ok r /\
    (r0_success r = true -> exists x xL, z_plan pData T r x xL /\ z_cost_reported pData T r x /\
      cv_fun (r0_c r) 0 = c0 pData /\ is_deriv_n 1 (cv_fun (r0_c r)) 0 (dc0 pData) /\
      cv_fun (r0_c r) T = x /\ is_deriv_n 1 (cv_fun (r0_c r)) T vzero /\
      (forall i acc, (i <= N)%nat -> let t := INR i * (T / INR N) in is_deriv_n 2 (cv_fun (r0_c r)) t acc ->
         cone0_near tau ph (giwL (cp_mass ph) (cp_gravity ph) (cv_fun (r0_c r) t) acc (dL_fun (r0_dL r) t))) /\
      z_geom (useAngularMomentum pData) (loosen tau ct) x xL).
Proof. exact c64_samples. Qed.
Print Assumptions C64_samples.

(** C65: if coming back to the initial position meets the constraints, that is the
    plan. *)
Theorem C65_best : forall with_glpk mem glpk pData Ts ct ph T dt, z_posed pData Ts ct ph T ->
  (z_no_steps T dt \/ exists N, z_steps T dt N) ->
  let xL := vscal (3 / 4) (l0 pData) in
  z_wrench_ok pData ph T dt (c0 pData) xL -> z_geom (useAngularMomentum pData) ct (c0 pData) xL ->
  exists r, solve0step with_glpk (solve_quadprog mem) glpk pData Ts dt = Ok r /\
    z_plan pData T r (c0 pData) xL /\ z_cost_reported pData T r (c0 pData).
Proof. exact c65_best. Qed.
Print Assumptions C65_best.

(** With the QP well scaled: free points [y], [yL] that meet the constraints mean
    success with a criterion not above theirs, unless the solver gave up after its
    maximal number of iterations. *)
Theorem C65_optimal : forall with_glpk mem glpk pData Ts ct ph T dt M kap, z_posed pData Ts ct ph T ->
  (z_no_steps T dt \/ exists N, z_steps T dt N) -> z_on_scale pData ct ph T M kap ->
  let useAng := useAngularMomentum pData in
  exists Ab H gg r, compute6dControlPointInequalities ct (c0 pData) (dc0 pData) (l0 pData) useAng T dt = Ok Ab /\
    z_cost (c0 pData) (l0 pData) useAng = Ok (H, gg) /\
    solve0step with_glpk (solve_quadprog mem) glpk pData Ts dt = Ok r /\
    let q := eqp_of (ineq_qp H gg (map (fun a => (z_row_list useAng a, zr_b a)) Ab)) in
    (well_scaled q -> forall y yL, z_wrench_ok pData ph T dt y yL -> z_geom useAng ct y yL ->
     (r0_success r = true /\ exists x xL v v', z_plan pData T r x xL /\ z_criterion pData T x xL v /\ z_criterion pData T y yL v' /\ v <= v') \/
     (r0_success r = false /\ (1000 <= subsets (length Ab) (z_dim useAng))%nat /\ exists st, returns q mem st_MAX_ITER st)).
Proof. exact c65_optimal. Qed.
Print Assumptions C65_optimal.

(** The number of rows that takes (also in C54, C63). *)
Theorem C65_rows : forall m, ((1000 <= subsets m 3)%nat -> (19 <= m)%nat) /\ ((1000 <= subsets m 6)%nat -> (11 <= m)%nat).
Proof. exact c65_rows. Qed.
Print Assumptions C65_rows.
