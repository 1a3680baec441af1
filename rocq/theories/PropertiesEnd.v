(** Property theorems C53, C54: plans made with the bundled QP solver, without
    assumptions about a back end.  Vocabulary: SpecTraj.v, SpecEnd.v, and SpecQp.v for
    [well_scaled] and [returns].  [mem] is whatever the solver's vectors contain
    beforehand. *)
From Verif Require Import Vec SpecBezier SpecTime ModelData ModelDispatch ModelUtils ModelCom ModelCont ModelSolver ModelTraj ModelQp
  SpecCom SpecWp SpecCtr SpecSolver SpecTraj SpecQp SpecEnd ProofEnd2 ProofEnd3 ProofEnd4.
Open Scope R_scope.

(** C53: a call returns, and a plan it calls successful meets every constraint up to
    the solver's tolerance. *)
Theorem C53_fixed : forall scaled with_glpk mem glpk pData Ts p g lam B kap,
  well_posed pData Ts -> (1 <= p)%nat -> same_gravity pData g -> In (flag_of pData) exact_w_flags ->
  cost_weight pData Ts (computeDiscretizedTimeFixed Ts p) lam -> on_scale pData lam B kap ->
  (forall i t, sampled_fixed Ts p i t -> wrench_rate pData (total Ts) g B t) ->
  let tau := plan_tol (rows_needed (contacts pData) (fun _ => S p) 0 + acc_needed pData (length Ts * p + 1)) lam in
  exists r, computeCOMTrajFixedSize scaled with_glpk (solve_quadprog mem) glpk pData Ts p = Ok r /\
    (rc_success r = true -> plan_curve pData Ts r /\
     forall i c t, nth_error (contacts pData) i = Some c -> sampled_fixed Ts p i t ->
       contact_near pData tau (tau * B) c (cv_fun (rc_c r)) t /\ accel_near pData tau (cv_fun (rc_c r)) t).
Proof. exact c53_fixed. Qed.
Print Assumptions C53_fixed.

Theorem C53_step : forall scaled with_glpk mem glpk pData Ts dt g lam B kap ta,
  well_posed pData Ts -> 0 < dt -> same_gravity pData g -> In (flag_of pData) exact_w_flags ->
  computeDiscretizedTime Ts dt = Ok ta -> cost_weight pData Ts ta lam -> on_scale pData lam B kap ->
  (forall i t, sampled_step Ts dt i t -> wrench_rate pData (total Ts) g B t) ->
  exists ns r, length ns = length Ts /\ (forall i k, nth_error ns i = Some k -> steps_to (phase_start Ts i) (phase_end Ts i) dt k) /\
    computeCOMTraj scaled with_glpk (solve_quadprog mem) glpk pData Ts dt SOLVER_QUADPROG = Ok r /\
    let tau := plan_tol (rows_needed (contacts pData) (fun i => nth i ns 0 + (if Nat.eqb i 0 then 1 else 2)) 0
                         + acc_needed pData (fold_right Nat.add 0 (map S ns)))%nat lam in
    (rc_success r = true -> plan_curve pData Ts r /\
     forall i c t, nth_error (contacts pData) i = Some c -> sampled_step Ts dt i t ->
       contact_near pData tau (tau * B) c (cv_fun (rc_c r)) t /\ accel_near pData tau (cv_fun (rc_c r)) t).
Proof. exact c53_step. Qed.
Print Assumptions C53_step.

(** A rate of the wrench, from the control points of the motion through the origin. *)
Theorem C53_rate : forall pData T g G M cv0 t,
  In (flag_of pData) com_flags -> com_curve pData T vzero = Ok cv0 ->
  Forall (fun p => vnorm p <= M) (bc_pts cv0) -> vnorm g <= G -> 0 <= t <= T ->
  wrench_rate pData T g (1 + (120 + 240 * M) / (T * T) + G) t.
Proof. exact c53_rate. Qed.
Print Assumptions C53_rate.

(** A weight of the acceleration cost. *)
Theorem C53_weight : forall pData Ts ta, well_posed pData Ts -> times_of Ts ta -> costFunction pData = ACCELERATION ->
  exists lam, cost_weight pData Ts ta lam /\ (0 < lam <-> acc_depends pData Ts ta).
Proof. exact c53_weight. Qed.
Print Assumptions C53_weight.

(** C54: if the cheapest of all motions meets the constraints, it is the answer. *)
Theorem C54_best_fixed : forall scaled with_glpk mem glpk pData Ts p g lam x cv,
  well_posed pData Ts -> (1 <= p)%nat -> same_gravity pData g -> In (flag_of pData) exact_w_flags ->
  cost_weight pData Ts (computeDiscretizedTimeFixed Ts p) lam -> 0 < lam ->
  com_curve pData (total Ts) x = Ok cv -> plan_feasible pData (sampled_fixed Ts p) (cv_fun cv) ->
  cheapest pData Ts (computeDiscretizedTimeFixed Ts p) x (cv_fun cv) ->
  exists r, computeCOMTrajFixedSize scaled with_glpk (solve_quadprog mem) glpk pData Ts p = Ok r /\
    rc_success r = true /\ rc_x r = l3 x /\ rc_c r = cv.
Proof. exact c54_best_fixed. Qed.
Print Assumptions C54_best_fixed.

Theorem C54_best_step : forall scaled with_glpk mem glpk pData Ts dt ta g lam x cv,
  well_posed pData Ts -> 0 < dt -> same_gravity pData g -> In (flag_of pData) exact_w_flags ->
  computeDiscretizedTime Ts dt = Ok ta -> cost_weight pData Ts ta lam -> 0 < lam ->
  com_curve pData (total Ts) x = Ok cv -> plan_feasible pData (sampled_step Ts dt) (cv_fun cv) ->
  cheapest pData Ts ta x (cv_fun cv) ->
  exists r, computeCOMTraj scaled with_glpk (solve_quadprog mem) glpk pData Ts dt SOLVER_QUADPROG = Ok r /\
    rc_success r = true /\ rc_x r = l3 x /\ rc_c r = cv.
Proof. exact c54_best_step. Qed.
Print Assumptions C54_best_step.

(** With the QP well scaled: a feasible motion [y] means success, at no greater cost,
    unless the solver gave up after its maximal number of iterations. *)
Theorem C54_optimal_fixed : forall scaled with_glpk mem glpk pData Ts p g lam B kap,
  well_posed pData Ts -> (1 <= p)%nat -> same_gravity pData g -> In (flag_of pData) exact_w_flags ->
  let ta := computeDiscretizedTimeFixed Ts p in
  cost_weight pData Ts ta lam -> on_scale pData lam B kap ->
  (forall i t, sampled_fixed Ts p i t -> wrench_rate pData (total Ts) g B t) ->
  exists rows H gg r, computeConstraintsOneStep pData Ts (total Ts) ta = Ok rows /\
    genCostFunction pData Ts (total Ts) ta 3 = Ok (H, gg) /\
    computeCOMTrajFixedSize scaled with_glpk (solve_quadprog mem) glpk pData Ts p = Ok r /\
    (well_scaled (eqp_of (plan_qp H gg rows)) ->
     forall y cvy, com_curve pData (total Ts) y = Ok cvy -> plan_feasible pData (sampled_fixed Ts p) (cv_fun cvy) ->
     (rc_success r = true /\ exists x s s', rc_x r = l3 x /\ com_curve pData (total Ts) x = Ok (rc_c r) /\
        plan_cost pData ta x (cv_fun (rc_c r)) s /\ plan_cost pData ta y (cv_fun cvy) s' /\ s <= s') \/
     (rc_success r = false /\ (1000 <= subsets (length rows) 3)%nat /\ exists st, returns (eqp_of (plan_qp H gg rows)) mem st_MAX_ITER st)).
Proof. exact c54_optimal_fixed. Qed.
Print Assumptions C54_optimal_fixed.

Theorem C54_optimal_step : forall scaled with_glpk mem glpk pData Ts dt ta g lam B kap,
  well_posed pData Ts -> 0 < dt -> same_gravity pData g -> In (flag_of pData) exact_w_flags ->
  computeDiscretizedTime Ts dt = Ok ta ->
  cost_weight pData Ts ta lam -> on_scale pData lam B kap ->
  (forall i t, sampled_step Ts dt i t -> wrench_rate pData (total Ts) g B t) ->
  exists rows H gg r, computeConstraintsOneStep pData Ts (total Ts) ta = Ok rows /\
    genCostFunction pData Ts (total Ts) ta 3 = Ok (H, gg) /\
    computeCOMTraj scaled with_glpk (solve_quadprog mem) glpk pData Ts dt SOLVER_QUADPROG = Ok r /\
    (well_scaled (eqp_of (plan_qp H gg rows)) ->
     forall y cvy, com_curve pData (total Ts) y = Ok cvy -> plan_feasible pData (sampled_step Ts dt) (cv_fun cvy) ->
     (rc_success r = true /\ exists x s s', rc_x r = l3 x /\ com_curve pData (total Ts) x = Ok (rc_c r) /\
        plan_cost pData ta x (cv_fun (rc_c r)) s /\ plan_cost pData ta y (cv_fun cvy) s' /\ s <= s') \/
     (rc_success r = false /\ (1000 <= subsets (length rows) 3)%nat /\ exists st, returns (eqp_of (plan_qp H gg rows)) mem st_MAX_ITER st)).
Proof. exact c54_optimal_step. Qed.
Print Assumptions C54_optimal_step.
