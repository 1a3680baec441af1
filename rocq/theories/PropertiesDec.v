(** Property theorems C51, C53, C54 for the two flags whose wrench formulas use
    decimals.  Vocabulary: SpecTraj.v, SpecEnd.v, SpecDec.v, and SpecQp.v for
    [well_scaled] and [returns].  [G] bounds the gravity, [M] the control points of a
    motion, [M0] those of the motion through the origin. *)
From Verif Require Import Vec SpecBezier SpecTime ModelData ModelDispatch ModelUtils ModelCom ModelCont ModelSolver ModelTraj ModelQp
  SpecCom SpecWp SpecCtr SpecSolver SpecTraj SpecQp SpecEnd SpecDec ProofEnd13 ProofDec.
Open Scope R_scope.

(** C51: a motion that meets the constraints with the error of the wrench in reserve
    means success, at no greater cost, and the plan meets them up to that error. *)
Theorem C51_distance_step_decimal : forall scaled with_glpk quadprog glpk, qp_solves quadprog ->
  forall pData Ts g G, well_posed pData Ts -> same_gravity pData g -> within G g -> In (flag_of pData) dec_w_flags ->
  forall dt x cv M, 0 < dt -> costFunction pData = DISTANCE_TRAVELED ->
  com_curve pData (total Ts) x = Ok cv -> Forall (within M) (bc_pts cv) ->
  plan_feasible_by pData (sampled_step Ts dt) (- dec_slack G M (total Ts)) (cv_fun cv) -> exists r x',
  computeCOMTraj scaled with_glpk quadprog glpk pData Ts dt SOLVER_QUADPROG = Ok r /\ rc_success r = true /\ rc_x r = l3 x' /\
  com_curve pData (total Ts) x' = Ok (rc_c r) /\
  (forall M', Forall (within M') (bc_pts (rc_c r)) -> plan_feasible_by pData (sampled_step Ts dt) (dec_slack G M' (total Ts)) (cv_fun (rc_c r))) /\
  vnorm2 (vsub x' (mid_of pData)) <= vnorm2 (vsub x (mid_of pData)).
Proof. exact c51_dist_step_dec. Qed.
Print Assumptions C51_distance_step_decimal.

Theorem C51_distance_fixed_decimal : forall scaled with_glpk quadprog glpk, qp_solves quadprog ->
  forall pData Ts g G, well_posed pData Ts -> same_gravity pData g -> within G g -> In (flag_of pData) dec_w_flags ->
  forall p x cv M, (1 <= p)%nat -> costFunction pData = DISTANCE_TRAVELED ->
  com_curve pData (total Ts) x = Ok cv -> Forall (within M) (bc_pts cv) ->
  plan_feasible_by pData (sampled_fixed Ts p) (- dec_slack G M (total Ts)) (cv_fun cv) -> exists r x',
  computeCOMTrajFixedSize scaled with_glpk quadprog glpk pData Ts p = Ok r /\ rc_success r = true /\ rc_x r = l3 x' /\
  com_curve pData (total Ts) x' = Ok (rc_c r) /\
  (forall M', Forall (within M') (bc_pts (rc_c r)) -> plan_feasible_by pData (sampled_fixed Ts p) (dec_slack G M' (total Ts)) (cv_fun (rc_c r))) /\
  vnorm2 (vsub x' (mid_of pData)) <= vnorm2 (vsub x (mid_of pData)).
Proof. exact c51_dist_fixed_dec. Qed.
Print Assumptions C51_distance_fixed_decimal.

Theorem C51_acceleration_step_decimal : forall scaled with_glpk quadprog glpk, qp_solves quadprog ->
  forall pData Ts g G, well_posed pData Ts -> same_gravity pData g -> within G g -> In (flag_of pData) dec_w_flags ->
  forall dt x cv ta M, 0 < dt -> costFunction pData = ACCELERATION ->
  computeDiscretizedTime Ts dt = Ok ta -> acc_depends pData Ts ta ->
  com_curve pData (total Ts) x = Ok cv -> Forall (within M) (bc_pts cv) ->
  plan_feasible_by pData (sampled_step Ts dt) (- dec_slack G M (total Ts)) (cv_fun cv) -> exists r x' s s',
  computeCOMTraj scaled with_glpk quadprog glpk pData Ts dt SOLVER_QUADPROG = Ok r /\ rc_success r = true /\ rc_x r = l3 x' /\
  com_curve pData (total Ts) x' = Ok (rc_c r) /\
  (forall M', Forall (within M') (bc_pts (rc_c r)) -> plan_feasible_by pData (sampled_step Ts dt) (dec_slack G M' (total Ts)) (cv_fun (rc_c r))) /\
  sum_acc2 (cv_fun (rc_c r)) ta s' /\ sum_acc2 (cv_fun cv) ta s /\ s' <= s.
Proof. exact c51_acc_step_dec. Qed.
Print Assumptions C51_acceleration_step_decimal.

Theorem C51_acceleration_fixed_decimal : forall scaled with_glpk quadprog glpk, qp_solves quadprog ->
  forall pData Ts g G, well_posed pData Ts -> same_gravity pData g -> within G g -> In (flag_of pData) dec_w_flags ->
  forall p x cv M, (1 <= p)%nat -> costFunction pData = ACCELERATION ->
  acc_depends pData Ts (computeDiscretizedTimeFixed Ts p) ->
  com_curve pData (total Ts) x = Ok cv -> Forall (within M) (bc_pts cv) ->
  plan_feasible_by pData (sampled_fixed Ts p) (- dec_slack G M (total Ts)) (cv_fun cv) -> exists r x' s s',
  computeCOMTrajFixedSize scaled with_glpk quadprog glpk pData Ts p = Ok r /\ rc_success r = true /\ rc_x r = l3 x' /\
  com_curve pData (total Ts) x' = Ok (rc_c r) /\
  (forall M', Forall (within M') (bc_pts (rc_c r)) -> plan_feasible_by pData (sampled_fixed Ts p) (dec_slack G M' (total Ts)) (cv_fun (rc_c r))) /\
  sum_acc2 (cv_fun (rc_c r)) (computeDiscretizedTimeFixed Ts p) s' /\ sum_acc2 (cv_fun cv) (computeDiscretizedTimeFixed Ts p) s /\ s' <= s.
Proof. exact c51_acc_fixed_dec. Qed.
Print Assumptions C51_acceleration_fixed_decimal.

(** C53: a call of the planner with the bundled solver returns, and a plan it calls
    successful meets every constraint up to the solver's tolerance and the error of the
    wrench. *)
Theorem C53_fixed_decimal : forall scaled with_glpk mem glpk pData Ts g G M0 cv0 lam B kap,
  well_posed pData Ts -> same_gravity pData g -> within G g -> In (flag_of pData) dec_w_flags ->
  1 <= M0 -> com_curve pData (total Ts) vzero = Ok cv0 -> Forall (within M0) (bc_pts cv0) ->
  let B' := B + 2 * dec_slack G M0 (total Ts) in on_scale pData lam B' kap ->
  forall p, (1 <= p)%nat -> cost_weight pData Ts (computeDiscretizedTimeFixed Ts p) lam ->
  (forall i t, sampled_fixed Ts p i t -> wrench_rate pData (total Ts) g B t) ->
  let tau := plan_tol (rows_needed (contacts pData) (fun _ => S p) 0 + acc_needed pData (length Ts * p + 1)) lam in
  exists r, computeCOMTrajFixedSize scaled with_glpk (solve_quadprog mem) glpk pData Ts p = Ok r /\
    (rc_success r = true -> plan_curve pData Ts r /\
     forall M, Forall (within M) (bc_pts (rc_c r)) -> forall i c t, nth_error (contacts pData) i = Some c -> sampled_fixed Ts p i t ->
       contact_near pData tau (tau * B' + dec_slack G M (total Ts)) c (cv_fun (rc_c r)) t /\ accel_near pData tau (cv_fun (rc_c r)) t).
Proof. exact c53_fixed_dec. Qed.
Print Assumptions C53_fixed_decimal.

Theorem C53_step_decimal : forall scaled with_glpk mem glpk pData Ts g G M0 cv0 lam B kap,
  well_posed pData Ts -> same_gravity pData g -> within G g -> In (flag_of pData) dec_w_flags ->
  1 <= M0 -> com_curve pData (total Ts) vzero = Ok cv0 -> Forall (within M0) (bc_pts cv0) ->
  let B' := B + 2 * dec_slack G M0 (total Ts) in on_scale pData lam B' kap ->
  forall dt ta, 0 < dt -> computeDiscretizedTime Ts dt = Ok ta -> cost_weight pData Ts ta lam ->
  (forall i t, sampled_step Ts dt i t -> wrench_rate pData (total Ts) g B t) ->
  exists ns r, length ns = length Ts /\ (forall i k, nth_error ns i = Some k -> steps_to (phase_start Ts i) (phase_end Ts i) dt k) /\
    computeCOMTraj scaled with_glpk (solve_quadprog mem) glpk pData Ts dt SOLVER_QUADPROG = Ok r /\
    let tau := plan_tol (rows_needed (contacts pData) (fun i => nth i ns 0 + (if Nat.eqb i 0 then 1 else 2)) 0
                         + acc_needed pData (fold_right Nat.add 0 (map S ns)))%nat lam in
    (rc_success r = true -> plan_curve pData Ts r /\
     forall M, Forall (within M) (bc_pts (rc_c r)) -> forall i c t, nth_error (contacts pData) i = Some c -> sampled_step Ts dt i t ->
       contact_near pData tau (tau * B' + dec_slack G M (total Ts)) c (cv_fun (rc_c r)) t /\ accel_near pData tau (cv_fun (rc_c r)) t).
Proof. exact c53_step_dec. Qed.
Print Assumptions C53_step_decimal.

(** C54: if the cheapest of all motions meets the constraints with the error of the
    wrench in reserve, it is the answer. *)
Theorem C54_best_fixed_decimal : forall scaled with_glpk mem glpk pData Ts p g G lam x cv M,
  well_posed pData Ts -> (1 <= p)%nat -> same_gravity pData g -> within G g -> In (flag_of pData) dec_w_flags ->
  cost_weight pData Ts (computeDiscretizedTimeFixed Ts p) lam -> 0 < lam ->
  com_curve pData (total Ts) x = Ok cv -> Forall (within M) (bc_pts cv) ->
  plan_feasible_by pData (sampled_fixed Ts p) (- dec_slack G M (total Ts)) (cv_fun cv) ->
  cheapest pData Ts (computeDiscretizedTimeFixed Ts p) x (cv_fun cv) ->
  exists r, computeCOMTrajFixedSize scaled with_glpk (solve_quadprog mem) glpk pData Ts p = Ok r /\
    rc_success r = true /\ rc_x r = l3 x /\ rc_c r = cv.
Proof. exact c54_best_fixed_dec. Qed.
Print Assumptions C54_best_fixed_decimal.

Theorem C54_best_step_decimal : forall scaled with_glpk mem glpk pData Ts dt ta g G lam x cv M,
  well_posed pData Ts -> 0 < dt -> same_gravity pData g -> within G g -> In (flag_of pData) dec_w_flags ->
  computeDiscretizedTime Ts dt = Ok ta -> cost_weight pData Ts ta lam -> 0 < lam ->
  com_curve pData (total Ts) x = Ok cv -> Forall (within M) (bc_pts cv) ->
  plan_feasible_by pData (sampled_step Ts dt) (- dec_slack G M (total Ts)) (cv_fun cv) ->
  cheapest pData Ts ta x (cv_fun cv) ->
  exists r, computeCOMTraj scaled with_glpk (solve_quadprog mem) glpk pData Ts dt SOLVER_QUADPROG = Ok r /\
    rc_success r = true /\ rc_x r = l3 x /\ rc_c r = cv.
Proof. exact c54_best_step_dec. Qed.
Print Assumptions C54_best_step_decimal.

(** With the QP well scaled: a motion [y] that meets the constraints with the error of
    the wrench in reserve means success, at no greater cost, unless the solver gave up
    after its maximal number of iterations. *)
Theorem C54_optimal_fixed_decimal : forall scaled with_glpk mem glpk pData Ts g G M0 cv0 lam B kap,
  well_posed pData Ts -> same_gravity pData g -> within G g -> In (flag_of pData) dec_w_flags ->
  1 <= M0 -> com_curve pData (total Ts) vzero = Ok cv0 -> Forall (within M0) (bc_pts cv0) ->
  on_scale pData lam (B + 2 * dec_slack G M0 (total Ts)) kap ->
  forall p, (1 <= p)%nat -> let ta := computeDiscretizedTimeFixed Ts p in cost_weight pData Ts ta lam ->
  (forall i t, sampled_fixed Ts p i t -> wrench_rate pData (total Ts) g B t) ->
  exists rows H gg r, computeConstraintsOneStep pData Ts (total Ts) ta = Ok rows /\
    genCostFunction pData Ts (total Ts) ta 3 = Ok (H, gg) /\
    computeCOMTrajFixedSize scaled with_glpk (solve_quadprog mem) glpk pData Ts p = Ok r /\
    (well_scaled (eqp_of (plan_qp H gg rows)) ->
     forall y cvy M, com_curve pData (total Ts) y = Ok cvy -> Forall (within M) (bc_pts cvy) ->
     plan_feasible_by pData (sampled_fixed Ts p) (- dec_slack G M (total Ts)) (cv_fun cvy) ->
     (rc_success r = true /\ exists x s s', rc_x r = l3 x /\ com_curve pData (total Ts) x = Ok (rc_c r) /\
        plan_cost pData ta x (cv_fun (rc_c r)) s /\ plan_cost pData ta y (cv_fun cvy) s' /\ s <= s') \/
     (rc_success r = false /\ (1000 <= subsets (length rows) 3)%nat /\ exists st, returns (eqp_of (plan_qp H gg rows)) mem st_MAX_ITER st)).
Proof. exact c54_optimal_fixed_dec. Qed.
Print Assumptions C54_optimal_fixed_decimal.

Theorem C54_optimal_step_decimal : forall scaled with_glpk mem glpk pData Ts g G M0 cv0 lam B kap,
  well_posed pData Ts -> same_gravity pData g -> within G g -> In (flag_of pData) dec_w_flags ->
  1 <= M0 -> com_curve pData (total Ts) vzero = Ok cv0 -> Forall (within M0) (bc_pts cv0) ->
  on_scale pData lam (B + 2 * dec_slack G M0 (total Ts)) kap ->
  forall dt ta, 0 < dt -> computeDiscretizedTime Ts dt = Ok ta -> cost_weight pData Ts ta lam ->
  (forall i t, sampled_step Ts dt i t -> wrench_rate pData (total Ts) g B t) ->
  exists rows H gg r, computeConstraintsOneStep pData Ts (total Ts) ta = Ok rows /\
    genCostFunction pData Ts (total Ts) ta 3 = Ok (H, gg) /\
    computeCOMTraj scaled with_glpk (solve_quadprog mem) glpk pData Ts dt SOLVER_QUADPROG = Ok r /\
    (well_scaled (eqp_of (plan_qp H gg rows)) ->
     forall y cvy M, com_curve pData (total Ts) y = Ok cvy -> Forall (within M) (bc_pts cvy) ->
     plan_feasible_by pData (sampled_step Ts dt) (- dec_slack G M (total Ts)) (cv_fun cvy) ->
     (rc_success r = true /\ exists x s s', rc_x r = l3 x /\ com_curve pData (total Ts) x = Ok (rc_c r) /\
        plan_cost pData ta x (cv_fun (rc_c r)) s /\ plan_cost pData ta y (cv_fun cvy) s' /\ s <= s') \/
     (rc_success r = false /\ (1000 <= subsets (length rows) 3)%nat /\ exists st, returns (eqp_of (plan_qp H gg rows)) mem st_MAX_ITER st)).
Proof. exact c54_optimal_step_dec. Qed.
Print Assumptions C54_optimal_step_decimal.
