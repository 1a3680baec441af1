(** Property theorems C62, C63 for the two flags whose wrench formulas use decimals.
    Vocabulary: SpecTraj.v, SpecCont.v, SpecEnd.v, SpecEnd2.v, SpecDec.v, SpecDec2.v, and
    SpecQp.v for [well_scaled] and [returns].  [G] bounds the gravity, [M] the control
    points of a motion, [M0] those of the motion through the origin. *)
From Verif Require Import Vec SpecBezier SpecTime ModelData ModelDispatch ModelUtils ModelCom ModelCont ModelSolver ModelTraj ModelQp
  SpecCom SpecWp SpecCtr SpecCont SpecSolver SpecTraj SpecQp SpecEnd SpecEnd2 SpecDec SpecDec2 ProofEnd14 ProofEnd15.
Open Scope R_scope.

(** C62: a call returns, and a plan it calls successful meets every constraint at every
    instant of its phase, up to the solver's tolerance and the error of the wrench. *)
Theorem C62_continuous_decimal : forall scaled with_glpk mem glpk pData Ts dt g G ws,
  well_posed pData Ts -> dt <= 0 -> same_gravity pData g -> within G g ->
  representation pData = DOUBLE_DESCRIPTION -> In (flag_of pData) dec_w_flags -> computeWwaypoints pData (total Ts) = Ok ws ->
  forall M0 cv0 lam B kap pi, splittable Ts ->
  1 <= M0 -> com_curve pData (total Ts) vzero = Ok cv0 -> Forall (within M0) (bc_pts cv0) ->
  computeConstantWaypoints pData (total Ts) = Ok pi ->
  cost_weight pData Ts (computeDiscretizedTimeFixed Ts 7) lam ->
  let B' := B + 2 * dec_slack G M0 (total Ts) in on_scale pData lam B' kap -> acc_ctrl_rate scaled Ts <= B' ->
  wrench_ctrl_rate pData (total Ts) g (length ws) B ->
  let tau := plan_tol (cont_rows_needed true (length pi) (length ws) (contacts pData)) lam in
  exists r, computeCOMTraj scaled with_glpk (solve_quadprog mem) glpk pData Ts dt SOLVER_QUADPROG = Ok r /\
    (rc_success r = true -> plan_curve pData Ts r /\
     (plan_no_zero_point r -> forall M, Forall (within M) (bc_pts (rc_c r)) ->
      forall i c t, nth_error (contacts pData) i = Some c -> in_phase Ts i t ->
        contact_near pData tau (tau * B' + dec_slack G M (total Ts)) c (cv_fun (rc_c r)) t /\
        accel_within (acc_bound_near scaled pData Ts tau) (cv_fun (rc_c r)) t)).
Proof. exact c62_continuous_dec. Qed.
Print Assumptions C62_continuous_decimal.

(** A rate of the control points of the wrench, from those of the motion through the
    origin. *)
Theorem C62_rate_decimal : forall pData T g G M cv0 ws B,
  In (flag_of pData) dec_w_flags -> front_gravity pData = Ok g -> com_curve pData T vzero = Ok cv0 ->
  Forall (fun p => vnorm p <= M) (bc_pts cv0) -> vnorm g <= G -> computeWwaypoints pData T = Ok ws ->
  60 * (1 + M) / (T * T) + G <= B -> wrench_ctrl_rate pData T g (length ws) B.
Proof. exact c62_rate_dec. Qed.
Print Assumptions C62_rate_decimal.

(** C63: if the cheapest of all motions meets the constraints on the control points with
    the error of the wrench in reserve, it is the answer. *)
Theorem C63_best_decimal : forall scaled with_glpk mem glpk pData Ts dt g G ws,
  well_posed pData Ts -> dt <= 0 -> same_gravity pData g -> within G g ->
  representation pData = DOUBLE_DESCRIPTION -> In (flag_of pData) dec_w_flags -> computeWwaypoints pData (total Ts) = Ok ws ->
  forall lam x cv M, long_phases Ts -> cost_weight pData Ts (computeDiscretizedTimeFixed Ts 7) lam -> 0 < lam ->
  com_curve pData (total Ts) x = Ok cv -> no_zero_point cv x -> Forall (within M) (bc_pts cv) ->
  ctrl_feasible_by scaled pData Ts (length ws) (- dec_slack G M (total Ts)) cv ->
  cheapest pData Ts (computeDiscretizedTimeFixed Ts 7) x (cv_fun cv) ->
  exists r, computeCOMTraj scaled with_glpk (solve_quadprog mem) glpk pData Ts dt SOLVER_QUADPROG = Ok r /\
    rc_success r = true /\ rc_x r = l3 x /\ rc_c r = cv.
Proof. exact c63_best_dec. Qed.
Print Assumptions C63_best_decimal.

(** With the QP well scaled: a motion [y] that meets the constraints on the control
    points with the error of the wrench in reserve means success, at no greater cost,
    unless the solver gave up after its maximal number of iterations. *)
Theorem C63_optimal_decimal : forall scaled with_glpk mem glpk pData Ts dt g G ws,
  well_posed pData Ts -> dt <= 0 -> same_gravity pData g -> within G g ->
  representation pData = DOUBLE_DESCRIPTION -> In (flag_of pData) dec_w_flags -> computeWwaypoints pData (total Ts) = Ok ws ->
  forall M0 cv0 lam B kap, long_phases Ts ->
  1 <= M0 -> com_curve pData (total Ts) vzero = Ok cv0 -> Forall (within M0) (bc_pts cv0) ->
  let ta := computeDiscretizedTimeFixed Ts 7 in cost_weight pData Ts ta lam ->
  let B' := B + 2 * dec_slack G M0 (total Ts) in on_scale pData lam B' kap -> acc_ctrl_rate scaled Ts <= B' ->
  wrench_ctrl_rate pData (total Ts) g (length ws) B ->
  exists rows H gg r, computeConstraintsContinuous scaled pData Ts = Ok (CO (map (fun r => (l3 (fst r), snd r)) rows) [] [] 3) /\
    genCostFunction pData Ts (total Ts) ta 3 = Ok (H, gg) /\
    computeCOMTraj scaled with_glpk (solve_quadprog mem) glpk pData Ts dt SOLVER_QUADPROG = Ok r /\
    (well_scaled (eqp_of (plan_qp H gg rows)) ->
     forall y cvy M, com_curve pData (total Ts) y = Ok cvy -> no_zero_point cvy y -> Forall (within M) (bc_pts cvy) ->
     ctrl_feasible_by scaled pData Ts (length ws) (- dec_slack G M (total Ts)) cvy ->
     (rc_success r = true /\ exists x s s', rc_x r = l3 x /\ com_curve pData (total Ts) x = Ok (rc_c r) /\
        plan_cost pData ta x (cv_fun (rc_c r)) s /\ plan_cost pData ta y (cv_fun cvy) s' /\ s <= s') \/
     (rc_success r = false /\ (1000 <= subsets (length rows) 3)%nat /\ exists st, returns (eqp_of (plan_qp H gg rows)) mem st_MAX_ITER st)).
Proof. exact c63_optimal_dec. Qed.
Print Assumptions C63_optimal_decimal.
