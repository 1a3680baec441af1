(** Property theorems C74: force plans whose cheapest forces push.  Vocabulary:
    SpecForce.v and SpecForce2.v; SpecCtr.v, SpecCont.v, SpecEnd.v and SpecEnd2.v for
    the constraints of a plan, its cost and the rates; SpecQp.v for the QP solver.
    [mem] is whatever the solver's vectors contain beforehand. *)
From Verif Require Import Vec SpecBezier SpecTime ModelData ModelDispatch ModelUtils ModelCont ModelSolver ModelTraj ModelQp
  SpecCom SpecCtr SpecCont SpecTraj SpecEnd SpecEnd2 SpecForce SpecForce2 SpecQp2 SpecQp ProofQp19 ProofForce6.
Open Scope R_scope.

(** The bundled QP solver: when the point of lowest objective on the equalities meets
    the inequalities, it is returned after the first step. *)
Theorem C74_solver : forall q mem lam y,
  symmetric q -> weighted q lam -> eqs_apart q -> (1 < e_max q)%nat -> feasible q y ->
  (forall z, eqs_hold q z -> objective q y <= objective q z) ->
  exists st, execution q mem 1 = Ok (Done st_OPTIMAL st) /\
    (forall k, (k < e_n q)%nat -> q_x st k = y k) /\ q_f st = objective q y.
Proof. exact c72_direct. Qed.
Print Assumptions C74_solver.

(** Let a motion meet the kinematic constraints and the acceleration bound, and let
    forces that do not pull balance it, such that no motion and forces balancing it,
    pulling or not, cost less.  Then the planner returns this motion. *)
Theorem C74_best : forall scaled with_glpk mem glpk pData Ts dt g lam B kap s ws,
  well_posed pData Ts -> long_phases Ts -> dt <= 0 -> same_gravity pData g ->
  representation pData <> DOUBLE_DESCRIPTION -> In (flag_of pData) exact_w_flags ->
  computeWwaypoints pData (total Ts) = Ok ws ->
  cost_weight pData Ts (computeDiscretizedTimeFixed Ts 7) lam -> force_scale pData lam B kap s ->
  acc_ctrl_rate scaled Ts <= B -> wrench_ctrl_rate pData (total Ts) g (length ws) B ->
  forall x cv Bl, com_curve pData (total Ts) x = Ok cv -> no_zero_point cv x -> ctrl_moves scaled pData Ts cv ->
  (-100000 <= vx x /\ -100000 <= vy x /\ -100000 <= vz x) ->
  balances pData Ts (length ws) (cv_fun cv) Bl -> no_pull Bl ->
  (forall y cvy By sx sy, com_curve pData (total Ts) y = Ok cvy -> balances pData Ts (length ws) (cv_fun cvy) By ->
     plan_cost pData (computeDiscretizedTimeFixed Ts 7) x (cv_fun cv) sx ->
     plan_cost pData (computeDiscretizedTimeFixed Ts 7) y (cv_fun cvy) sy ->
     sx + force_weight * force_sq Bl <= sy + force_weight * force_sq By) ->
  exists r, computeCOMTraj scaled with_glpk (solve_quadprog mem) glpk pData Ts dt SOLVER_QUADPROG = Ok r /\
    rc_success r = true /\ rc_x r = l3 x /\ rc_c r = cv.
Proof. exact c74_best. Qed.
Print Assumptions C74_best.
