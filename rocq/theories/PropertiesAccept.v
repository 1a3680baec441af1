(** Property theorems C97: plans that hold at every instant and the discretised planner.  Vocabulary: SpecBest.v, SpecEnd2.v, SpecCont.v. *)
From Coq Require Import List Reals.
From Verif Require Import Vec SpecBezier SpecTime ModelData ModelDispatch ModelUtils ModelCont ModelSolver ModelTraj
  SpecCom SpecWp SpecCtr SpecCont SpecTraj SpecEnd SpecEnd2 SpecBest ProofAccept.
Import ListNotations.
Open Scope R_scope.

(** C97: a successful plan of the continuous formulation meets the discretised constraints for every sampling, so that
    the discretised planner succeeds as well, at no greater cost. *)
Theorem C97_accepted : forall scaled wg quadprog glpk, qp_solves quadprog -> qp_sound quadprog -> lp_sound glpk ->
  forall p Ts dt solver r m ta, plannable p Ts -> splittable Ts -> dt <= 0 -> representation p = DOUBLE_DESCRIPTION ->
  costFunction p = DISTANCE_TRAVELED \/ costFunction p = ACCELERATION ->
  k_constraintAcceleration (constr p) = false \/ scaled = true \/ 1 <= total Ts ->
  proper m -> cost_times Ts m ta ->
  computeCOMTraj scaled wg quadprog glpk p Ts dt solver = Ok r -> rc_success r = true -> plan_no_zero_point r ->
  plan_feasible p (sampled Ts m) (cv_fun (rc_c r)) /\
  exists r' x x' s s', call scaled wg quadprog glpk p Ts m = Ok r' /\ rc_success r' = true /\ rc_x r = l3 x /\ rc_x r' = l3 x' /\
    plan_cost p ta x (cv_fun (rc_c r)) s /\ plan_cost p ta x' (cv_fun (rc_c r')) s' /\ s' <= s.
Proof. exact c97_accepted. Qed.
Print Assumptions C97_accepted.
(** The continuous formulation itself finds a plan whenever the control points of some motion meet the constraints on every
    phase, and one that costs no more at seven points per phase. *)
Theorem C97_found : forall scaled wg quadprog glpk, qp_solves quadprog ->
  forall p Ts dt ws x cv, plannable p Ts -> long_phases Ts -> dt <= 0 -> representation p = DOUBLE_DESCRIPTION ->
  costFunction p = DISTANCE_TRAVELED \/ costFunction p = ACCELERATION ->
  computeWwaypoints p (total Ts) = Ok ws -> com_curve p (total Ts) x = Ok cv -> no_zero_point cv x -> ctrl_feasible scaled p Ts (length ws) cv ->
  let ta := computeDiscretizedTimeFixed Ts 7 in
  exists r x' s s', computeCOMTraj scaled wg quadprog glpk p Ts dt SOLVER_QUADPROG = Ok r /\ rc_success r = true /\ rc_x r = l3 x' /\
    plan_cost p ta x (cv_fun cv) s /\ plan_cost p ta x' (cv_fun (rc_c r)) s' /\ s' <= s.
Proof. exact c97_found. Qed.
Print Assumptions C97_found.
(** The converse of the first claim fails: for some problem the discretised planner always succeeds and the continuous
    formulation never does, because no motion meets the constraints at every instant. *)
Theorem C97_converse_refuted : exists p Ts, plannable p Ts /\ splittable Ts /\ representation p = DOUBLE_DESCRIPTION /\
  (forall x cv, com_curve p (total Ts) x = Ok cv -> exists i c t, nth_error (contacts p) i = Some c /\ in_phase Ts i t /\ ~ kin_ok c (cv_fun cv t)) /\
  forall scaled wg quadprog glpk, qp_solves quadprog -> qp_sound quadprog -> lp_sound glpk ->
  (exists r, call scaled wg quadprog glpk p Ts (PerPhase 1) = Ok r /\ rc_success r = true) /\
  forall dt solver r, dt <= 0 -> computeCOMTraj scaled wg quadprog glpk p Ts dt solver = Ok r -> rc_success r = false.
Proof. exact c97_converse. Qed.
Print Assumptions C97_converse_refuted.
