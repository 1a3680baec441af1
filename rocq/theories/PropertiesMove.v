(** Property theorems C92: plans do not depend on where the world is.  Vocabulary: SpecMove.v, SpecBest.v. *)
From Coq Require Import List Reals.
From Verif Require Import Vec SpecBezier SpecTime ModelData ModelDispatch ModelUtils ModelCont ModelSolver ModelTraj
  SpecCom SpecCtr SpecTraj SpecEnd SpecBest SpecMove ProofMove ProofMove2.
Import ListNotations.
Open Scope R_scope.

(** C92: turning and shifting the world turns and shifts the plan, *)
Theorem C92_plan : forall Q v, rotation Q -> forall p Ts, plannable p Ts -> turns_freely p Q -> shifts_freely p v ->
  forall scaled wg quadprog glpk, qp_solves quadprog -> qp_sound quadprog -> lp_sound glpk ->
  forall m ta r, proper m -> cost_times Ts m ta -> cost_decides p Ts ta ->
  call scaled wg quadprog glpk p Ts m = Ok r -> rc_success r = true ->
  exists r' x, call scaled wg quadprog glpk (move Q v p) Ts m = Ok r' /\ rc_success r' = true /\
    rc_x r = l3 x /\ rc_x r' = l3 (place Q v x) /\
    bc_T (rc_c r') = bc_T (rc_c r) /\ (forall t, cv_fun (rc_c r') t = place Q v (cv_fun (rc_c r) t)) /\
    forall s, plan_cost p ta x (cv_fun (rc_c r)) s -> plan_cost (move Q v p) ta (place Q v x) (cv_fun (rc_c r')) s.
Proof. exact c92_move. Qed.
Print Assumptions C92_plan.
(** and no plan appears by it. *)
Theorem C92_back : forall Q v p Ts, rotation Q -> plannable p Ts -> turns_freely p Q -> shifts_freely p v ->
  forall scaled wg quadprog glpk, qp_solves quadprog -> qp_sound quadprog -> lp_sound glpk ->
  forall m ta r', proper m -> cost_times Ts m ta -> cost_decides p Ts ta ->
  call scaled wg quadprog glpk (move Q v p) Ts m = Ok r' -> rc_success r' = true ->
  exists r, call scaled wg quadprog glpk p Ts m = Ok r /\ rc_success r = true.
Proof. exact c92_back. Qed.
Print Assumptions C92_back.
(** With the default margin of 1/1000, shifting the origin can make a problem infeasible, *)
Theorem C92_origin_refuted : exists p v, plannable p [1] /\ turns_freely p mid /\ k_reduce_h (constr p) = 1 / 1000 /\
  (forall c ph Hh, In c (contacts p) -> cd_phase c = Some ph -> In Hh (cp_poly ph) -> snd Hh = 0) /\
  forall scaled wg quadprog glpk, qp_solves quadprog -> qp_sound quadprog -> lp_sound glpk -> forall m, proper m ->
    (exists r, call scaled wg quadprog glpk p [1] m = Ok r /\ rc_success r = true) /\
    forall r, call scaled wg quadprog glpk (move mid v p) [1] m = Ok r -> rc_success r = false.
Proof. exact c92_origin. Qed.
Print Assumptions C92_origin_refuted.
(** and with a bound on the acceleration, turning the axes can. *)
Theorem C92_axes_refuted : exists p Q, plannable p [1] /\ rotation Q /\ k_constraintAcceleration (constr p) = true /\
  forall scaled wg quadprog glpk, qp_solves quadprog -> qp_sound quadprog -> lp_sound glpk -> forall m, proper m ->
    (exists r, call scaled wg quadprog glpk p [1] m = Ok r /\ rc_success r = true) /\
    forall r, call scaled wg quadprog glpk (move Q vzero p) [1] m = Ok r -> rc_success r = false.
Proof. exact c92_axes. Qed.
Print Assumptions C92_axes_refuted.
