(** Property theorems C102: zero-step plans and the place of the world.  Vocabulary: SpecMove.v, Spec0Step.v, Spec0Best.v,
    Spec0Move.v, SpecTraj.v. *)
From Coq Require Import List Reals.
From Verif Require Import Vec SpecBezier ModelData ModelDispatch ModelCont ModelSolver ModelTraj Model0Step
  SpecCom SpecCtr SpecTraj SpecMove Spec0Step Spec0Best Spec0Move Proof0Move Proof0Move2.
Import ListNotations.
Open Scope R_scope.

(** C102: turning and shifting the world turns and shifts the plan, *)
Theorem C102_plan : forall Q v, rotation Q -> forall p Ts ct ph T, z_posed p Ts ct ph T -> z_shifts_freely p ct v ->
  forall dt r wg quadprog glpk, qp_solves quadprog -> qp_sound quadprog -> z_sampling T dt ->
  solve0step wg quadprog glpk p Ts dt = Ok r -> r0_success r = true ->
  exists r' x xL, solve0step wg quadprog glpk (move Q v p) Ts dt = Ok r' /\ z_plan p T r x xL /\ z_plan (move Q v p) T r' (place Q v x) (mvmul Q xL) /\
    r0_cost r' = r0_cost r /\ (forall t, cv_fun (r0_c r') t = place Q v (cv_fun (r0_c r) t)) /\ (forall t, dL_fun (r0_dL r') t = mvmul Q (dL_fun (r0_dL r) t)).
Proof. exact c102_plan. Qed.
Print Assumptions C102_plan.
(** and no plan appears by it. *)
Theorem C102_back : forall Q v, rotation Q -> forall p Ts ct ph T, z_posed p Ts ct ph T -> z_shifts_freely p ct v ->
  forall dt r' wg quadprog glpk, qp_solves quadprog -> qp_sound quadprog -> z_sampling T dt ->
  solve0step wg quadprog glpk (move Q v p) Ts dt = Ok r' -> r0_success r' = true ->
  exists r, solve0step wg quadprog glpk p Ts dt = Ok r /\ r0_success r = true.
Proof. exact c102_back. Qed.
Print Assumptions C102_back.
(** With angular momentum and rows in ang_, shifting the origin can make a problem infeasible. *)
Theorem C102_origin_refuted : exists p v ct ph, z_posed p [1] ct ph 1 /\ useAngularMomentum p = true /\ v <> vzero /\
  forall wg quadprog glpk, qp_solves quadprog -> qp_sound quadprog -> forall dt, z_sampling 1 dt ->
  (exists r, solve0step wg quadprog glpk p [1] dt = Ok r /\ r0_success r = true) /\
  forall r, solve0step wg quadprog glpk (move mid v p) [1] dt = Ok r -> r0_success r = false.
Proof. exact c102_origin. Qed.
Print Assumptions C102_origin_refuted.
