(** Property theorems C100, C101: the zero-step planner returns the one best plan, so plans can be compared.
    Vocabulary: Spec0Step.v, Spec0Best.v, SpecMix.v, SpecTraj.v. *)
From Coq Require Import List Reals.
From Verif Require Import Vec SpecBezier ModelData ModelDispatch ModelCont ModelSolver ModelTraj Model0Step
  SpecCom SpecCtr SpecTraj Spec0Step SpecMix Spec0Best Proof0Best Proof0Best2.
Import ListNotations.
Open Scope R_scope.

(** C100: there is at most one best choice of the capture point, and of the momentum if it is taken into account; *)
Theorem C100_unique : forall p Ts ct ph T, z_posed p Ts ct ph T ->
  forall dt x xL y yL, z_sampling T dt -> z_least p ct ph T dt x xL -> z_least p ct ph T dt y yL ->
  x = y /\ (useAngularMomentum p = true -> xL = yL).
Proof. exact z_least_unique. Qed.
Print Assumptions C100_unique.
(** the planner returns it when it exists, *)
Theorem C100_found : forall p Ts ct ph T, z_posed p Ts ct ph T ->
  forall dt x xL wg quadprog glpk, qp_solves quadprog -> z_sampling T dt -> z_least p ct ph T dt x xL ->
  exists r, solve0step wg quadprog glpk p Ts dt = Ok r /\ z_plan p T r x xL.
Proof. exact c100_found. Qed.
Print Assumptions C100_found.
(** and nothing else; *)
Theorem C100_returned : forall p Ts ct ph T, z_posed p Ts ct ph T ->
  forall dt r wg quadprog glpk, qp_solves quadprog -> qp_sound quadprog -> z_sampling T dt ->
  solve0step wg quadprog glpk p Ts dt = Ok r -> r0_success r = true -> exists x xL, z_plan p T r x xL /\ z_least p ct ph T dt x xL.
Proof. exact c100_returned. Qed.
Print Assumptions C100_returned.
(** and the result is the same, field for field, for all such back ends. *)
Theorem C100_back_ends : forall p Ts ct ph T, z_posed p Ts ct ph T ->
  forall dt r wg1 wg2 qp1 qp2 lp1 lp2, qp_solves qp1 -> qp_sound qp1 -> qp_solves qp2 -> qp_sound qp2 -> z_sampling T dt -> r0_success r = true ->
  (solve0step wg1 qp1 lp1 p Ts dt = Ok r <-> solve0step wg2 qp2 lp2 p Ts dt = Ok r).
Proof. exact c100_iff. Qed.
Print Assumptions C100_back_ends.

(** C101: a plan for some step is feasible for every step whose samples are among those of the first, so the planner succeeds
    for that step too, at no greater criterion; *)
Theorem C101_refined : forall p Ts ct ph T, z_posed p Ts ct ph T ->
  forall du dt r wg quadprog glpk, qp_solves quadprog -> qp_sound quadprog -> z_sampling T du -> z_sampling T dt -> z_refines T du dt ->
  solve0step wg quadprog glpk p Ts du = Ok r -> r0_success r = true ->
  exists x xL r' x' xL' v v', z_plan p T r x xL /\ z_feasible p ct ph T dt x xL /\
    solve0step wg quadprog glpk p Ts dt = Ok r' /\ z_plan p T r' x' xL' /\ z_criterion p T x xL v /\ z_criterion p T x' xL' v' /\ v' <= v.
Proof. exact c101_refined. Qed.
Print Assumptions C101_refined.
(** plans can be blended; *)
Theorem C101_mix : forall p Ts ct ph T, z_posed p Ts ct ph T ->
  forall dt l x xL y yL, z_sampling T dt -> 0 <= l <= 1 -> z_feasible p ct ph T dt x xL -> z_feasible p ct ph T dt y yL ->
  (forall t, z_motion (c0 p) (dc0 p) T (mixed l x y) t = mixed l (z_motion (c0 p) (dc0 p) T x t) (z_motion (c0 p) (dc0 p) T y t)) /\
  (forall t, z_momentum (l0 p) T (mixed l xL yL) t = mixed l (z_momentum (l0 p) T xL t) (z_momentum (l0 p) T yL t)) /\
  z_feasible p ct ph T dt (mixed l x y) (mixed l xL yL) /\
  forall u v w, z_criterion p T x xL u -> z_criterion p T y yL v -> z_criterion p T (mixed l x y) (mixed l xL yL) w -> w <= (1 - l) * u + l * v.
Proof. exact c101_mix. Qed.
Print Assumptions C101_mix.
(** but a plan found with a step, here with samples at the two ends, says nothing about the instants in between: for some
    problem the planner always finds one although every motion leaves the cone, so that it never finds any without a step. *)
Theorem C101_converse_refuted : exists p ct ph, z_posed p [1] ct ph 1 /\ useAngularMomentum p = false /\
  (forall x xL, kin_ok ct x -> exists t, 0 <= t <= 1 /\ ~ z_stable ph false (c0 p) (dc0 p) (l0 p) 1 x xL t) /\
  forall wg quadprog glpk, qp_solves quadprog -> qp_sound quadprog ->
  (exists r, solve0step wg quadprog glpk p [1] 1 = Ok r /\ r0_success r = true) /\
  forall dt r, z_no_steps 1 dt -> solve0step wg quadprog glpk p [1] dt = Ok r -> r0_success r = false.
Proof. exact c101_converse. Qed.
Print Assumptions C101_converse_refuted.
