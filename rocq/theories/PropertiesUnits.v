(** Property theorems C94: plans in other units.  Vocabulary: SpecUnits.v, SpecBest.v. *)
From Coq Require Import List Reals.
From Verif Require Import Vec SpecBezier SpecTime ModelData ModelDispatch ModelUtils ModelCont ModelSolver ModelTraj
  SpecCom SpecCtr SpecTraj SpecEnd SpecBest SpecUnits ProofUnits ProofUnits2.
Import ListNotations.
Open Scope R_scope.

(** C94: writing a problem in other units of length and time gives the plan in those units, *)
Theorem C94_plan : forall l u, 0 < l -> 0 < u -> forall p Ts, plannable p Ts -> length_free p l ->
  forall scaled wg quadprog glpk, qp_solves quadprog -> qp_sound quadprog -> lp_sound glpk ->
  forall m ta r, proper m -> cost_times Ts m ta -> cost_decides p Ts ta ->
  call scaled wg quadprog glpk p Ts m = Ok r -> rc_success r = true ->
  exists r' x, call scaled wg quadprog glpk (units l u p) (map (Rmult u) Ts) (units_mode u m) = Ok r' /\ rc_success r' = true /\
    rc_x r = l3 x /\ rc_x r' = l3 (vscal l x) /\
    bc_T (rc_c r') = u * bc_T (rc_c r) /\ forall t, cv_fun (rc_c r') t = vscal l (cv_fun (rc_c r) (t / u)).
Proof. exact c94_plan. Qed.
Print Assumptions C94_plan.
(** and no plan appears by it. *)
Theorem C94_back : forall l u, 0 < l -> 0 < u -> forall p Ts, plannable p Ts -> length_free p l ->
  forall scaled wg quadprog glpk, qp_solves quadprog -> qp_sound quadprog -> lp_sound glpk ->
  forall m ta r', proper m -> cost_times Ts m ta -> cost_decides p Ts ta ->
  call scaled wg quadprog glpk (units l u p) (map (Rmult u) Ts) (units_mode u m) = Ok r' -> rc_success r' = true ->
  exists r, call scaled wg quadprog glpk p Ts m = Ok r /\ rc_success r = true.
Proof. exact c94_back. Qed.
Print Assumptions C94_back.
(** With the default margin of 1/1000, another unit of length can make a problem infeasible. *)
Theorem C94_length_refuted : exists p l, plannable p [1] /\ 0 < l /\ k_reduce_h (constr p) = 1 / 1000 /\
  (forall c ph Hh, In c (contacts p) -> cd_phase c = Some ph -> In Hh (cp_poly ph) -> snd Hh = 0) /\
  forall scaled wg quadprog glpk, qp_solves quadprog -> qp_sound quadprog -> lp_sound glpk -> forall m, proper m ->
    (exists r, call scaled wg quadprog glpk p [1] m = Ok r /\ rc_success r = true) /\
    forall r, call scaled wg quadprog glpk (units l 1 p) [1] m = Ok r -> rc_success r = false.
Proof. exact c94_length. Qed.
Print Assumptions C94_length_refuted.
