(** Property theorems C95: cutting a phase in two.  Vocabulary: SpecCut.v, SpecBest.v. *)
From Coq Require Import List Reals.
From Verif Require Import Vec SpecBezier SpecTime ModelData ModelDispatch ModelUtils ModelCont ModelSolver ModelTraj
  SpecCom SpecCtr SpecTraj SpecEnd SpecBest SpecCut ProofCut ProofCut2.
Import ListNotations.
Open Scope R_scope.

(** C95: with the distance cost, replacing a phase by two phases with its contact, cut at a multiple of the time
    step, leaves the result as it is. *)
Theorem C95_cut : forall p Ts n d a k dt, plannable p Ts -> nth_error Ts n = Some d -> 0 < dt -> a = INR k * dt -> 0 < a < d ->
  costFunction p = DISTANCE_TRAVELED ->
  forall scaled wg quadprog glpk, qp_solves quadprog -> qp_sound quadprog -> lp_sound glpk -> forall r, rc_success r = true ->
  (call scaled wg quadprog glpk p Ts (Every dt) = Ok r <-> call scaled wg quadprog glpk (cut n p) (cut_times n a Ts) (Every dt) = Ok r).
Proof. exact c95_cut. Qed.
Print Assumptions C95_cut.
(** With the acceleration cost it does not: the instant of the cut is counted twice, and the free point moves. *)
Theorem C95_acceleration_refuted : exists p, plannable p [2] /\ costFunction p = ACCELERATION /\
  plannable (cut 0 p) (cut_times 0 1 [2]) /\
  forall scaled wg quadprog glpk, qp_solves quadprog -> exists r r' x x',
    call scaled wg quadprog glpk p [2] (Every 1) = Ok r /\ rc_success r = true /\ rc_x r = l3 x /\
    call scaled wg quadprog glpk (cut 0 p) (cut_times 0 1 [2]) (Every 1) = Ok r' /\ rc_success r' = true /\ rc_x r' = l3 x' /\
    vx x = 3 / 7 /\ vx x' = 5 / 11.
Proof. exact c95_acc. Qed.
Print Assumptions C95_acceleration_refuted.
