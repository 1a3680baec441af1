(** C94: the unit of length matters if there is a margin. *)
From Coq Require Import List Lia Lra.
From Verif Require Import Vec SpecBezier SpecTime ModelData ModelDispatch ModelWaypoints ModelUtils ModelCont ModelSolver ModelTraj
  SpecCom SpecWp SpecCtr SpecTraj SpecEnd SpecBest SpecUnits ProofBezier ProofCurve ProofWaypoints ProofWaypoints2 ProofCom ProofCom2 ProofCom3 ProofTraj ProofTraj2 ProofTraj3 ProofBest ProofBest2 ProofMove ProofMove2 ProofUnits.
Import ListNotations.
Open Scope R_scope.

Definition km : R := / 1000000.
Lemma km_pos : 0 < km. Proof. unfold km. lra. Qed.
Lemma one_pos : 0 < 1. Proof. lra. Qed.
Lemma one_time : map (Rmult 1) [1] = [1]. Proof. cbn. now rewrite Rmult_1_r. Qed.
Lemma one_mode m : units_mode 1 m = m. Proof. destruct m as [dt|n]; cbn; [now rewrite Rmult_1_l|reflexivity]. Qed.
Lemma um_plannable : plannable (units km 1 mo_pb) [1].
Proof. rewrite <- one_time. apply units_plannable; [exact km_pos|exact one_pos|exact mo_plannable]. Qed.
Lemma um_refuted : forall scaled wg quadprog glpk, qp_solves quadprog -> qp_sound quadprog -> lp_sound glpk -> forall m, proper m ->
    (exists r, call scaled wg quadprog glpk mo_pb [1] m = Ok r /\ rc_success r = true) /\
    forall r, call scaled wg quadprog glpk (units km 1 mo_pb) [1] m = Ok r -> rc_success r = false.
Proof.
  intros scaled wg quadprog glpk QO QS LS m PR. split; [exact (proj1 (mo_refuted scaled wg quadprog glpk QO QS LS m PR))|].
  intros r E. destruct (rc_success r) eqn:S; [exfalso|reflexivity].
  destruct (call_feasible scaled wg quadprog glpk (units km 1 mo_pb) [1] um_plannable QS LS m r PR E S) as ((_ & (y & _ & Hy) & _) & F).
  destruct (F 0%nat (units_contact km 1 mo_c) 0 eq_refl (sampled_0 m PR)) as [(_ & ph & a & Ep & D & C) A].
  destruct (A eq_refl) as (a' & D' & W). rewrite <- (is_deriv_n_unique 2 _ _ _ _ _ (fun _ => eq_refl) D D') in W.
  assert (Z : a = vzero).
  { assert (Q : forall w, Rabs w <= km / 1 ^ 2 * 0 -> w = 0).
    { intros w L. rewrite Rmult_0_r in L. destruct (Req_dec w 0) as [|N]; [assumption|]. pose proof (Rabs_pos_lt w N). lra. }
    destruct W as (W1 & W2 & W3). apply v3_eq; cbn [vx vy vz vzero]; apply Q; assumption. }
  subst a. assert (P0 : cv_fun (rc_c r) 0 = vzero).
  { destruct (boundary_ok (units km 1 mo_pb) (total [1]) y (rc_c r)) as (_ & _ & B & _); [cbn; tauto|exact Hy|].
    rewrite (B eq_refl). cbn [c0 units mo_pb]. apply v3_eq; cbn; ring. }
  rewrite P0 in C. injection Ep as <-. unfold cone_ok, units_phase in C; cbn [cp_poly cp_mass cp_gravity map fst snd] in C. inversion C as [|? ? C1 _]; subst. cbn [fst snd] in C1.
  rewrite (units_margin km 1 km_pos one_pos mo_pb), mo_margin in C1.
  assert (R : units_row km (V3 0 0 1, V3 1 0 0) = (V3 0 0 1, V3 1000000 0 0)).
  { unfold units_row, km; cbn [fst snd]. f_equal. apply v3_eq; unfold vscal; cbn [vx vy vz]; field. }
  rewrite R in C1.
  assert (N : 1000000 <= norm6 (V3 0 0 1, V3 1000000 0 0)).
  { unfold norm6, dot6, vdot; cbn [fst snd vx vy vz]. rewrite <- (sqrt_square 1000000) at 1 by lra. apply sqrt_le_1; lra. }
  unfold giw, dot6, vdot, vcross, vzero, vsub, vscal, km in C1; cbn [fst snd vx vy vz] in C1. lra.
Qed.
Lemma c94_length : exists p l, plannable p [1] /\ 0 < l /\ k_reduce_h (constr p) = 1 / 1000 /\
  (forall c ph Hh, In c (contacts p) -> cd_phase c = Some ph -> In Hh (cp_poly ph) -> snd Hh = 0) /\
  forall scaled wg quadprog glpk, qp_solves quadprog -> qp_sound quadprog -> lp_sound glpk -> forall m, proper m ->
    (exists r, call scaled wg quadprog glpk p [1] m = Ok r /\ rc_success r = true) /\
    forall r, call scaled wg quadprog glpk (units l 1 p) [1] m = Ok r -> rc_success r = false.
Proof.
  exists mo_pb, km. split; [exact mo_plannable|]. split; [exact km_pos|]. split; [reflexivity|].
  split; [intros c ph Hh [<-|[]] E; injection E as <-; intros [<-|[]]; reflexivity|]. exact um_refuted.
Qed.
