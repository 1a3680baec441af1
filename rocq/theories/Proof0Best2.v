(** A zero-step problem that can be solved at the two ends but not in between (C101). *)
From Coq Require Import List Reals Lra Lia ZArith.
From Verif Require Import Vec SpecBezier ModelData ModelDispatch ModelCont ModelSolver ModelTraj Model0Step
  SpecCom SpecWp SpecCtr SpecSolver SpecTraj Spec0Step Spec0Best ProofCurve ProofWaypoints ProofWaypoints2 ProofWaypoints3 ProofCom Proof0Step Proof0Step2 Proof0Step3 Proof0Best.
Import ListNotations.
Open Scope R_scope.

(** A cone that bounds one moment; the mass starts along the first axis and must stop at 1 or more on the second. *)
Definition turn_ph : cphase := CPhase [((vzero, V3 0 0 (-1)), 0)] 2 (V3 0 0 (-10)) [].
Definition turn_ct : contact := Contact (Some turn_ph) [V3 0 (-1) 0] [-1] [] [].
Definition turn_pb : problem := up_pb false turn_ct (V3 3 0 0) vzero.
Lemma turn_posed : z_posed turn_pb [1] turn_ct turn_ph 1.
Proof.
  split; [reflexivity|]. split; [reflexivity|]. split; [lra|]. split; [|reflexivity].
  exists turn_ph. split; [reflexivity|]. split; [cbn; lra|]. split; [|cbn; lia]. constructor; [|constructor]. cbn. intros E. injection E as E. lra.
Qed.
Lemma turn_stable x xL t : z_stable turn_ph false vzero (V3 3 0 0) vzero 1 x xL t <->
  0 <= vy x * (3 * t * (1 - t) ^ 2 * (12 * t - 6) - (3 * t ^ 2 - 2 * t ^ 3) * (12 - 18 * t)).
Proof.
  assert (V : forall acc, is_deriv_n 2 (z_motion vzero (V3 3 0 0) 1 x) t acc ->
    dot6 (vzero, V3 0 0 (-1)) (giwL 2 (V3 0 0 (-10)) (z_motion vzero (V3 3 0 0) 1 x t) acc vzero)
    = - 2 * (vy x * (3 * t * (1 - t) ^ 2 * (12 * t - 6) - (3 * t ^ 2 - 2 * t ^ 3) * (12 - 18 * t)))).
  { intros acc Ha. unfold z_motion in *.
    rewrite (is_deriv_n_unique 2 _ _ t _ _ (fun _ => eq_refl) Ha (curve_is_deriv_n 2 _ 1 t)). clear Ha acc. destruct x as [x1 x2 x3].
    unfold dot6, giwL; cbn [fst snd]. hodo_vals. unfold curve. replace (t / 1) with t by field. bez_norm. unfold vdot, vcross; wsimp. unfold vzero; wsimp. field. }
  unfold z_stable. split.
  - intros H. specialize (H _ vzero (curve_is_deriv_n 2 _ 1 t) eq_refl). apply Forall_inv in H. cbn [fst turn_ph cp_mass cp_gravity] in H.
    rewrite V in H by apply curve_is_deriv_n. lra.
  - intros H acc dl Ha ->. constructor; [|constructor]. cbn [fst turn_ph cp_mass cp_gravity]. rewrite V by exact Ha. lra.
Qed.
Lemma turn_never x xL : kin_ok turn_ct x -> exists t, 0 <= t <= 1 /\ ~ z_stable turn_ph false vzero (V3 3 0 0) vzero 1 x xL t.
Proof.
  intros K. specialize (K 0%nat _ _ eq_refl eq_refl). unfold vdot in K; cbn in K. exists (1/4). split; [lra|]. rewrite turn_stable. lra.
Qed.
Lemma turn_step : z_steps 1 1 1.
Proof. split; [lra|]. split; [cbn; lra|cbn; lia]. Qed.
Lemma turn_feasible : z_feasible turn_pb turn_ct turn_ph 1 1 (V3 0 1 0) vzero.
Proof.
  split; [split|].
  - intros [H|H]; [lra|]. destruct H as (_ & [_ H] & _). cbn in H. lra.
  - intros N HN N1 i Hi. assert (N = 1%nat) as ->.
    { destruct HN as (_ & [A _] & _). assert (L : INR N < INR 2) by (cbn; lra). apply INR_lt in L. lia. }
    apply turn_stable. destruct i as [|[|i]]; [| |lia]; cbn [INR vy]; [replace (0 * (1 / 1)) with 0 by field|replace (1 * (1 / 1)) with 1 by field]; lra.
  - intros [|i] K k HK Hk; [|destruct i; discriminate HK]. injection HK as <-. injection Hk as <-. unfold vdot; cbn. lra.
Qed.
Lemma c101_converse : exists p ct ph, z_posed p [1] ct ph 1 /\ useAngularMomentum p = false /\
  (forall x xL, kin_ok ct x -> exists t, 0 <= t <= 1 /\ ~ z_stable ph false (c0 p) (dc0 p) (l0 p) 1 x xL t) /\
  forall wg quadprog glpk, qp_solves quadprog -> qp_sound quadprog ->
  (exists r, solve0step wg quadprog glpk p [1] 1 = Ok r /\ r0_success r = true) /\
  forall dt r, z_no_steps 1 dt -> solve0step wg quadprog glpk p [1] dt = Ok r -> r0_success r = false.
Proof.
  exists turn_pb, turn_ct, turn_ph. split; [apply turn_posed|]. split; [reflexivity|]. split; [intros x xL; apply turn_never|].
  intros wg quadprog glpk QO QS. split.
  - destruct (z_found turn_pb [1] turn_ct turn_ph 1 turn_posed 1 (V3 0 1 0) vzero wg quadprog glpk QO) as (x & xL & r & _ & E & HP & _);
      [right; exists 1%nat; exact turn_step|exact turn_feasible|]. exists r. split; [exact E|apply HP].
  - intros dt r HN E. destruct (z_answer wg quadprog glpk turn_pb [1] turn_ct turn_ph 1 dt turn_posed r QS (or_introl HN) E) as [[H _]|(x & xL & _ & [HC _] & HG & _)]; [exact H|].
    exfalso. destruct (turn_never x xL HG) as (t & Ht & NS). apply NS. apply z_ctrl_stable; [lra|exact (HC HN)|exact Ht].
Qed.
