(** C46 with a time step. *)
From Verif Require Import Vec SpecBezier SpecTime ModelData ModelDispatch ModelUtils ModelRows ModelCom
  SpecCom SpecCtr ProofBezier ProofCurve ProofWaypoints ProofWaypoints2 ProofWaypointsErr
  ProofTime ProofTime2 ProofRows ProofEmit ProofCom ProofCom2 ProofCom3.
Open Scope R_scope.

Lemma c46_step pData Ts dt g0 : well_posed pData Ts -> 0 < dt -> front_gravity pData = Ok g0 ->
  In (flag_of pData) exact_w_flags -> exists ta rows,
  computeDiscretizedTime Ts dt = Ok ta /\ computeConstraintsOneStep pData Ts (total Ts) ta = Ok rows /\
  forall x cv, com_curve pData (total Ts) x = Ok cv ->
    (sat rows x <-> forall i c ph t, nth_error (contacts pData) i = Some c -> cd_phase c = Some ph -> sampled_step Ts dt i t ->
       kin_ok c (cv_fun cv t) /\ accel_ok pData (cv_fun cv) t /\
       exists acc, is_deriv_n 2 (cv_fun cv) t acc /\
         cone_ok (margin pData) 0 ph (giw2 (cp_mass ph) g0 g0 (cv_fun cv t) acc) /\
         ((0 < i)%nat /\ t = phase_start Ts i -> cone_ok (margin pData) 0 ph (giw2 (cp_mass ph) (cp_gravity ph) g0 (cv_fun cv t) acc))).
Proof.
  intros WP Hdt Eg Hf. pose proof (wp_pos _ _ WP) as HF.
  destruct (c11_ok Ts dt Hdt HF) as (bs & Et & HL & Hbs & _). exists (tagged bs).
  destruct (meaning2 pData Ts bs WP HL (step_bs_ne Ts dt bs Hbs) (step_times Ts dt bs Hdt HF HL Hbs)
     (sampled_step Ts dt) (fun i t Hi => step_sampled Ts dt bs i t Hdt HF HL Hbs Hi) g0 Eg Hf) as (rows & H1 & H2).
  exists rows. split; [exact Et|]. split; [exact H1|]. intros x cv Hcv. rewrite (H2 x cv Hcv). clear H2.
  assert (HC : length (contacts pData) = length Ts) by apply (HLct pData Ts WP).
  assert (IB : forall i t, (i < length Ts)%nat -> (sampled_step Ts dt i t <-> in_block bs i t)).
  { intros i t Hi. destruct (nth_error bs i) as [b|] eqn:Eb; [|apply nth_error_None in Eb; lia].
    destruct (Hbs i b Eb) as (n & Hn & Eb'). pose proof (step_in t _ _ _ _ Hdt Hn) as HI. rewrite <- Eb' in HI. split.
    - intros (_ & Ht). exists b. split; [exact Eb|]. apply HI, Ht.
    - intros (b' & Hb' & Ht). rewrite Eb in Hb'. injection Hb' as <-. split; [exact Hi|]. apply HI, Ht. }
  assert (SW : forall i t, (i < length Ts)%nat -> (at_switch bs i t <-> (0 < i)%nat /\ t = phase_start Ts i)).
  { intros i t Hi. split.
    - intros (i' & b & b' & -> & Hb & E). split; [lia|]. destruct (Hbs i' b Hb) as (n & _ & Eb). unfold step_samples in Eb. rewrite E in Eb.
      apply last_unique in Eb. subst t. rewrite phase_start_S. reflexivity.
    - intros [H ->]. destruct i as [|i]; [lia|]. destruct (nth_error bs i) as [b|] eqn:Eb; [|apply nth_error_None in Eb; lia].
      destruct (Hbs i b Eb) as (n & _ & Eb'). eexists i, b, _. split; [reflexivity|]. split; [exact Eb|]. rewrite phase_start_S. exact Eb'. }
  split.
  - intros H i c ph t Hc Hph Hs. assert (Hi : (i < length Ts)%nat) by (rewrite <- HC; apply nth_error_Some; congruence).
    destruct (H i c ph t Hc Hph) as (A & B & C). destruct (A Hs) as [K1 K2]. split; [exact K1|]. split; [exact K2|].
    destruct (B (proj1 (IB i t Hi) Hs)) as (acc & D & O). exists acc. split; [exact D|]. split; [exact O|].
    intros S. destruct (C (proj2 (SW i t Hi) S)) as (acc' & D' & O').
    rewrite (is_deriv_n_unique 2 _ _ _ _ _ (fun _ => eq_refl) D D'). exact O'.
  - intros H i c ph t Hc Hph. assert (Hi : (i < length Ts)%nat) by (rewrite <- HC; apply nth_error_Some; congruence). split; [|split].
    + intros Hs. destruct (H i c ph t Hc Hph Hs) as (K1 & K2 & _). split; assumption.
    + intros Hb. destruct (H i c ph t Hc Hph (proj2 (IB i t Hi) Hb)) as (_ & _ & acc & D & O & _). exists acc. split; assumption.
    + intros Hb. assert (Hs : sampled_step Ts dt i t) by (apply (step_sampled Ts dt bs i t Hdt HF HL Hbs Hi); right; exact Hb).
      destruct (H i c ph t Hc Hph Hs) as (_ & _ & acc & D & _ & O). exists acc. split; [exact D|]. apply O. apply (SW i t Hi). exact Hb.
Qed.
