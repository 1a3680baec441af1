(** C11 in one statement. *)
From Verif Require Import Vec ModelData ModelUtils SpecTime ProofTime.
Open Scope R_scope.

Lemma phase_end_start Ts i d : nth_error Ts i = Some d -> phase_end Ts i = phase_start Ts i + d.
Proof.
  unfold phase_end, phase_start. revert i; induction Ts as [|a Ts IH]; intros [|i] H; try discriminate; cbn in *.
  - injection H as ->. lra.
  - rewrite (IH i H). lra.
Qed.

Lemma c11_full Ts dt : 0 < dt -> Forall (Rlt 0) Ts -> exists bs,
  computeDiscretizedTime Ts dt = Ok (tagged bs) /\ length bs = length Ts /\
  (forall i b, nth_error bs i = Some b ->
     (exists n, steps_to (phase_start Ts i) (phase_end Ts i) dt n /\
        b = step_samples (phase_start Ts i) (phase_end Ts i) dt n) /\
     (forall t, In t b -> phase_start Ts i <= t <= phase_end Ts i) /\
     (forall k t t', nth_error b k = Some t -> nth_error b (S k) = Some t' -> t < t' <= t + dt)) /\
  (forall fuel, (enough Ts dt <= fuel)%nat -> computeDiscretizedTime_fuel fuel Ts dt = Some (tagged bs)).
Proof.
  intros Hdt HF. destruct (c11_ok Ts dt Hdt HF) as (bs & H1 & H2 & H3 & H4).
  exists bs. split; [exact H1|]. split; [exact H2|]. split; [|exact H4].
  intros i b Hb. destruct (H3 i b Hb) as (n & Hn & ->).
  assert (Hse : phase_start Ts i < phase_end Ts i).
  { assert (Hi : (i < length Ts)%nat) by (rewrite <- H2; apply nth_error_Some; congruence).
    destruct (nth_error Ts i) as [d|] eqn:E; [|apply nth_error_None in E; lia].
    rewrite (phase_end_start _ _ _ E). rewrite Forall_forall in HF. specialize (HF d (nth_error_In _ _ E)). lra. }
  split; [exists n; split; [exact Hn|reflexivity]|]. split.
  - intros t Ht. eapply step_samples_inside; eauto.
  - intros k t t' A B. eapply step_samples_gap; eauto.
Qed.
