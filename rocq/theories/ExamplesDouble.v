(** Cases that meet the hypotheses of the theorems of PropertiesDouble.v. *)
From Flocq Require Import Core BinarySingleNaN.
From Verif Require Import Vec SpecTime Double ModelDouble SpecDouble ProofDouble ProofDouble2 ProofDouble3 ProofDouble5 PropertiesDouble.
Open Scope R_scope.

Lemma one_tenth : posf f1 /\ posf (dec_f 1 10).
Proof. split; [split; [reflexivity|rewrite f1_val; lra]|apply dec_pos]. Qed.

(** C75: 49 intervals; a time beyond the duration *)
Example ex_C75_samples : Rabs (B2R (sample_f 49 7) - 7 / 49) <= 2 * u53.
Proof. apply (proj1 (C75_samples 49 ltac:(lia)) 7%Z). lia. Qed.
Example ex_C75_unit : bern_accepts (unit_time (dec_f 1 10) f1) = true.
Proof. apply C75_unit; [apply one_tenth|reflexivity|rewrite f1_val; lra]. Qed.

(** C76: two phases of 1, steps of 0.1 *)
Lemma two_phases : Forall posf [f1; f1] /\ is_finite (end_f [f1; f1] (length [f1; f1])) = true /\ B2R (end_f [f1; f1] (length [f1; f1])) = 2.
Proof.
  destruct one_tenth as [P _]. split; [apply Forall_cons; [exact P|apply Forall_cons; [exact P|apply Forall_nil]]|].
  assert (E : end_f [f1; f1] (length [f1; f1]) = of_Z 2) by (apply B2SF_inj; vm_compute; reflexivity). rewrite E. apply of_Z_val. lia.
Qed.
Example ex_C76 : exists fuel bs, computeDiscretizedTime_f fuel [f1; f1] (dec_f 1 10) = Some (tagged_f 0 bs) /\ length bs = 2%nat /\
  forall k b, nth_error bs k = Some b -> walk (start_f [f1; f1] k) (end_f [f1; f1] k) (dec_f 1 10) b.
Proof.
  destruct two_phases as (P & F & V). destruct one_tenth as [_ Pd]. pose proof tenth_ge as G.
  assert (U : u53 <= / 100) by (unfold u53; apply Rinv_le_contravar; [lra|apply IZR_le; discriminate]).
  destruct (C76_ends [f1; f1] (dec_f 1 10) P Pd F) as (fuel & arr & H); [rewrite V; lra|].
  specialize (H fuel (le_n _)). destruct (C76_samples _ _ _ _ P Pd F H) as (bs & -> & L & W). exists fuel, bs. auto.
Qed.
Example ex_C76_stuck : fadd (start_f [f1; f1] 1) tiny = start_f [f1; f1] 1 /\ flt (start_f [f1; f1] 1) (end_f [f1; f1] 1) = true.
Proof. exact loop_stuck. Qed.

(** C77: phases of 1 and 0.1, three points each: the second sample of the second phase *)
Example ex_C77 : exists t, nth_error (computeDiscretizedTimeFixed_f (seq_sum [f1; dec_f 1 10]) [f1; dec_f 1 10] 3) 5 = Some (t, 1%Z) /\
  Rabs (B2R t - (1 + 2 / 3 * B2R (dec_f 1 10))) <= 12 * u53 * (1 + 2 / 3 * B2R (dec_f 1 10)).
Proof.
  pose proof tenth_ge as G. pose proof u53_pos as U.
  assert (N : / IZR (2 ^ 1022) <= / 100) by (apply Rinv_le_contravar; [lra|apply IZR_le; discriminate]).
  assert (N2 : 2 <= IZR (2 ^ 1000)) by (apply IZR_le; discriminate).
  destruct (C77_samples (seq_sum [f1; dec_f 1 10]) [f1; dec_f 1 10] 3) as (_ & _ & _ & H); try discriminate; try lia; try reflexivity.
  - destruct one_tenth as [P Q]. apply Forall_cons; [exact P|apply Forall_cons; [exact Q|apply Forall_nil]].
  - cbn [map total]. rewrite f1_val. lra.
  - intros d [<-|[<-|[]]]; rewrite ?f1_val; cbn [INR]; lra.
  - destruct (H 1%nat 2%nat (dec_f 1 10) eq_refl ltac:(lia) ltac:(cbn; lia)) as (t & E & _ & B). exists t. split; [exact E|].
    replace (1 + 2 / 3 * B2R (dec_f 1 10)) with (phase_start (map B2R [f1; dec_f 1 10]) 1 + INR 2 / INR 3 * B2R (dec_f 1 10)).
    + replace (12 * u53) with (2 * INR (1 * 3 + 2 + 1) * u53); [exact B|]. simpl. lra.
    + unfold phase_start. cbn [map firstn total]. rewrite f1_val. simpl. lra.
Qed.

(** C78: two phases of 1 *)
Example ex_C78 : exists rs, phases_f (seq_sum [f1; f1]) [f1; f1] = Ok rs /\ length rs = 2%nat.
Proof.
  destruct two_phases as (P & _). destruct (C78_left [f1; f1]) as (rs & E & L & _); [discriminate|exact P|reflexivity|]. exists rs. auto.
Qed.

(** C79: 1 / 0.1 *)
Example ex_C79 : exists n, computeNumSteps_f f1 (dec_f 1 10) = Ok n /\ (n = 9 \/ n = 10)%Z.
Proof.
  destruct one_tenth as [P Q]. destruct (C79_count f1 (dec_f 1 10) 9 eq_refl Q ltac:(lia)) as (n & E & [H|[H _]]).
  - rewrite f1_val. pose proof tenth_up as U. split; [|lra]. pose proof tenth_ge as G.
    assert (V : B2R (dec_f 1 10) <= / 9).
    { destruct (of_Z_val 1 ltac:(lia)) as [A1 B1]. destruct (of_Z_val 10 ltac:(lia)) as [A2 B2].
      destruct (fdiv_fin (of_Z 1) (of_Z 10)) as [F V]; [exact A1|rewrite B2; lra| |].
      - rewrite B1, B2. apply small_lt. apply Rle_trans with 1; [|apply IZR_le; discriminate].
        pose proof (rnd_le 0 (1 / 10) ltac:(lra)) as R0. pose proof (rnd_le (1 / 10) 1 ltac:(lra)) as R1.
        rewrite (rnd_fmt 0) in R0 by apply generic_format_0. rewrite (rnd_fmt 1) in R1 by (apply (fmt_Z 1); lia). apply Rabs_le. lra.
      - unfold dec_f. rewrite V, B1, B2. pose proof (rel_err (1 / 10)) as R. rewrite (Rabs_pos_eq (1 / 10)) in R by lra.
        assert (N : / IZR (2 ^ 1022) <= / 10) by (apply Rinv_le_contravar; [lra|apply IZR_le; discriminate]).
        specialize (R ltac:(lra)). apply Rabs_le_inv in R.
        assert (u53 <= / 100) by (unfold u53; apply Rinv_le_contravar; [lra|apply IZR_le; discriminate]). lra. }
    apply Rmult_le_reg_r with (B2R (dec_f 1 10)); [lra|]. unfold Rdiv. rewrite Rmult_1_l, Rinv_l by lra. lra.
  - exists n. auto.
  - exists n. auto.
Qed.
Example ex_C79_undefined : computeNumSteps_f (of_Z (2 ^ 31)) f1 = UB.
Proof.
  destruct (of_Z_val (2 ^ 31) ltac:(lia)) as [A B]. apply C79_undefined; [exact A|apply one_tenth|]. rewrite B, f1_val.
  unfold Rdiv. rewrite Rinv_1, Rmult_1_r. apply IZR_le. discriminate.
Qed.
