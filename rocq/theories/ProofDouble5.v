(** Double arithmetic: particular values. *)
From Flocq Require Import Core BinarySingleNaN.
From Verif Require Import Vec Model0Step SpecTime Double ModelDouble SpecDouble ProofDouble ProofDouble2 ProofDouble3.
Open Scope R_scope.

Lemma numsteps_floor (T dt : f64) m : is_finite T = true -> posf dt -> (0 <= m < 2147483647)%Z ->
  IZR m <= B2R T / B2R dt < IZR m + 1 ->
  exists n, computeNumSteps_f T dt = Ok n /\
    (n = m \/ (n = m + 1)%Z /\ IZR n * (1 - u53) <= B2R T / B2R dt).
Proof.
  intros FT [Fd Pd] Hm B. apply (numsteps_ok T dt FT Fd); [|exact Pd| |lia].
  - assert (0 <= IZR m) by (apply IZR_le; lia). replace (B2R T) with (B2R T / B2R dt * B2R dt) by (field; lra).
    apply Rmult_le_pos; lra.
  - unfold computeNumSteps. destruct (Rlt_dec 0 (B2R dt)) as [_|N]; [|lra]. unfold to_int.
    assert (0 <= IZR m) by (apply IZR_le; lia). destruct (Rle_dec 0 (B2R T / B2R dt)) as [_|N]; [|lra].
    assert (E : Int_part (B2R T / B2R dt) = m) by (rewrite Int_part_floor; apply Zfloor_imp; rewrite plus_IZR; exact B).
    rewrite E. replace ((-2147483648 <=? m)%Z && (m <=? 2147483647)%Z)%bool with true; [reflexivity|].
    symmetry. apply andb_true_intro. split; apply Z.leb_le; lia.
Qed.

Lemma pos_flt x : is_finite x = true -> flt f0 x = true -> posf x.
Proof. intros F L. split; [exact F|]. apply (flt_val f0 x eq_refl F) in L. rewrite f0_val in L. exact L. Qed.

Lemma dec_pos : posf (dec_f 1 10) /\ posf (dec_f 4 10).
Proof. split; apply pos_flt; vm_compute; reflexivity. Qed.
Lemma sample_49 : flt (sample_f 49 49) f1 = true.
Proof. vm_compute. reflexivity. Qed.
Lemma phases_throw : let a := dec_f 1 10 in let d := dec_f 4 10 in
  phases_f (packet_sum4 a a a d) [a; a; a; d] = Throw /\ phases_f (packet_sum4_avx a a a d) [a; a; a; d] = Throw.
Proof. vm_compute. split; reflexivity. Qed.
Lemma numsteps_10 : computeNumSteps_f f1 (dec_f 1 10) = Ok 10%Z.
Proof. vm_compute. reflexivity. Qed.
Lemma loop_stuck : fadd (start_f [f1; f1] 1) tiny = start_f [f1; f1] 1 /\ flt (start_f [f1; f1] 1) (end_f [f1; f1] 1) = true.
Proof. split; [apply B2SF_inj|]; vm_compute; reflexivity. Qed.
Definition almost_one : f64 := @B754_finite 53 1024 false 9007199254740991 (-53) eq_refl.
Lemma tenths : exists arr, computeDiscretizedTime_f 12 [f1] (dec_f 1 10) = Some arr /\ length arr = 12%nat /\
  (exists t t', nth_error arr 10 = Some (t, 0%Z) /\ nth_error arr 11 = Some (t', 0%Z) /\ t = almost_one /\ t' = f1).
Proof.
  assert (H : match computeDiscretizedTime_f 12 [f1] (dec_f 1 10) with
              | Some arr => (length arr, nth_error (map (fun x : f64 * Z => (B2SF (fst x), snd x)) arr) 10, nth_error (map (fun x : f64 * Z => (B2SF (fst x), snd x)) arr) 11)
              | None => (O, None, None)
              end = (12%nat, Some (B2SF almost_one, 0%Z), Some (B2SF f1, 0%Z))) by (vm_compute; reflexivity).
  destruct (computeDiscretizedTime_f 12 [f1] (dec_f 1 10)) as [arr|]; [|discriminate H]. exists arr. split; [reflexivity|].
  pose proof (f_equal (fun x => fst (fst x)) H) as H1. pose proof (f_equal (fun x => snd (fst x)) H) as H2. pose proof (f_equal snd H) as H3.
  cbn [fst snd] in H1, H2, H3. clear H. split; [exact H1|]. clear H1.
  rewrite nth_error_map in H2, H3. destruct (nth_error arr 10) as [[t i]|]; [|cbn [option_map] in H2; congruence]. destruct (nth_error arr 11) as [[t' i']|]; [|cbn [option_map] in H3; congruence].
  cbn [option_map fst snd] in H2, H3. exists t, t'.
  assert (E : forall (a b : f64) (x y : Z), Some (B2SF a, x) = Some (B2SF b, y) -> a = b /\ x = y).
  { intros a b x y Q. assert (Q1 : (B2SF a, x) = (B2SF b, y)) by congruence. assert (Q2 : B2SF a = B2SF b) by congruence. split; [apply B2SF_inj, Q2|congruence]. }
  apply E in H2. apply E in H3. destruct H2 as [-> ->], H3 as [-> ->]. auto.
Qed.

(** * Phases: exactly the condition *)
Lemma ranges_nth l : forall c i a b, nth_error (ranges_f c l) i = Some (a, b) ->
  a = fold_left fadd (firstn i l) c /\ exists d, nth_error l i = Some d /\ b = fadd d a.
Proof.
  induction l as [|d l IH]; intros c i a b H; destruct i as [|i]; try discriminate H.
  - cbn [ranges_f nth_error] in H. injection H as <- <-. split; [reflexivity|]. exists d. split; reflexivity.
  - cbn [ranges_f nth_error] in H. exact (IH _ _ _ _ H).
Qed.
Lemma ranges_len l : forall c, length (ranges_f c l) = length l.
Proof. induction l as [|d l IH]; intro c; cbn [ranges_f length]; [reflexivity|]. rewrite IH. reflexivity. Qed.
Lemma mapM_throw {A B} (f : A -> bool) (g : A -> B) l : (exists a, In a l /\ f a = false) ->
  mapM (fun a => if f a then Ok (g a) else Throw) l = Throw.
Proof.
  induction l as [|a l IH]; intros (x & H & E); [destruct H|]. cbn [mapM]. destruct H as [<-|H].
  - rewrite E. reflexivity.
  - destruct (f a); [|reflexivity]. cbn [bind]. rewrite IH by eauto. reflexivity.
Qed.

Lemma phases_iff (T : f64) Ts : Ts <> [] -> Forall posf Ts -> is_finite (end_f Ts (length Ts)) = true -> is_finite T = true ->
  if Rle_dec (B2R (end_f Ts (length Ts))) (B2R T) then
    exists rs, phases_f T Ts = Ok rs /\ length rs = length Ts /\
      forall i a b, nth_error rs i = Some (a, b) -> a = start_f Ts i /\ is_finite b = true /\ B2R b = B2R (end_f Ts i)
  else phases_f T Ts = Throw.
Proof.
  intros Ne P F FT.
  assert (E : end_f Ts (length Ts) = fold_left fadd Ts f0) by (unfold end_f, start_f; rewrite firstn_all2 by lia; reflexivity).
  assert (N : forall i a b, nth_error (ranges_f f0 Ts) i = Some (a, b) -> a = start_f Ts i /\ is_finite b = true /\ B2R b = B2R (end_f Ts i)).
  { intros i a b H. destruct (ranges_nth _ _ _ _ _ H) as (-> & d & D & ->). split; [reflexivity|].
    rewrite (end_f_nth _ _ _ D). apply fadd_comm_val. rewrite <- (end_f_nth _ _ _ D). apply (start_fin Ts (S i) F). }
  destruct (Rle_dec (B2R (end_f Ts (length Ts))) (B2R T)) as [L|L].
  - exists (ranges_f f0 Ts). split; [|split; [apply ranges_len|exact N]].
    unfold phases_f. rewrite E in F, L. apply ranges_in; [exact FT|apply Rle_refl|exact P|exact F|exact L].
  - unfold phases_f. apply (mapM_throw (extract_accepts T) (fun r => r)).
    set (n := (length Ts - 1)%nat). assert (Ln : (n < length (ranges_f f0 Ts))%nat) by (rewrite ranges_len; unfold n; destruct Ts; [congruence|cbn; lia]).
    destruct (nth_error (ranges_f f0 Ts) n) as [[a b]|] eqn:H; [|apply nth_error_None in H; lia].
    exists (a, b). split; [eapply nth_error_In, H|]. destruct (N _ _ _ H) as (_ & Fb & Vb).
    assert (Q : end_f Ts n = end_f Ts (length Ts)).
    { rewrite E. unfold end_f, start_f, n. rewrite firstn_all2; [reflexivity|]. destruct Ts; [congruence|cbn [length]; lia]. }
    rewrite Q in Vb. unfold extract_accepts. cbn [fst snd].
    assert (K : flt T b = true) by (apply flt_val; [exact FT|exact Fb|rewrite Vb; apply Rnot_le_lt, L]).
    rewrite K, !Bool.orb_true_r. reflexivity.
Qed.
Lemma seq_end Ts : Ts <> [] -> Forall posf Ts -> seq_sum Ts = end_f Ts (length Ts).
Proof.
  intros Ne P. unfold end_f, start_f. rewrite firstn_all2 by lia. destruct Ts as [|a l]; [congruence|]. inversion P; subst.
  cbn [seq_sum fold_left]. rewrite fadd_f0 by assumption. reflexivity.
Qed.
Lemma phases_left Ts : Ts <> [] -> Forall posf Ts -> is_finite (seq_sum Ts) = true ->
  exists rs, phases_f (seq_sum Ts) Ts = Ok rs /\ length rs = length Ts /\
    (forall i a b, nth_error rs i = Some (a, b) -> a = start_f Ts i /\ is_finite b = true /\ B2R b = B2R (end_f Ts i)).
Proof.
  intros Ne P F. pose proof (seq_end Ts Ne P) as E. rewrite E in F |- *.
  pose proof (phases_iff (end_f Ts (length Ts)) Ts Ne P F F) as H.
  destruct (Rle_dec (B2R (end_f Ts (length Ts))) (B2R (end_f Ts (length Ts)))) as [_|N]; [exact H|elim N; apply Rle_refl].
Qed.

(** the loop that does not end *)
Lemma tiny_val : is_finite tiny = true /\ B2R tiny = / IZR (2 ^ 54).
Proof.
  split; [reflexivity|]. unfold tiny, B2R, F2R, Fnum, Fexp, cond_Zopp. change (-106)%Z with (-(106))%Z. rewrite bpow_opp.
  change (bpow radix2 106) with (IZR (2 ^ 106)). change (2 ^ 106)%Z with (4503599627370496 * 2 ^ 54)%Z. change (Z.pos 4503599627370496) with 4503599627370496%Z.
  rewrite mult_IZR. field. apply not_0_IZR; discriminate.
Qed.
Lemma steps_refuted : exists Ts dt, Forall posf Ts /\ posf dt /\ (forall d, In d Ts -> 2 * B2R dt <= B2R d) /\
  forall fuel, computeDiscretizedTime_f fuel Ts dt = None.
Proof.
  exists [f1; f1], tiny. assert (P1 : posf f1) by (split; [reflexivity|rewrite f1_val; lra]).
  destruct tiny_val as [Ft Vt].
  assert (I : 0 < / IZR (2 ^ 54) <= / 2).
  { split; [apply Rinv_0_lt_compat, IZR_lt; reflexivity|]. apply Rinv_le_contravar; [lra|]. apply IZR_le. discriminate. }
  split; [apply Forall_cons; [exact P1|apply Forall_cons; [exact P1|apply Forall_nil]]|]. split; [split; [exact Ft|lra]|]. split.
  - intros d [<-|[<-|[]]]; rewrite f1_val, Vt; lra.
  - destruct loop_stuck as [A B]. intro fuel. apply (steps_f_stuck _ _ 1); [cbn; lia|exact A|exact B].
Qed.

(** samples of a phase that almost coincide *)
Lemma almost_val : B2R almost_one = 1 - u53.
Proof.
  unfold almost_one, u53, B2R, F2R, Fnum, Fexp, cond_Zopp. change (-53)%Z with (-(53))%Z. rewrite bpow_opp. change (bpow radix2 53) with (IZR (2 ^ 53)).
  change (Z.pos 9007199254740991) with (2 ^ 53 - 1)%Z. rewrite minus_IZR. field. apply not_0_IZR; discriminate.
Qed.
Lemma tenth_ge : / 11 <= B2R (dec_f 1 10) <= / 2.
Proof.
  destruct (of_Z_val 1 ltac:(lia)) as [A1 B1]. destruct (of_Z_val 10 ltac:(lia)) as [A2 B2].
  pose proof (rel_err (1 / 10)) as R. rewrite (Rabs_pos_eq (1 / 10)) in R by lra.
  assert (Q : u53 <= / 100) by (unfold u53; apply Rinv_le_contravar; [lra|apply IZR_le; discriminate]). pose proof u53_pos.
  assert (Q2 : / IZR (2 ^ 1022) <= 1 / 10).
  { unfold Rdiv. rewrite Rmult_1_l. apply Rinv_le_contravar; [lra|]. apply IZR_le. discriminate. }
  specialize (R Q2). apply Rabs_le_inv in R.
  destruct (fdiv_fin (of_Z 1) (of_Z 10)) as [F V]; [exact A1|rewrite B2; lra| |].
  - rewrite B1, B2. apply small_lt. assert (1000 <= IZR (2 ^ 100)) by (apply IZR_le; discriminate). apply Rabs_le. lra.
  - unfold dec_f. rewrite V, B1, B2. lra.
Qed.
Lemma steps_close : exists d dt arr t t', posf d /\ posf dt /\ 2 * B2R dt <= B2R d /\
  computeDiscretizedTime_f 12 [d] dt = Some arr /\ nth_error arr 10 = Some (t, 0%Z) /\ nth_error arr 11 = Some (t', 0%Z) /\
  B2R t' - B2R t <= 11 * u53 * B2R dt.
Proof.
  destruct tenths as (arr & E & _ & t & t' & H1 & H2 & -> & ->). exists f1, (dec_f 1 10), arr, almost_one, f1.
  pose proof tenth_ge. pose proof u53_pos.
  split; [split; [reflexivity|rewrite f1_val; lra]|]. split; [apply dec_pos|]. split; [rewrite f1_val; lra|]. split; [exact E|]. split; [exact H1|]. split; [exact H2|].
  rewrite f1_val, almost_val. nra.
Qed.

Lemma tenth_up : 1 / B2R (dec_f 1 10) < 10.
Proof.
  assert (V : B2R (dec_f 1 10) = IZR 7205759403792794 / IZR (2 ^ 56)).
  { assert (E : dec_f 1 10 = @B754_finite 53 1024 false 7205759403792794 (-56) eq_refl) by (apply B2SF_inj; vm_compute; reflexivity).
    rewrite E. unfold B2R, F2R, Fnum, Fexp, cond_Zopp. change (-56)%Z with (-(56))%Z. rewrite bpow_opp. reflexivity. }
  pose proof tenth_ge. apply Rmult_lt_reg_r with (B2R (dec_f 1 10)); [lra|]. unfold Rdiv. rewrite Rmult_1_l, Rinv_l by lra.
  rewrite V. apply Rmult_lt_reg_r with (IZR (2 ^ 56)); [apply IZR_lt; reflexivity|].
  replace (10 * (IZR 7205759403792794 / IZR (2 ^ 56)) * IZR (2 ^ 56)) with (10 * IZR 7205759403792794) by (field; apply not_0_IZR; discriminate).
  rewrite Rmult_1_l, <- mult_IZR. apply IZR_lt. reflexivity.
Qed.
Lemma numsteps_refuted : exists T dt n, posf T /\ posf dt /\ computeNumSteps_f T dt = Ok n /\ B2R T / B2R dt < IZR n.
Proof.
  exists f1, (dec_f 1 10), 10%Z. split; [split; [reflexivity|rewrite f1_val; lra]|]. split; [apply dec_pos|]. split; [exact numsteps_10|].
  rewrite f1_val. exact tenth_up.
Qed.
Lemma phases_refuted : exists a b c d, Forall posf [a; b; c; d] /\ phases_f (packet_sum4 a b c d) [a; b; c; d] = Throw /\
  phases_f (packet_sum4_avx a b c d) [a; b; c; d] = Throw.
Proof.
  destruct dec_pos as [A D]. destruct phases_throw as [H1 H2]. exists (dec_f 1 10), (dec_f 1 10), (dec_f 1 10), (dec_f 4 10).
  split; [|split; [exact H1|exact H2]]. repeat (apply Forall_cons; [assumption|]). apply Forall_nil.
Qed.
Lemma samples_refuted : exists n, (1 <= n <= 2147483647)%Z /\ B2R (sample_f n n) < 1.
Proof.
  exists 49%Z. split; [lia|]. destruct (samples_ok 49 ltac:(lia)) as (A & _). destruct (A 49%Z ltac:(lia)) as (F & _).
  rewrite <- f1_val. apply flt_val; [exact F|reflexivity|exact sample_49].
Qed.
