(** Time discretisation. *)
From Verif Require Import Vec ModelData ModelUtils ModelCom SpecTime.
Open Scope R_scope.

Lemma total_sumR Ts : sumR Ts = total Ts.
Proof. induction Ts as [|d Ts IH]; cbn [sumR total]; [|rewrite IH]; reflexivity. Qed.
Lemma total_app a b : total (a ++ b) = total a + total b.
Proof. induction a as [|d a IH]; cbn [app total]; [|rewrite IH]; ring. Qed.
Lemma phase_start_0 Ts : phase_start Ts 0 = 0. Proof. reflexivity. Qed.
Lemma phase_start_S Ts i : phase_start Ts (S i) = phase_end Ts i. Proof. reflexivity. Qed.
Lemma phase_end_nth Ts : forall i d, nth_error Ts i = Some d ->
  phase_end Ts i = phase_start Ts i + d.
Proof.
  unfold phase_end, phase_start; induction Ts as [|a Ts IH]; intros [|i] d H; try discriminate.
  - injection H as ->. cbn. ring.
  - cbn [firstn total] in *. cbn [nth_error] in H. specialize (IH _ _ H).
    cbn [firstn total] in IH. rewrite IH. ring.
Qed.
Lemma phase_end_last Ts i : S i = length Ts -> phase_end Ts i = total Ts.
Proof. intros H. unfold phase_end. rewrite H, firstn_all. reflexivity. Qed.

Lemma nth_seq a n j : (j < n)%nat -> nth_error (seq a n) j = Some (a + j)%nat.
Proof.
  intros Hj. rewrite (nth_error_nth' _ 0%nat) by (rewrite seq_length; lia). rewrite seq_nth by lia. reflexivity.
Qed.

(** fixed count *)
Lemma fixed_inner_eq : forall j step i t arr,
  fixed_inner j step i t arr =
  (t + INR j * step, arr ++ map (fun k => (t + INR k * step, i)) (seq 1 j)).
Proof.
  induction j as [|j IH]; intros step i t arr.
  - cbn. rewrite app_nil_r. f_equal. ring.
  - cbn [fixed_inner]. rewrite IH. f_equal.
    + rewrite S_INR. ring.
    + rewrite <- app_assoc. f_equal. cbn [seq map app].
      f_equal; [f_equal; cbn; ring|].
      rewrite <- (seq_shift j 1), map_map. apply map_ext. intros a. f_equal. rewrite (S_INR a). ring.
Qed.

Fixpoint fixed_blocks (Ts : list R) (p : nat) (t : R) : list (list R) :=
  match Ts with
  | [] => []
  | d :: Ts' => frac_samples t d p :: fixed_blocks Ts' p (t + d)
  end.

Lemma fixed_outer_eq p : (1 <= p)%nat -> forall Ts i t arr,
  fixed_outer Ts p i t arr = arr ++ tagged_from i (fixed_blocks Ts p t).
Proof.
  intros Hp; assert (HP : INR p <> 0) by (apply not_0_INR; lia).
  induction Ts as [|d Ts IH]; intros i t arr.
  - cbn. rewrite app_nil_r. reflexivity.
  - cbn [fixed_outer]. rewrite fixed_inner_eq.
    rewrite IH. cbn [fixed_blocks tagged_from]. rewrite <- app_assoc. f_equal.
    unfold frac_samples. rewrite map_map. f_equal.
    + apply map_ext. intros a. f_equal. field. exact HP.
    + f_equal. f_equal. field. exact HP.
Qed.

Lemma frac_samples_last s d p : (1 <= p)%nat ->
  exists l, frac_samples s d p = l ++ [s + d].
Proof.
  intros Hp. destruct p as [|p]; [lia|]. unfold frac_samples.
  rewrite seq_S, map_app. eexists. f_equal. cbn [map]. f_equal.
  replace (1 + p)%nat with (S p) by lia. field. apply not_0_INR; lia.
Qed.

Lemma fixed_blocks_last p : (1 <= p)%nat -> forall Ts i t, Ts <> [] ->
  exists l, tagged_from i (fixed_blocks Ts p t)
            = l ++ [(t + total Ts, (i + Z.of_nat (length Ts) - 1)%Z)].
Proof.
  intros Hp. induction Ts as [|d Ts IH]; intros i t Hne; [congruence|].
  cbn [fixed_blocks tagged_from].
  destruct Ts as [|d' Ts'].
  - destruct (frac_samples_last t d p Hp) as [l Hl]. rewrite Hl, map_app. cbn [fixed_blocks tagged_from map].
    rewrite app_nil_r. eexists. f_equal. f_equal. cbn [total length]. f_equal; [ring|lia].
  - destruct (IH (i + 1)%Z (t + d) ltac:(discriminate)) as [l Hl]. rewrite Hl.
    rewrite app_assoc. eexists. f_equal. f_equal. cbn [total length]. f_equal; [ring|lia].
Qed.

Lemma fixed_eq Ts p : (1 <= p)%nat -> Ts <> [] ->
  computeDiscretizedTimeFixed Ts p = (0, 0%Z) :: tagged_from 0 (fixed_blocks Ts p 0).
Proof.
  intros Hp Hne. unfold computeDiscretizedTimeFixed. rewrite (fixed_outer_eq p Hp).
  destruct (fixed_blocks_last p Hp Ts 0 0 Hne) as [l Hl]. rewrite Hl.
  rewrite app_assoc, removelast_last, total_sumR.
  replace (0 + Z.of_nat (length Ts) - 1)%Z with (Z.of_nat (length Ts) - 1)%Z by lia.
  rewrite Rplus_0_l. reflexivity.
Qed.

Definition fixed_bs (Ts : list R) (p : nat) : list (list R) :=
  match fixed_blocks Ts p 0 with [] => [] | b :: bs => (0 :: b) :: bs end.
Lemma fixed_tagged Ts p : (1 <= p)%nat -> Ts <> [] ->
  computeDiscretizedTimeFixed Ts p = tagged (fixed_bs Ts p).
Proof.
  intros Hp Hne. rewrite (fixed_eq Ts p Hp Hne). destruct Ts as [|d Ts]; [congruence|]. reflexivity.
Qed.

Lemma fixed_blocks_len Ts p : forall t, length (fixed_blocks Ts p t) = length Ts.
Proof. induction Ts as [|d Ts IH]; intros t; cbn; [reflexivity|rewrite IH; reflexivity]. Qed.
Lemma fixed_blocks_nth Ts p : forall t i d, nth_error Ts i = Some d ->
  nth_error (fixed_blocks Ts p t) i = Some (frac_samples (t + phase_start Ts i) d p).
Proof.
  induction Ts as [|a Ts IH]; intros t [|i] d H; try discriminate.
  - injection H as ->. cbn. unfold phase_start. cbn. rewrite Rplus_0_r. reflexivity.
  - cbn [nth_error fixed_blocks] in *. rewrite (IH _ _ _ H). unfold phase_start. cbn [firstn total].
    do 2 f_equal. ring.
Qed.
Lemma frac_len s d p : length (frac_samples s d p) = p.
Proof. unfold frac_samples. rewrite map_length, seq_length. reflexivity. Qed.

Lemma fixed_tag_len p : forall Ts i t, length (tagged_from i (fixed_blocks Ts p t)) = (length Ts * p)%nat.
Proof.
  induction Ts as [|d Ts IH]; intros i t; cbn [fixed_blocks tagged_from length]; [reflexivity|].
  rewrite app_length, map_length, frac_len, IH. lia.
Qed.
Lemma fixed_tag_nth p : forall Ts z t i j d, nth_error Ts i = Some d -> (j < p)%nat ->
  nth_error (tagged_from z (fixed_blocks Ts p t)) (i * p + j) =
  Some (t + phase_start Ts i + INR (S j) / INR p * d, (z + Z.of_nat i)%Z).
Proof.
  induction Ts as [|a Ts IH]; intros z t i j d Hd Hj; [destruct i; discriminate|].
  cbn [fixed_blocks tagged_from]. destruct i as [|i].
  - injection Hd as ->. rewrite nth_error_app1 by (rewrite map_length, frac_len; lia).
    unfold frac_samples. rewrite map_map. cbn [Nat.mul Nat.add].
    rewrite (map_nth_error _ _ _ (nth_seq 1 p j Hj)).
    rewrite phase_start_0. f_equal. f_equal; [cbn [Nat.add]; ring|lia].
  - cbn [nth_error] in Hd. rewrite nth_error_app2; rewrite map_length, frac_len; [|lia].
    replace (S i * p + j - p)%nat with (i * p + j)%nat by lia. rewrite (IH _ _ _ _ _ Hd Hj).
    unfold phase_start. cbn [firstn total]. f_equal. f_equal; [ring|lia].
Qed.

Lemma nth_error_lt {A} (l : list A) i a : nth_error l i = Some a -> (i < length l)%nat.
Proof. intros H. apply nth_error_Some. congruence. Qed.
Lemma nth_error_ex {A} (l : list A) i : (i < length l)%nat -> exists a, nth_error l i = Some a.
Proof. intros H. destruct (nth_error l i) eqn:E; [eauto|]. apply nth_error_None in E; lia. Qed.

Lemma divmod_ex (p : nat) : (1 <= p)%nat -> forall m, exists i j, (j < p)%nat /\ m = (i * p + j)%nat.
Proof.
  intros Hp m. exists (m / p)%nat, (m mod p)%nat. split; [apply Nat.mod_upper_bound; lia|].
  rewrite (Nat.div_mod m p) at 1 by lia. lia.
Qed.

Lemma c10_ok Ts p : (1 <= p)%nat -> Ts <> [] ->
  length (computeDiscretizedTimeFixed Ts p) = (length Ts * p + 1)%nat /\
  nth_error (computeDiscretizedTimeFixed Ts p) 0 = Some (0, 0%Z) /\
  (forall i j d, nth_error Ts i = Some d -> (1 <= j <= p)%nat ->
     nth_error (computeDiscretizedTimeFixed Ts p) (i * p + j) =
     Some (phase_start Ts i + INR j / INR p * d, Z.of_nat i)) /\
  nth_error (computeDiscretizedTimeFixed Ts p) (length Ts * p) =
    Some (total Ts, (Z.of_nat (length Ts) - 1)%Z) /\
  (Forall (Rle 0) Ts -> forall k a b,
     nth_error (computeDiscretizedTimeFixed Ts p) k = Some a ->
     nth_error (computeDiscretizedTimeFixed Ts p) (S k) = Some b -> fst a <= fst b).
Proof.
  intros Hp Hne. rewrite (fixed_eq Ts p Hp Hne).
  assert (HN : forall i j d, nth_error Ts i = Some d -> (1 <= j <= p)%nat ->
     nth_error ((0, 0%Z) :: tagged_from 0 (fixed_blocks Ts p 0)) (i * p + j) =
     Some (phase_start Ts i + INR j / INR p * d, Z.of_nat i)).
  { intros i j d Hd Hj. destruct j as [|j]; [lia|]. rewrite Nat.add_succ_r. cbn [nth_error].
    rewrite (fixed_tag_nth p Ts 0 0 i j d Hd) by lia. f_equal. f_equal; ring. }
  assert (HP : INR p <> 0) by (apply not_0_INR; lia).
  assert (Hpos : 0 < INR p) by (apply lt_0_INR; lia).
  split; [|split; [reflexivity|split; [exact HN|split]]].
  - cbn [length]. rewrite fixed_tag_len. lia.
  - destruct (nth_error_ex Ts (length Ts - 1)) as [d Hd].
    { destruct Ts; [congruence|cbn; lia]. }
    assert (HL : (1 <= length Ts)%nat) by (destruct Ts; [congruence|cbn; lia]).
    assert (HE : (length Ts * p = (length Ts - 1) * p + p)%nat) by nia.
    rewrite HE, (HN _ p d Hd) by lia. f_equal. f_equal; [|lia].
    replace (INR p / INR p * d) with d by (field; exact HP).
    rewrite <- (phase_end_nth _ _ _ Hd). apply phase_end_last. lia.
  - intros Hpos' k [ta za] [tb zb] Ha Hb. cbn [fst].
    assert (HT : forall i d, nth_error Ts i = Some d -> 0 <= d).
    { intros i d Hd. rewrite Forall_forall in Hpos'. apply Hpos'. eapply nth_error_In; eauto. }
    assert (Hk : (S k < length Ts * p + 1)%nat).
    { pose proof (nth_error_lt _ _ _ Hb) as H. cbn [length] in H. rewrite fixed_tag_len in H. lia. }
    destruct (divmod_ex p Hp k) as (i & j & Hj & ->).
    assert (Hi : (i < length Ts)%nat) by nia.
    destruct (nth_error_ex Ts i Hi) as [d Hd]. pose proof (HT _ _ Hd) as Hd0.
    rewrite <- Nat.add_succ_r, (HN _ _ _ Hd) in Hb by lia.
    assert (Eb : tb = phase_start Ts i + INR (S j) / INR p * d) by congruence.
    destruct j as [|j].
    + destruct i as [|i].
      * cbn in Ha. injection Ha as <- <-. rewrite phase_start_0 in Eb.
        assert (Hq : 0 <= 1 / INR p * d); [|rewrite Eb; change (INR 1) with 1; lra].
        apply Rmult_le_pos; [|exact Hd0]. apply Rlt_le, Rdiv_lt_0_compat; [lra|exact Hpos].
      * destruct (nth_error_ex Ts i ltac:(lia)) as [d' Hd'].
        replace (S i * p + 0)%nat with (i * p + p)%nat in Ha by lia.
        rewrite (HN _ _ _ Hd') in Ha by lia. injection Ha as <- <-.
        rewrite phase_start_S, (phase_end_nth _ _ _ Hd') in Eb.
        replace (INR p / INR p * d') with d' by (field; exact HP).
        assert (Hq : 0 <= 1 / INR p * d); [|rewrite Eb; change (INR 1) with 1; lra].
        apply Rmult_le_pos; [|exact Hd0]. apply Rlt_le, Rdiv_lt_0_compat; [lra|exact Hpos].
    + rewrite (HN _ _ _ Hd) in Ha by lia. assert (Ea : ta = phase_start Ts i + INR (S j) / INR p * d) by congruence.
      assert (INR (S j) / INR p * d <= INR (S (S j)) / INR p * d); [|rewrite Ea, Eb; lra].
      apply Rmult_le_compat_r; [exact Hd0|]. apply Rmult_le_compat_r.
      * apply Rlt_le, Rinv_0_lt_compat; exact Hpos.
      * apply le_INR; lia.
Qed.

(** step based *)
Lemma while_push_eq : forall n fuel t stop dt i arr, steps_to t stop dt n -> (n < fuel)%nat ->
  while_push fuel t stop dt i arr =
  Some (arr ++ map (fun k => (t + INR k * dt, i)) (seq 0 n)).
Proof.
  induction n as [|n IH]; intros fuel t stop dt i arr [H1 H2] Hf; (destruct fuel as [|f]; [lia|]);
    cbn [while_push].
  - destruct (Rlt_dec t stop) as [Hlt|_]; [cbn in H1; lra|]. cbn. rewrite app_nil_r. reflexivity.
  - destruct (Rlt_dec t stop) as [_|Hge].
    2:{ specialize (H2 0%nat ltac:(lia)). cbn in H2. lra. }
    rewrite IH; [| |lia].
    + rewrite <- app_assoc. f_equal. f_equal. cbn [seq map app]. f_equal.
      * f_equal. cbn. ring.
      * rewrite <- (seq_shift n 0), map_map. apply map_ext. intros a. f_equal. rewrite S_INR. ring.
    + split.
      * rewrite S_INR in H1. lra.
      * intros k Hk. specialize (H2 (S k) ltac:(lia)). rewrite S_INR in H2. lra.
Qed.

Lemma steps_exist s d dt : 0 < dt -> 0 < d -> exists n, steps_to s (s + d) dt n /\
  (n <= Z.to_nat (up (d / dt)))%nat.
Proof.
  intros Hdt Hd. set (N := Z.to_nat (up (d / dt))).
  assert (HN : s + d <= s + INR N * dt).
  { assert (Hq : 0 < d / dt) by (apply Rdiv_lt_0_compat; lra).
    destruct (archimed (d / dt)) as [Hup _].
    assert (0 < up (d / dt))%Z by (apply lt_IZR; lra).
    unfold N. rewrite INR_IZR_INZ, Z2Nat.id by lia.
    assert (d / dt * dt <= IZR (up (d / dt)) * dt) by (apply Rmult_le_compat_r; lra).
    replace (d / dt * dt) with d in H0 by (field; lra). lra. }
  clearbody N. revert HN. induction N as [|N IH]; intros HN.
  - exists 0%nat. split; [|lia]. split; [exact HN|]. intros k Hk; lia.
  - destruct (Rle_dec (s + d) (s + INR N * dt)) as [Hle|Hgt].
    + destruct (IH Hle) as (n & Hn & Hle'). exists n. split; [exact Hn|lia].
    + exists (S N). split; [|lia]. split; [exact HN|]. intros k Hk.
      assert (INR k <= INR N) by (apply le_INR; lia). nra.
Qed.

Lemma maxR_ge l a : In a l -> a <= maxR l.
Proof.
  induction l as [|b l IH]; intros H; [contradiction|]. cbn [maxR]. destruct H as [->|H].
  - apply Rmax_l.
  - eapply Rle_trans; [apply IH, H|apply Rmax_r].
Qed.
Lemma up_mono a b : a <= b -> (up a <= up b)%Z.
Proof.
  intros H. destruct (archimed a) as [A1 A2], (archimed b) as [B1 B2].
  apply Z.lt_succ_r, lt_IZR. unfold Z.succ. rewrite plus_IZR. lra.
Qed.
Lemma enough_ge Ts dt d : 0 < dt -> In d Ts -> (Z.to_nat (up (d / dt)) < enough Ts dt)%nat.
Proof.
  intros Hdt Hin. unfold enough. apply Nat.lt_succ_r.
  assert (H : (up (d / dt) <= up (maxR Ts / dt))%Z).
  { apply up_mono. apply Rmult_le_compat_r; [apply Rlt_le, Rinv_0_lt_compat, Hdt|].
    apply maxR_ge, Hin. }
  lia.
Qed.

Fixpoint step_blocks (Ts : list R) (ns : list nat) (dt t : R) : list (list R) :=
  match Ts, ns with
  | d :: Ts', n :: ns' => step_samples t (t + d) dt n :: step_blocks Ts' ns' dt (t + d)
  | _, _ => []
  end.

Lemma step_outer_eq dt : forall Ts ns fuel i t arr,
  length ns = length Ts ->
  (forall k d n, nth_error Ts k = Some d -> nth_error ns k = Some n ->
     steps_to (t + phase_start Ts k) (t + phase_end Ts k) dt n /\ (n < fuel)%nat) ->
  step_outer fuel Ts dt i t arr = Some (arr ++ tagged_from i (step_blocks Ts ns dt t)).
Proof.
  induction Ts as [|d Ts IH]; intros [|n ns] fuel i t arr HL H; try discriminate.
  - cbn. rewrite app_nil_r. reflexivity.
  - cbn [step_outer]. destruct (H 0%nat d n eq_refl eq_refl) as [Hst Hf].
    unfold phase_start, phase_end in Hst. cbn in Hst. rewrite Rplus_0_r in Hst.
    rewrite Rplus_0_r in Hst.
    rewrite (while_push_eq n fuel t (t + d) dt i arr Hst Hf).
    rewrite (IH ns).
    + cbn [step_blocks tagged_from]. unfold step_samples. rewrite map_app, map_map, <- !app_assoc.
      reflexivity.
    + cbn in HL. lia.
    + intros k d' n' Hd' Hn'. destruct (H (S k) d' n' Hd' Hn') as [Hs Hf'].
      split; [|exact Hf']. unfold phase_start, phase_end in *. cbn [firstn total] in *.
      replace (t + d + total (firstn k Ts)) with (t + (d + total (firstn k Ts))) by ring.
      rewrite Rplus_assoc. exact Hs.
Qed.

Lemma counts_exist dt : 0 < dt -> forall Ts t, Forall (Rlt 0) Ts -> exists ns,
  length ns = length Ts /\
  forall k d n, nth_error Ts k = Some d -> nth_error ns k = Some n ->
    steps_to (t + phase_start Ts k) (t + phase_end Ts k) dt n /\
    (n <= Z.to_nat (up (d / dt)))%nat.
Proof.
  intros Hdt. induction Ts as [|d Ts IH]; intros t HF.
  - exists []. split; [reflexivity|]. intros [|k] d n H; discriminate.
  - inversion HF as [|? ? Hd HF']; subst.
    destruct (steps_exist t d dt Hdt Hd) as (n & Hn & Hle).
    destruct (IH (t + d) HF') as (ns & HL & H).
    exists (n :: ns). split; [cbn; lia|]. intros [|k] d' n' Hd' Hn'.
    + injection Hd' as <-. injection Hn' as <-. unfold phase_start, phase_end; cbn.
      rewrite !Rplus_0_r. split; assumption.
    + destruct (H k d' n' Hd' Hn') as [Hs Hl]. split; [|exact Hl].
      unfold phase_start, phase_end in *. cbn [firstn total] in *.
      rewrite <- (Rplus_assoc t d), <- (Rplus_assoc t d). exact Hs.
Qed.

Lemma step_blocks_nth dt : forall Ts ns t k d n,
  nth_error Ts k = Some d -> nth_error ns k = Some n ->
  nth_error (step_blocks Ts ns dt t) k
  = Some (step_samples (t + phase_start Ts k) (t + phase_end Ts k) dt n).
Proof.
  induction Ts as [|a Ts IH]; intros ns t [|k] d n Hd Hn; try discriminate; destruct ns as [|m ns]; try discriminate.
  - injection Hd as ->; injection Hn as ->. cbn. unfold phase_start, phase_end; cbn. rewrite !Rplus_0_r. reflexivity.
  - cbn [nth_error step_blocks] in *. rewrite (IH _ _ _ _ _ Hd Hn).
    unfold phase_start, phase_end. cbn [firstn total]. do 2 f_equal; ring.
Qed.
Lemma step_blocks_len dt : forall Ts ns t, length ns = length Ts -> length (step_blocks Ts ns dt t) = length Ts.
Proof. induction Ts as [|d Ts IH]; intros [|n ns] t H; try discriminate; cbn; [reflexivity|]. rewrite IH; cbn in H; lia. Qed.

Lemma step_fuel Ts dt : 0 < dt -> Forall (Rlt 0) Ts -> exists ns, length ns = length Ts /\
  (forall k n, nth_error ns k = Some n -> steps_to (phase_start Ts k) (phase_end Ts k) dt n) /\
  forall fuel, (enough Ts dt <= fuel)%nat ->
    computeDiscretizedTime_fuel fuel Ts dt = Some (tagged (step_blocks Ts ns dt 0)).
Proof.
  intros Hdt HF. destruct (counts_exist dt Hdt Ts 0 HF) as (ns & HL & H). exists ns. split; [exact HL|]. split.
  - intros k n Hn. destruct (nth_error_ex Ts k) as [d Hd].
    { rewrite <- HL. eapply nth_error_lt; eauto. }
    destruct (H k d n Hd Hn) as [Hs _]. rewrite !Rplus_0_l in Hs. exact Hs.
  - intros fuel Hfuel. unfold computeDiscretizedTime_fuel. rewrite (step_outer_eq dt Ts ns fuel 0 0 [] HL).
    + reflexivity.
    + intros k d n Hd Hn. destruct (H k d n Hd Hn) as [Hs Hl]. split; [exact Hs|].
      pose proof (enough_ge Ts dt d Hdt (nth_error_In _ _ Hd)). lia.
Qed.

Lemma steps_to_unique s e dt n m : 0 < dt -> steps_to s e dt n -> steps_to s e dt m -> n = m.
Proof.
  intros Hdt [A1 A2] [B1 B2]. destruct (Nat.lt_trichotomy n m) as [H|[H|H]]; [|exact H|].
  - specialize (B2 n H). lra.
  - specialize (A2 m H). lra.
Qed.

Lemma c11_ok Ts dt : 0 < dt -> Forall (Rlt 0) Ts -> exists bs,
  computeDiscretizedTime Ts dt = Ok (tagged bs) /\
  length bs = length Ts /\
  (forall i b, nth_error bs i = Some b -> exists n,
     steps_to (phase_start Ts i) (phase_end Ts i) dt n /\
     b = step_samples (phase_start Ts i) (phase_end Ts i) dt n) /\
  (forall fuel, (enough Ts dt <= fuel)%nat ->
     computeDiscretizedTime_fuel fuel Ts dt = Some (tagged bs)).
Proof.
  intros Hdt HF. destruct (step_fuel Ts dt Hdt HF) as (ns & HL & Hs & Hf).
  exists (step_blocks Ts ns dt 0). split; [|split; [|split]].
  - unfold computeDiscretizedTime. rewrite Hf by lia. reflexivity.
  - apply step_blocks_len, HL.
  - intros i b Hb.
    assert (Hi : (i < length Ts)%nat) by (rewrite <- (step_blocks_len dt Ts ns 0 HL); eapply nth_error_lt; eauto).
    destruct (nth_error_ex Ts i Hi) as [d Hd]. destruct (nth_error_ex ns i ltac:(lia)) as [n Hn].
    exists n. rewrite (step_blocks_nth dt Ts ns 0 i d n Hd Hn) in Hb. rewrite !Rplus_0_l in Hb.
    injection Hb as <-. split; [apply Hs, Hn|reflexivity].
  - exact Hf.
Qed.

(** With a non-positive step the loop never ends. *)
Lemma while_push_none : forall fuel t stop dt i arr, dt <= 0 -> t < stop ->
  while_push fuel t stop dt i arr = None.
Proof.
  induction fuel as [|f IH]; intros t stop dt i arr Hdt Hlt; cbn [while_push]; [reflexivity|].
  destruct (Rlt_dec t stop); [|lra]. apply IH; lra.
Qed.
Lemma step_outer_none dt : dt <= 0 -> forall Ts fuel i t arr, Exists (Rlt 0) Ts ->
  step_outer fuel Ts dt i t arr = None.
Proof.
  intros Hdt. induction Ts as [|d Ts IH]; intros fuel i t arr HE; [inversion HE|].
  cbn [step_outer]. destruct (Rlt_dec 0 d) as [Hd|Hd].
  - rewrite while_push_none by lra. reflexivity.
  - inversion HE; subst; [contradiction|]. destruct (while_push _ _ _ _ _ _); [|reflexivity].
    apply IH. assumption.
Qed.
Lemma c11_diverges Ts dt : dt <= 0 -> Exists (Rlt 0) Ts ->
  forall fuel, computeDiscretizedTime_fuel fuel Ts dt = None.
Proof. intros Hdt HE fuel. apply step_outer_none; assumption. Qed.

(** samples of a phase are inside it and at most dt apart *)
Lemma step_samples_inside s e dt n a : 0 < dt -> s < e -> steps_to s e dt n ->
  In a (step_samples s e dt n) -> s <= a <= e.
Proof.
  intros Hdt Hse [H1 H2] Hin. unfold step_samples in Hin. apply in_app_or in Hin. destruct Hin as [Hin|[<-|[]]]; [|lra].
  apply in_map_iff in Hin. destruct Hin as (k & <- & Hk). apply in_seq in Hk.
  specialize (H2 k ltac:(lia)). pose proof (pos_INR k). split; [nra|lra].
Qed.
Lemma step_samples_gap s e dt n : 0 < dt -> steps_to s e dt n -> forall k a b,
  nth_error (step_samples s e dt n) k = Some a -> nth_error (step_samples s e dt n) (S k) = Some b ->
  a < b <= a + dt.
Proof.
  intros Hdt [H1 H2] k a b Ha Hb. unfold step_samples in *.
  set (l := map (fun k => s + INR k * dt) (seq 0 n)) in *.
  assert (HL : length l = n) by (unfold l; rewrite map_length, seq_length; reflexivity).
  assert (HN : forall j, (j < n)%nat -> nth_error (l ++ [e]) j = Some (s + INR j * dt)).
  { intros j Hj. rewrite nth_error_app1 by lia. unfold l.
    rewrite (map_nth_error _ _ _ (nth_seq 0 n j Hj)). reflexivity. }
  pose proof (nth_error_lt _ _ _ Hb) as Hk. rewrite app_length, HL in Hk. cbn in Hk.
  rewrite HN in Ha by lia. injection Ha as <-.
  destruct (Nat.eq_dec (S k) n) as [E|E].
  - rewrite nth_error_app2 in Hb by lia. rewrite HL, E, Nat.sub_diag in Hb. injection Hb as <-.
    specialize (H2 k ltac:(lia)). rewrite <- E, S_INR in H1. lra.
  - rewrite HN in Hb by lia. assert (Eb : b = s + INR (S k) * dt) by congruence. rewrite S_INR in Eb. lra.
Qed.

(** phase switches *)
Fixpoint ends {A} (off : Z) (bs : list (list A)) : list Z :=
  match bs with
  | [] => []
  | b :: bs' => let o := (off + Z.of_nat (length b))%Z in (o - 1)%Z :: ends o bs'
  end.

Lemma step_ids_same i ph b rest :
  step_ids i ph (map (fun t => (t, ph)) b ++ rest) = step_ids (i + Z.of_nat (length b)) ph rest.
Proof.
  revert i; induction b as [|a b IH]; intros i.
  - cbn. rewrite Z.add_0_r. reflexivity.
  - cbn [map app step_ids length]. rewrite Z.eqb_refl, IH. f_equal. lia.
Qed.
Lemma step_ids_tagged : forall bs i ph, Forall (fun b => b <> []) bs ->
  step_ids i ph (tagged_from (ph + 1) bs) = i :: ends (i + 1) bs.
Proof.
  induction bs as [|b bs IH]; intros i ph HF; [reflexivity|].
  inversion HF as [|? ? Hb HF']; subst. destruct b as [|t b]; [congruence|].
  cbn [tagged_from map app step_ids]. replace (Z.eqb (ph + 1) ph) with false by (symmetry; apply Z.eqb_neq; lia).
  f_equal. rewrite step_ids_same, IH by assumption. cbn [ends length]. f_equal; [lia|]. f_equal. lia.
Qed.
Lemma stepIdPerPhase_tagged bs : Forall (fun b => b <> []) bs -> bs <> [] ->
  stepIdPerPhase (tagged bs) = Ok (ends 0 bs).
Proof.
  intros HF Hne. destruct bs as [|b bs]; [congruence|]. inversion HF as [|? ? Hb HF']; subst.
  destruct b as [|t b]; [congruence|]. unfold tagged. cbn [tagged_from map app stepIdPerPhase].
  rewrite step_ids_same. change (0 + 1)%Z with (0 + 1)%Z. rewrite (step_ids_tagged bs _ 0) by assumption.
  cbn [ends length]. f_equal. f_equal; [lia|]. f_equal. lia.
Qed.

Lemma ends_len {A} : forall (bs : list (list A)) off, length (ends off bs) = length bs.
Proof. induction bs as [|b bs IH]; intros off; cbn; [reflexivity|rewrite IH; reflexivity]. Qed.
Lemma ends_ge {A} : forall (bs : list (list A)) off z, Forall (fun b => b <> []) bs -> In z (ends off bs) -> (off <= z)%Z.
Proof.
  induction bs as [|b bs IH]; intros off z HF Hin; [contradiction|]. inversion HF as [|? ? Hb HF']; subst.
  assert (1 <= length b)%nat by (destruct b; [congruence|cbn; lia]).
  cbn [ends] in Hin. destruct Hin as [<-|Hin]; [lia|]. specialize (IH _ _ HF' Hin). lia.
Qed.

Lemma ends_map {A B} (f : A -> B) : forall bs off, ends off (map (map f) bs) = ends off bs.
Proof.
  induction bs as [|b bs IH]; intros off; cbn [ends map]; [reflexivity|]. rewrite map_length, IH. reflexivity.
Qed.
Lemma tagged_nth_ge : forall bs off k t z, nth_error (tagged_from off bs) k = Some (t, z) ->
  (off <= z)%Z.
Proof.
  induction bs as [|b bs IH]; intros off k t z H; [destruct k; discriminate|].
  cbn [tagged_from] in H. destruct (Nat.ltb_spec k (length b)) as [Hk|Hk].
  - rewrite nth_error_app1 in H by (rewrite map_length; lia).
    apply nth_error_In, in_map_iff in H. destruct H as (a & E & _). injection E as <- <-. lia.
  - rewrite nth_error_app2 in H by (rewrite map_length; lia). specialize (IH _ _ _ _ H). lia.
Qed.

(** the i-th end is the index of the last pair tagged i *)
Lemma ends_last : forall bs off ph i s, Forall (fun b => b <> []) bs ->
  nth_error (ends off bs) i = Some s ->
  exists k, s = (off + Z.of_nat k)%Z /\
    (exists t, nth_error (tagged_from ph bs) k = Some (t, (ph + Z.of_nat i)%Z)) /\
    (forall k' t', (k < k')%nat -> nth_error (tagged_from ph bs) k' <> Some (t', (ph + Z.of_nat i)%Z)).
Proof.
  induction bs as [|b bs IH]; intros off ph i s HF Hs; [destruct i; discriminate|].
  inversion HF as [|? ? Hb HF']; subst.
  assert (Hlen : (1 <= length b)%nat) by (destruct b; [congruence|cbn; lia]).
  cbn [ends] in Hs. destruct i as [|i].
  - injection Hs as <-. exists (length b - 1)%nat. split; [lia|]. cbn [tagged_from]. split.
    + destruct (nth_error_ex b (length b - 1) ltac:(lia)) as [t Ht]. exists t.
      rewrite nth_error_app1 by (rewrite map_length; lia). rewrite (map_nth_error _ _ _ Ht).
      f_equal. f_equal. lia.
    + intros k' t' Hk' H. rewrite nth_error_app2 in H by (rewrite map_length; lia).
      apply tagged_nth_ge in H. lia.
  - cbn [nth_error] in Hs. destruct (IH _ (ph + 1)%Z _ _ HF' Hs) as (k & -> & (t & Ht) & Hlast).
    exists (length b + k)%nat. split; [lia|]. cbn [tagged_from].
    replace (ph + Z.of_nat (S i))%Z with (ph + 1 + Z.of_nat i)%Z by lia. split.
    + exists t. rewrite nth_error_app2 by (rewrite map_length; lia).
      rewrite map_length. replace (length b + k - length b)%nat with k by lia. exact Ht.
    + intros k' t' Hk' H. rewrite nth_error_app2 in H by (rewrite map_length; lia).
      rewrite map_length in H. apply (Hlast (k' - length b)%nat t'); [lia|exact H].
Qed.

Lemma c12_gen bs : Forall (fun b => b <> []) bs -> bs <> [] -> exists sw,
  stepIdPerPhase (tagged bs) = Ok sw /\ length sw = length bs /\
  forall i s, nth_error sw i = Some s -> exists k, s = Z.of_nat k /\
    (exists t, nth_error (tagged bs) k = Some (t, Z.of_nat i)) /\
    (forall k' t', (k < k')%nat -> nth_error (tagged bs) k' <> Some (t', Z.of_nat i)).
Proof.
  intros HF Hne. exists (ends 0 bs). split; [apply stepIdPerPhase_tagged; assumption|].
  split; [apply ends_len|]. intros i s Hs. destruct (ends_last bs 0 0 i s HF Hs) as (k & -> & H1 & H2).
  exists k. split; [lia|]. cbn [Z.add] in *. split; assumption.
Qed.

Lemma fixed_bs_len Ts p : length (fixed_bs Ts p) = length Ts.
Proof.
  unfold fixed_bs. rewrite <- (fixed_blocks_len Ts p 0). destruct (fixed_blocks Ts p 0); reflexivity.
Qed.
Lemma fixed_blocks_ne p : (1 <= p)%nat -> forall Ts t, Forall (fun b => b <> []) (fixed_blocks Ts p t).
Proof.
  intros Hp. induction Ts as [|d Ts IH]; intros t; cbn [fixed_blocks]; constructor; [|apply IH].
  intros E. apply (f_equal (@length R)) in E. rewrite frac_len in E. cbn in E. lia.
Qed.
Lemma fixed_bs_ne Ts p : (1 <= p)%nat -> Forall (fun b => b <> []) (fixed_bs Ts p).
Proof.
  intros Hp. unfold fixed_bs. pose proof (fixed_blocks_ne p Hp Ts 0) as H.
  destruct (fixed_blocks Ts p 0); [constructor|]. inversion H; subst. constructor; [discriminate|assumption].
Qed.
Lemma step_samples_ne s e dt n : step_samples s e dt n <> [].
Proof. unfold step_samples. destruct (map _ _); discriminate. Qed.
Lemma step_bs_ne Ts dt bs :
  (forall i b, nth_error bs i = Some b -> exists n,
     steps_to (phase_start Ts i) (phase_end Ts i) dt n /\
     b = step_samples (phase_start Ts i) (phase_end Ts i) dt n) -> Forall (fun b => b <> []) bs.
Proof.
  intros H. apply Forall_forall. intros b Hin. apply In_nth_error in Hin. destruct Hin as [i Hi].
  destruct (H i b Hi) as (n & _ & ->). apply step_samples_ne.
Qed.

Lemma c12_fixed Ts p : (1 <= p)%nat -> Ts <> [] -> exists sw,
  stepIdPerPhase (computeDiscretizedTimeFixed Ts p) = Ok sw /\ length sw = length Ts /\
  forall i s, nth_error sw i = Some s -> last_tagged (computeDiscretizedTimeFixed Ts p) i s.
Proof.
  intros Hp Hne. rewrite (fixed_tagged Ts p Hp Hne). rewrite <- (fixed_bs_len Ts p).
  apply c12_gen; [apply fixed_bs_ne, Hp|].
  intros E. apply (f_equal (@length _)) in E. rewrite fixed_bs_len in E. destruct Ts; [congruence|discriminate].
Qed.
Lemma c12_step Ts dt : 0 < dt -> Forall (Rlt 0) Ts -> Ts <> [] -> exists ta sw,
  computeDiscretizedTime Ts dt = Ok ta /\ stepIdPerPhase ta = Ok sw /\ length sw = length Ts /\
  forall i s, nth_error sw i = Some s -> last_tagged ta i s.
Proof.
  intros Hdt HF Hne. destruct (c11_ok Ts dt Hdt HF) as (bs & HE & HL & Hb & _).
  destruct (c12_gen bs (step_bs_ne Ts dt bs Hb)) as (sw & H1 & H2 & H3).
  - intros ->. destruct Ts; [congruence|discriminate].
  - exists (tagged bs), sw. rewrite HE, <- HL. repeat split; assumption.
Qed.
