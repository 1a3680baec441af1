(** Double arithmetic: time samples at a fixed number of points per phase. *)
From Flocq Require Import Core BinarySingleNaN.
From Verif Require Import Vec SpecTime Double ModelDouble SpecDouble ProofTime ProofDouble ProofDouble2 ProofDouble3.
Open Scope R_scope.

(** [t] is [e] up to [k] roundings *)
Definition rounds (k : nat) (e t : R) : Prop := e * (1 - u53) ^ k <= t <= e * (1 + u53) ^ k.

Lemma u53_lt1 : u53 < 1.
Proof. unfold u53. rewrite <- Rinv_1. apply Rinv_lt_contravar; [rewrite Rmult_1_l|]; apply IZR_lt; reflexivity. Qed.

Lemma pow_dec x k : 0 <= x <= 1 -> x ^ S k <= x ^ k.
Proof. intros [A B]. cbn [pow]. rewrite <- (Rmult_1_l (x ^ k)) at 2. apply Rmult_le_compat_r; [apply pow_le, A|exact B]. Qed.
Lemma pow_inc x k : 1 <= x -> x ^ k <= x ^ S k.
Proof. intros A. cbn [pow]. rewrite <- (Rmult_1_l (x ^ k)) at 1. apply Rmult_le_compat_r; [apply pow_le; lra|exact A]. Qed.
Lemma pow_dec1 x k : 0 <= x <= 1 -> (1 <= k)%nat -> x ^ k <= x.
Proof. intros H K. destruct k as [|k]; [lia|]. clear K. induction k as [|k IH]; [rewrite pow_1; lra|]. eapply Rle_trans; [apply pow_dec, H|exact IH]. Qed.
Lemma pow_inc1 x k : 1 <= x -> (1 <= k)%nat -> x <= x ^ k.
Proof. intros H K. destruct k as [|k]; [lia|]. clear K. induction k as [|k IH]; [rewrite pow_1; lra|]. eapply Rle_trans; [exact IH|apply pow_inc, H]. Qed.

Lemma rounds_add k e t s ds : (1 <= k)%nat -> 0 <= e -> 0 <= ds -> fmt t -> fmt s -> 0 <= t -> 0 <= s ->
  rounds k e t -> rounds 1 ds s -> rounds (S k) (e + ds) (rnd (t + s)).
Proof.
  intros K E0 D0 Ft Fs T0 S0 [L1 U1] [L2 U2]. rewrite pow_1 in L2, U2. pose proof u53_pos as U. pose proof u53_lt1 as V.
  destruct (add_up t s Ft Fs T0 S0) as [Up Dn].
  pose proof (pow_dec1 (1 - u53) k ltac:(lra) K) as P1. pose proof (pow_inc1 (1 + u53) k ltac:(lra) K) as P2.
  assert (A1 : (e + ds) * (1 - u53) ^ k <= t + s).
  { rewrite Rmult_plus_distr_r. apply Rplus_le_compat; [exact L1|]. eapply Rle_trans; [|exact L2]. apply Rmult_le_compat_l; lra. }
  assert (A2 : t + s <= (e + ds) * (1 + u53) ^ k).
  { rewrite Rmult_plus_distr_r. apply Rplus_le_compat; [exact U1|]. eapply Rle_trans; [exact U2|]. apply Rmult_le_compat_l; lra. }
  unfold rounds. cbn [pow]. split.
  - eapply Rle_trans; [|exact Dn]. replace ((e + ds) * ((1 - u53) * (1 - u53) ^ k)) with ((e + ds) * (1 - u53) ^ k * (1 - u53)) by ring.
    apply Rmult_le_compat_r; lra.
  - eapply Rle_trans; [exact Up|]. replace ((e + ds) * ((1 + u53) * (1 + u53) ^ k)) with ((e + ds) * (1 + u53) ^ k * (1 + u53)) by ring.
    apply Rmult_le_compat_r; lra.
Qed.

(** roundings add up *)
Lemma pow_up k : INR k * u53 <= 1 -> (1 + u53) ^ k <= 1 + 2 * INR k * u53.
Proof.
  pose proof u53_pos as U.
  assert (H : forall k, INR k * u53 <= 1 -> (1 + u53) ^ k <= 1 + INR k * u53 + (INR k * u53) * (INR k * u53)).
  { clear k. induction k as [|k IH]; intro H; [simpl; lra|]. rewrite S_INR in *. pose proof (pos_INR k) as Pk.
    assert (H' : INR k * u53 <= 1) by lra. specialize (IH H'). cbn [pow].
    apply Rle_trans with ((1 + u53) * (1 + INR k * u53 + INR k * u53 * (INR k * u53))); [apply Rmult_le_compat_l; lra|].
    assert (0 <= INR k * u53) by (apply Rmult_le_pos; lra). nra. }
  intro K. specialize (H k K). pose proof (pos_INR k). assert (0 <= INR k * u53) by (apply Rmult_le_pos; lra). nra.
Qed.
Lemma pow_down k : 1 - INR k * u53 <= (1 - u53) ^ k.
Proof.
  pose proof u53_pos as U. pose proof u53_lt1 as V. induction k as [|k IH]; [simpl; lra|]. rewrite S_INR. cbn [pow].
  apply Rle_trans with ((1 - u53) * (1 - INR k * u53)); [|apply Rmult_le_compat_l; lra].
  pose proof (pos_INR k). assert (0 <= INR k * u53) by (apply Rmult_le_pos; lra). nra.
Qed.
Lemma rounds_abs k e t : 0 <= e -> INR k * u53 <= 1 -> rounds k e t -> Rabs (t - e) <= 2 * INR k * u53 * e.
Proof.
  intros E0 K [L U]. pose proof (pow_up k K). pose proof (pow_down k). pose proof (pos_INR k). pose proof u53_pos.
  assert (0 <= INR k * u53) by (apply Rmult_le_pos; lra). apply Rabs_le. split; nra.
Qed.

Lemma fits x : 0 <= x -> x <= IZR (2 ^ 1002) -> Rabs (rnd x) < bpow radix2 1024.
Proof.
  intros X0 X1. rewrite Rabs_pos_eq by (apply rnd_ge0, X0).
  assert (F : fmt (IZR (2 ^ 1002))).
  { change (IZR (2 ^ 1002)) with (bpow radix2 1002). apply generic_format_bpow. unfold FLT_exp. lia. }
  apply Rle_lt_trans with (IZR (2 ^ 1002)); [rewrite <- (rnd_fmt _ F); apply rnd_le, X1|].
  rewrite big. apply IZR_lt. reflexivity.
Qed.

Section Fixed.
Variable K : nat.  (* all additions *)
Variable E : R.    (* the exact duration *)
Hypothesis HK : INR (S K) * u53 <= 1.
Hypothesis HE : E <= IZR (2 ^ 1000).

Definition good (k : nat) (e : R) (t : f64) : Prop := is_finite t = true /\ 0 <= B2R t /\ rounds (S k) e (B2R t).

Lemma good_add k e t s ds : (k < K)%nat -> 0 <= e -> 0 <= ds -> e + ds <= E -> good k e t ->
  is_finite s = true -> 0 <= B2R s -> rounds 1 ds (B2R s) -> good (S k) (e + ds) (fadd t s).
Proof.
  intros Hk E0 D0 Le (Ft & T0 & R1) Fs S0 R2.
  pose proof (rounds_add (S k) e (B2R t) (B2R s) ds ltac:(lia) E0 D0 (fmt_B2R t) (fmt_B2R s) T0 S0 R1 R2) as R3.
  assert (M : Rabs (rnd (B2R t + B2R s)) < bpow radix2 1024).
  { apply fits; [lra|]. destruct R1 as [_ U1]. destruct R2 as [_ U2]. rewrite pow_1 in U2.
    assert (P3 : (1 + u53) ^ S k <= 3).
    { assert (INR (S k) * u53 <= 1) by (eapply Rle_trans; [|exact HK]; apply Rmult_le_compat_r; [apply Rlt_le, u53_pos|apply le_INR; lia]).
      pose proof (pow_up (S k) H). lra. }
    pose proof u53_lt1. apply Rle_trans with (3 * E); [nra|]. apply Rle_trans with (4 * IZR (2 ^ 1000)); [assert (0 < IZR (2 ^ 1000)) by (apply IZR_lt; reflexivity); nra|].
    change (2 ^ 1002)%Z with (4 * 2 ^ 1000)%Z. rewrite mult_IZR. lra. }
  destruct (fadd_fin t s Ft Fs M) as [F V]. split; [exact F|]. rewrite V. split; [apply rnd_ge0; lra|exact R3].
Qed.

Lemma inner_ok s ds i : 0 <= ds -> is_finite s = true -> 0 <= B2R s -> rounds 1 ds (B2R s) ->
  forall j k e t arr, (k + j <= K)%nat -> 0 <= e -> e + INR j * ds <= E -> good k e t ->
  exists ts t', fixed_inner_f j s i t arr = (t', arr ++ map (fun x => (x, i)) ts) /\ length ts = j /\
    good (k + j) (e + INR j * ds) t' /\
    forall m x, nth_error ts m = Some x -> good (k + S m) (e + INR (S m) * ds) x.
Proof.
  intros D0 Fs S0 Rs. induction j as [|j IH]; intros k e t arr Hk E0 Le G.
  - exists [], t. rewrite app_nil_r, Nat.add_0_r. replace (e + INR 0 * ds) with e by (simpl; ring).
    split; [reflexivity|]. split; [reflexivity|]. split; [exact G|]. intros [|m] x H; discriminate H.
  - cbn [fixed_inner_f]. rewrite S_INR in Le. pose proof (pos_INR j) as Pj.
    assert (J0 : 0 <= INR j * ds) by (apply Rmult_le_pos; lra).
    pose proof (good_add k e t s ds ltac:(lia) E0 D0 ltac:(lra) G Fs S0 Rs) as G1.
    destruct (IH (S k) (e + ds) (fadd t s) (arr ++ [(fadd t s, i)])) as (ts & t' & Eq & L & G2 & N); [lia|lra|lra|exact G1|].
    exists (fadd t s :: ts), t'. split; [rewrite Eq; cbn [map]; rewrite <- app_assoc; reflexivity|]. split; [cbn [length]; lia|].
    replace (k + S j)%nat with (S k + j)%nat by lia. replace (e + INR (S j) * ds) with (e + ds + INR j * ds) by (rewrite S_INR; ring).
    split; [exact G2|]. intros [|m] x H.
    + injection H as <-. replace (k + 1)%nat with (S k) by lia. replace (e + INR 1 * ds) with (e + ds) by (simpl; ring). exact G1.
    + cbn [nth_error] in H. apply N in H. replace (k + S (S m))%nat with (S k + S m)%nat by lia.
      replace (e + INR (S (S m)) * ds) with (e + ds + INR (S m) * ds) by (rewrite (S_INR (S m)); ring). exact H.
Qed.

Variable p : nat.
Hypothesis Hp : (1 <= p)%nat.
Hypothesis Hp53 : (Z.of_nat p <= 2 ^ 53)%Z.

Lemma step_ok d : posf d -> / IZR (2 ^ 1022) <= B2R d / INR p ->
  is_finite (fdiv d (of_Z (Z.of_nat p))) = true /\ 0 <= B2R (fdiv d (of_Z (Z.of_nat p))) /\
  rounds 1 (B2R d / INR p) (B2R (fdiv d (of_Z (Z.of_nat p)))).
Proof.
  intros [Fd Pd] N. destruct (of_Z_val (Z.of_nat p) ltac:(lia)) as [Fp Vp].
  assert (P1 : 1 <= INR p) by (change 1 with (INR 1); apply le_INR, Hp).
  assert (X0 : 0 < B2R d / INR p) by (apply Rdiv_lt_0_compat; lra).
  assert (X1 : B2R d / INR p <= B2R d).
  { rewrite <- (Rmult_1_r (B2R d)) at 2. apply Rmult_le_compat_l; [lra|]. rewrite <- Rinv_1. apply Rinv_le_contravar; lra. }
  assert (Q : B2R d / B2R (of_Z (Z.of_nat p)) = B2R d / INR p) by (rewrite Vp, <- INR_IZR_INZ; reflexivity).
  destruct (fdiv_fin d (of_Z (Z.of_nat p)) Fd) as [F V].
  - rewrite Vp, <- INR_IZR_INZ. lra.
  - rewrite Q. rewrite Rabs_pos_eq by (apply rnd_ge0; lra). eapply Rle_lt_trans; [|apply (abs_B2R_lt_emax 53 1024 d)].
    rewrite (Rabs_pos_eq (B2R d)) by lra. rewrite <- (rnd_fmt _ (fmt_B2R d)) at 2. apply rnd_le, X1.
  - split; [exact F|]. rewrite V, Q. split; [apply rnd_ge0; lra|].
    pose proof (rel_err (B2R d / INR p)) as R. rewrite (Rabs_pos_eq (B2R d / INR p)) in R by lra. specialize (R N).
    apply Rabs_le_inv in R. unfold rounds. rewrite !pow_1. split; lra.
Qed.

Lemma outer_ok : forall (Ts : list f64) i k e t arr, (k + length Ts * p <= K)%nat -> 0 <= e -> e + total (map B2R Ts) <= E -> good k e t ->
  Forall posf Ts -> (forall d, In d Ts -> / IZR (2 ^ 1022) <= B2R d / INR p) ->
  exists bs, fixed_outer_f Ts p i t arr = arr ++ tagged_f i bs /\ length bs = length Ts /\
    forall a b, nth_error bs a = Some b -> length b = p /\
      forall m x, nth_error b m = Some x -> exists d, nth_error Ts a = Some d /\
        good (k + (a * p + S m)) (e + (total (map B2R (firstn a Ts)) + INR (S m) / INR p * B2R d)) x.
Proof.
  assert (P1 : 1 <= INR p) by (change 1 with (INR 1); apply le_INR, Hp).
  induction Ts as [|d Ts IH]; intros i k e t arr Hk E0 Le G P N.
  - exists []. cbn [fixed_outer_f tagged_f]. rewrite app_nil_r. split; [reflexivity|]. split; [reflexivity|]. intros [|a] b H; discriminate H.
  - inversion P as [|? ? Pd PT]; subst. cbn [map total] in Le. cbn [length] in Hk.
    destruct (step_ok d Pd (N d (or_introl eq_refl))) as (Fs & S0 & Rs).
    assert (D0 : 0 <= B2R d / INR p) by (apply Rlt_le, Rdiv_lt_0_compat; [apply Pd|lra]).
    assert (DE : INR p * (B2R d / INR p) = B2R d) by (field; lra).
    assert (TT : 0 <= total (map B2R Ts)).
    { clear - PT. induction PT as [|x l [_ Px] _ IH]; cbn; lra. }
    destruct (inner_ok _ _ i D0 Fs S0 Rs p k e t arr) as (ts & t' & Eq & L & G2 & Nt); [nia|exact E0|rewrite DE; lra|exact G|].
    rewrite DE in G2. cbn [fixed_outer_f]. rewrite Eq.
    destruct (IH (i + 1)%Z (k + p)%nat (e + B2R d) t' (arr ++ map (fun x => (x, i)) ts)) as (bs & Eq2 & Lb & Nb);
      [nia|destruct Pd; lra|lra|exact G2|exact PT|intros d' Hd'; apply N; right; exact Hd'|].
    exists (ts :: bs). split; [rewrite Eq2; cbn [tagged_f]; rewrite <- app_assoc; reflexivity|]. split; [cbn [length]; lia|].
    intros [|a] b Hb.
    + injection Hb as <-. split; [exact L|]. intros m x Hx. exists d. split; [reflexivity|]. cbn [firstn map total Nat.mul Nat.add].
      apply Nt in Hx. replace (e + (0 + INR (S m) / INR p * B2R d)) with (e + INR (S m) * (B2R d / INR p)) by (field; lra). exact Hx.
    + cbn [nth_error] in Hb. destruct (Nb a b Hb) as [L2 N2]. split; [exact L2|]. intros m x Hx. destruct (N2 m x Hx) as (d' & E' & G').
      exists d'. split; [exact E'|]. cbn [firstn map total]. replace (k + (S a * p + S m))%nat with (k + p + (a * p + S m))%nat by lia.
      replace (e + (B2R d + total (map B2R (firstn a Ts)) + INR (S m) / INR p * B2R d'))
        with (e + B2R d + (total (map B2R (firstn a Ts)) + INR (S m) / INR p * B2R d')) by ring. exact G'.
Qed.
End Fixed.

Lemma tagged_f_nth p : (1 <= p)%nat -> forall (bs : list (list f64)) i, (forall a b, nth_error bs a = Some b -> length b = p) ->
  length (tagged_f i bs) = (length bs * p)%nat /\
  forall a m, (a < length bs)%nat -> (m < p)%nat -> exists b x, nth_error bs a = Some b /\ nth_error b m = Some x /\
    nth_error (tagged_f i bs) (a * p + m) = Some (x, i + Z.of_nat a)%Z.
Proof.
  intro Hp. induction bs as [|b bs IH]; intros i H.
  - split; [reflexivity|]. intros a m A. cbn in A. lia.
  - assert (Lb : length b = p) by (apply (H O); reflexivity).
    destruct (IH (i + 1)%Z) as [L N]; [intros a b' E; apply (H (S a)), E|]. cbn [tagged_f]. split.
    + rewrite app_length, map_length, L, Lb. cbn [length]. lia.
    + intros [|a] m A M.
      * destruct (nth_error b m) as [x|] eqn:X; [|apply nth_error_None in X; lia]. exists b, x. split; [reflexivity|]. split; [exact X|].
        cbn [Nat.mul Nat.add]. rewrite nth_error_app1 by (rewrite map_length; lia). rewrite (map_nth_error (fun t => (t, i)) m b X).
        rewrite Z.add_0_r. reflexivity.
      * cbn [length] in A. destruct (N a m ltac:(lia) M) as (b' & x & E1 & E2 & E3). exists b', x. split; [exact E1|]. split; [exact E2|].
        rewrite nth_error_app2 by (rewrite map_length; nia). rewrite map_length, Lb. replace (S a * p + m - p)%nat with (a * p + m)%nat by lia.
        rewrite E3. f_equal. f_equal. lia.
Qed.

Lemma nth_removelast {A} (l : list A) n : (S n < length l)%nat -> nth_error (removelast l) n = nth_error l n.
Proof.
  revert n. induction l as [|a l IH]; intros n H; [cbn in H; lia|]. destruct l as [|b l]; [cbn in H; lia|].
  destruct n as [|n]; [reflexivity|]. change (removelast (a :: b :: l)) with (a :: removelast (b :: l)). cbn [nth_error].
  apply IH. cbn [length] in *. lia.
Qed.
Lemma removelast_len {A} (l : list A) : length (removelast l) = (length l - 1)%nat.
Proof.
  induction l as [|a l IH]; [reflexivity|]. destruct l as [|b l]; [reflexivity|].
  change (removelast (a :: b :: l)) with (a :: removelast (b :: l)). cbn [length] in *. rewrite IH. lia.
Qed.

Lemma fixed_f_ok (t_total : f64) (Ts : list f64) p : Ts <> [] -> (1 <= p)%nat -> (Z.of_nat (length Ts) * Z.of_nat p < 2 ^ 53)%Z -> Forall posf Ts ->
  total (map B2R Ts) <= IZR (2 ^ 1000) -> (forall d, In d Ts -> / IZR (2 ^ 1022) <= B2R d / INR p) ->
  let arr := computeDiscretizedTimeFixed_f t_total Ts p in
  length arr = (length Ts * p + 1)%nat /\
  nth_error arr 0 = Some (f0, 0%Z) /\
  nth_error arr (length Ts * p) = Some (t_total, Z.of_nat (length Ts) - 1)%Z /\
  forall i j d, nth_error Ts i = Some d -> (1 <= j <= p)%nat -> (i * p + j < length Ts * p)%nat ->
    exists t, nth_error arr (i * p + j) = Some (t, Z.of_nat i) /\ is_finite t = true /\
      let e := phase_start (map B2R Ts) i + INR j / INR p * B2R d in
      Rabs (B2R t - e) <= 2 * INR (i * p + j + 1) * u53 * e.
Proof.
  intros Ne Hp H53 P LT N. cbv zeta. pose proof u53_pos as U.
  assert (L1 : (1 <= length Ts)%nat) by (destruct Ts; [congruence|cbn; lia]).
  assert (HK : INR (S (length Ts * p)) * u53 <= 1).
  { unfold u53. apply Rmult_le_reg_r with (IZR (2 ^ 53)); [apply IZR_lt; reflexivity|]. rewrite Rmult_assoc, Rinv_l, Rmult_1_r, Rmult_1_l by (apply not_0_IZR; discriminate).
    rewrite INR_IZR_INZ. apply IZR_le. lia. }
  assert (Hp53 : (Z.of_nat p <= 2 ^ 53)%Z) by nia.
  assert (G0 : good 0 0 f0).
  { split; [reflexivity|]. rewrite f0_val. split; [lra|]. unfold rounds. rewrite !Rmult_0_l. lra. }
  destruct (outer_ok (length Ts * p) (total (map B2R Ts)) HK LT p Hp Hp53 Ts 0 0 0 f0 [(f0, 0%Z)]) as (bs & Eq & Lb & Nb);
    [lia|lra|lra|exact G0|exact P|exact N|].
  assert (Lbp : forall a b, nth_error bs a = Some b -> length b = p) by (intros a b E; apply (Nb a b E)).
  destruct (tagged_f_nth p Hp bs 0 Lbp) as [LL NN]. rewrite Lb in LL, NN.
  assert (LO : length (fixed_outer_f Ts p 0 f0 [(f0, 0%Z)]) = (length Ts * p + 1)%nat) by (rewrite Eq, app_length, LL; cbn [length]; lia).
  assert (LR : length (removelast (fixed_outer_f Ts p 0 f0 [(f0, 0%Z)])) = (length Ts * p)%nat) by (rewrite removelast_len, LO; lia).
  assert (PP : (1 <= length Ts * p)%nat) by nia.
  unfold computeDiscretizedTimeFixed_f. split; [|split; [|split]].
  - rewrite app_length, LR. reflexivity.
  - rewrite nth_error_app1, nth_removelast, Eq by lia. reflexivity.
  - rewrite nth_error_app2, LR, Nat.sub_diag by lia. reflexivity.
  - intros i j d Hd Hj Hij. assert (I : (i < length Ts)%nat) by (apply nth_error_Some; congruence).
    destruct (NN i (j - 1)%nat I ltac:(lia)) as (b & x & E1 & E2 & E3). exists x.
    destruct (Nb i b E1) as [_ G]. destruct (G (j - 1)%nat x E2) as (d' & E4 & (Fx & _ & R)).
    rewrite Hd in E4. injection E4 as <-. replace (S (j - 1)) with j in R by lia.
    split; [|split; [exact Fx|]].
    + rewrite nth_error_app1, nth_removelast, Eq by lia. replace (i * p + j)%nat with (S (i * p + (j - 1))) by lia. exact E3.
    + rewrite Rplus_0_l in R. unfold phase_start. rewrite firstn_map.
      replace (i * p + j + 1)%nat with (S (i * p + j)) by lia. cbn [Nat.add] in R.
      assert (P1 : 1 <= INR p) by (change 1 with (INR 1); apply le_INR, Hp).
      assert (D0 : 0 <= INR j / INR p * B2R d).
      { rewrite Forall_forall in P. destruct (P d (nth_error_In _ _ Hd)) as [_ Pd].
        apply Rmult_le_pos; [|lra]. apply Rmult_le_pos; [apply pos_INR|apply Rlt_le, Rinv_0_lt_compat; lra]. }
      assert (S0 : 0 <= total (map B2R (firstn i Ts))).
      { assert (Q : Forall posf (firstn i Ts)) by (apply Forall_forall; intros y Hy; rewrite Forall_forall in P; apply P; rewrite <- (firstn_skipn i Ts); apply in_or_app; left; exact Hy).
        clear - Q. induction Q as [|y l [_ Py] _ IH]; cbn; lra. }
      apply rounds_abs; [apply Rplus_le_le_0_compat; [exact S0|exact D0]| |exact R].
      eapply Rle_trans; [|exact HK]. apply Rmult_le_compat_r; [lra|]. apply le_INR. lia.
Qed.
