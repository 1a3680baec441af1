(** Double arithmetic: number of steps, phases of the continuous formulation, time samples. *)
From Flocq Require Import Core BinarySingleNaN.
From Verif Require Import Vec Double ModelDouble SpecDouble Model0Step ProofDouble.
Open Scope R_scope.

Lemma Btrunc_val (x : f64) : Btrunc x = Ztrunc (B2R x).
Proof.
  apply eq_IZR. rewrite (Btrunc_correct 53 1024 prec_emax). unfold round, F2R, scaled_mantissa, cexp, FIX_exp. simpl.
  rewrite !Rmult_1_r. reflexivity.
Qed.

Lemma Int_part_floor x : Int_part x = Zfloor x.
Proof. unfold Int_part, Zfloor. reflexivity. Qed.

Lemma numsteps_ok (T dt : f64) : is_finite T = true -> is_finite dt = true -> 0 <= B2R T -> 0 < B2R dt ->
  forall m, computeNumSteps (B2R T) (B2R dt) = Ok m -> (m < 2147483647)%Z ->
  exists n, computeNumSteps_f T dt = Ok n /\
    (n = m \/ (n = m + 1)%Z /\ IZR n * (1 - / IZR (2 ^ 53)) <= B2R T / B2R dt).
Proof.
  intros FT Fd PT Pd m Hm Lm. unfold computeNumSteps in Hm. destruct (Rlt_dec 0 (B2R dt)) as [_|N]; [|lra].
  set (x := B2R T / B2R dt) in *.
  assert (X0 : 0 <= x) by (apply Rmult_le_pos; [exact PT|apply Rlt_le, Rinv_0_lt_compat, Pd]).
  unfold to_int in Hm. destruct (Rle_dec 0 x) as [_|N]; [|lra].
  destruct ((-2147483648 <=? Int_part x)%Z && (Int_part x <=? 2147483647)%Z)%bool eqn:B; [|discriminate Hm].
  injection Hm as Em. rewrite Int_part_floor in Em.
  assert (M0 : (0 <= m)%Z) by (rewrite <- Em; apply Zfloor_lub, X0).
  pose proof (Zfloor_lb x) as L1. pose proof (Zfloor_ub x) as L2. rewrite Em in L1, L2.
  assert (R1 : IZR m <= rnd x) by (rewrite <- (rnd_fmt (IZR m)); [apply rnd_le, L1|apply fmt_Z; lia]).
  assert (R2 : rnd x <= IZR (m + 1)).
  { rewrite <- (rnd_fmt (IZR (m + 1))); [apply rnd_le; rewrite plus_IZR; lra|apply fmt_Z; lia]. }
  assert (P0 : 0 <= IZR m) by (apply IZR_le, M0).
  assert (FV : is_finite (fdiv T dt) = true /\ B2R (fdiv T dt) = rnd x).
  { apply fdiv_fin; [exact FT|lra|]. fold x. apply small_lt. rewrite Rabs_pos_eq by lra.
    eapply Rle_trans; [exact R2|]. apply IZR_le. change (2 ^ 100)%Z with 1267650600228229401496703205376%Z. lia. }
  destruct FV as [F V].
  assert (TR : (m <= Ztrunc (rnd x) <= m + 1)%Z).
  { rewrite Ztrunc_floor by lra. split; [apply Zfloor_lub, R1|].
    apply le_IZR. eapply Rle_trans; [apply Zfloor_lb|exact R2]. }
  exists (Ztrunc (rnd x)). split.
  - unfold computeNumSteps_f. replace (flt f0 dt) with true by (symmetry; apply flt_val; [reflexivity|exact Fd|exact Pd]).
    unfold f_to_int. rewrite F, Btrunc_val, V.
    replace ((-2147483648 <=? Ztrunc (rnd x))%Z) with true by (symmetry; apply Z.leb_le; lia).
    replace ((Ztrunc (rnd x) <=? 2147483647)%Z) with true by (symmetry; apply Z.leb_le; lia). reflexivity.
  - destruct (Z.eq_dec (Ztrunc (rnd x)) m) as [E|E]; [left; exact E|right].
    assert (E' : Ztrunc (rnd x) = (m + 1)%Z) by lia. split; [exact E'|]. rewrite E'.
    assert (RX : rnd x = IZR (m + 1)).
    { apply Rle_antisym; [exact R2|]. rewrite <- E' at 1. rewrite Ztrunc_floor by lra. apply Zfloor_lb. }
    assert (H1 : 1 <= IZR (m + 1)) by (apply IZR_le; lia).
    assert (X2 : / 2 <= x).
    { destruct (Rle_or_lt (/ 2) x) as [K|K]; [exact K|exfalso].
      assert (rnd x <= rnd (/ 2)) by (apply rnd_le; lra).
      rewrite (rnd_fmt (/ 2)) in H; [lra|]. apply generic_format_FLT. exists (Float radix2 1 (-1)); [|simpl; lia|simpl; lia].
      unfold F2R. simpl. lra. }
    pose proof (rel_err x) as RE. rewrite Rabs_pos_eq in RE by exact X0. specialize (RE ltac:(eapply Rle_trans; [|exact X2]; apply Rinv_le; [lra|apply IZR_le; lia])).
    apply Rabs_le_inv in RE. rewrite RX in RE. fold u53. pose proof u53_pos as U.
    assert (U1 : u53 < 1). { unfold u53. rewrite <- Rinv_1. apply Rinv_lt_contravar; [rewrite Rmult_1_l; apply IZR_lt; reflexivity|apply IZR_lt; reflexivity]. }
    (* IZR (m+1) <= x (1 + u), and (1 + u) (1 - u) <= 1 *)
    apply Rle_trans with (x * ((1 + u53) * (1 - u53))).
    + rewrite <- Rmult_assoc. apply Rmult_le_compat_r; [lra|]. lra.
    + rewrite <- (Rmult_1_r x) at 2. apply Rmult_le_compat_l; [exact X0|]. nra.
Qed.

Lemma numsteps_big (T dt : f64) : is_finite T = true -> is_finite dt = true -> 0 < B2R dt ->
  2147483648 <= B2R T / B2R dt -> computeNumSteps_f T dt = UB.
Proof.
  intros FT Fd Pd L. unfold computeNumSteps_f. replace (flt f0 dt) with true by (symmetry; apply flt_val; [reflexivity|exact Fd|exact Pd]).
  unfold f_to_int. destruct (is_finite (fdiv T dt)) eqn:F; [|reflexivity].
  assert (V : B2R (fdiv T dt) = rnd (B2R T / B2R dt)).
  { destruct (Rlt_or_le (Rabs (rnd (B2R T / B2R dt))) (bpow radix2 1024)) as [M|M].
    - apply fdiv_fin; [exact FT|lra|exact M].
    - rewrite fdiv_over in F; [discriminate|lra|exact M]. }
  rewrite Btrunc_val, V.
  assert (R1 : IZR 2147483648 <= rnd (B2R T / B2R dt)) by (rewrite <- (rnd_fmt (IZR 2147483648)); [apply rnd_le, L|apply fmt_Z; lia]).
  assert (H : (2147483648 <= Ztrunc (rnd (B2R T / B2R dt)))%Z).
  { rewrite Ztrunc_floor by (apply Rle_trans with (2 := R1); lra). apply Zfloor_lub, R1. }
  replace ((Ztrunc (rnd (B2R T / B2R dt)) <=? 2147483647)%Z) with false by (symmetry; apply Z.leb_gt; lia).
  rewrite Bool.andb_false_r. reflexivity.
Qed.

(** * Sums from left to right *)
Lemma fadd_ge (x y : f64) : is_finite (fadd x y) = true -> 0 <= B2R y -> B2R x <= B2R (fadd x y).
Proof.
  intros F P. destruct (fadd_inv x y F) as (_ & _ & ->). rewrite <- (rnd_fmt _ (fmt_B2R x)) at 1. apply rnd_le. lra.
Qed.

Lemma fold_fin l : forall c, is_finite (fold_left fadd l c) = true -> is_finite c = true.
Proof.
  induction l as [|a l IH]; intros c H; [exact H|]. simpl in H. apply IH in H. apply fadd_inv in H. apply H.
Qed.
Lemma fold_ge l : forall c, Forall posf l -> is_finite (fold_left fadd l c) = true -> B2R c <= B2R (fold_left fadd l c).
Proof.
  induction l as [|a l IH]; intros c P H; [apply Rle_refl|]. inversion P as [|? ? Pa Pl]; subst. simpl in H |- *.
  eapply Rle_trans; [|apply (IH _ Pl H)]. apply fadd_ge; [apply (fold_fin _ _ H)|apply Rlt_le, Pa].
Qed.

Lemma fadd_comm_val (x y : f64) : is_finite (fadd x y) = true -> is_finite (fadd y x) = true /\ B2R (fadd y x) = B2R (fadd x y).
Proof.
  intro F. destruct (fadd_inv x y F) as (Fx & Fy & V).
  pose proof (abs_B2R_lt_emax 53 1024 (fadd x y)) as L. rewrite V in L.
  destruct (fadd_fin y x Fy Fx) as [G W]; [rewrite Rplus_comm; exact L|]. split; [exact G|]. rewrite W, V, Rplus_comm. reflexivity.
Qed.

Lemma accepts_ok (T a b : f64) : is_finite T = true -> is_finite a = true -> is_finite b = true ->
  0 <= B2R a <= B2R T -> 0 <= B2R b <= B2R T -> extract_accepts T (a, b) = true.
Proof.
  intros FT Fa Fb Ha Hb. unfold extract_accepts. cbn [fst snd].
  assert (E1 : flt a f0 = false) by (apply Bool.not_true_is_false; intro H; apply flt_val in H; [rewrite f0_val in H; lra|exact Fa|reflexivity]).
  assert (E2 : flt b f0 = false) by (apply Bool.not_true_is_false; intro H; apply flt_val in H; [rewrite f0_val in H; lra|exact Fb|reflexivity]).
  assert (E3 : flt T a = false) by (apply Bool.not_true_is_false; intro H; apply flt_val in H; [lra|exact FT|exact Fa]).
  assert (E4 : flt T b = false) by (apply Bool.not_true_is_false; intro H; apply flt_val in H; [lra|exact FT|exact Fb]).
  rewrite E1, E2, E3, E4. reflexivity.
Qed.

Lemma ranges_in (T : f64) l : is_finite T = true -> forall c, 0 <= B2R c -> Forall posf l -> is_finite (fold_left fadd l c) = true ->
  B2R (fold_left fadd l c) <= B2R T ->
  mapM (fun r => if extract_accepts T r then Ok r else Throw) (ranges_f c l) = Ok (ranges_f c l).
Proof.
  intro FT. induction l as [|a l IH]; intros c Hc P F L; [reflexivity|].
  inversion P as [|? ? Pa Pl]; subst. simpl in F, L. pose proof (fold_fin _ _ F) as F1.
  destruct (fadd_comm_val _ _ F1) as [F2 V2]. pose proof (fadd_ge c a F1 (Rlt_le _ _ (proj2 Pa))) as G1.
  pose proof (fold_ge _ _ Pl F) as G2. pose proof (fadd_inv _ _ F1) as (Fc & Fa & _). cbn [ranges_f mapM].
  rewrite accepts_ok; [|exact FT|exact Fc|exact F2|lra|rewrite V2; lra].
  cbn [bind]. rewrite IH; [reflexivity|lra|exact Pl|exact F|exact L].
Qed.

Lemma fadd_f0 (a : f64) : posf a -> fadd f0 a = a.
Proof.
  intros [F P]. destruct a as [s|s| |s m e H]; try discriminate F; [simpl in P; lra|]. reflexivity.
Qed.

Lemma phases_seq Ts : Forall posf Ts -> is_finite (seq_sum Ts) = true -> phases_f (seq_sum Ts) Ts = Ok (ranges_f f0 Ts).
Proof.
  intros P F. unfold phases_f. destruct Ts as [|a l]; [reflexivity|]. inversion P as [|? ? Pa Pl]; subst.
  assert (E : fold_left fadd (a :: l) f0 = seq_sum (a :: l)) by (cbn [fold_left seq_sum]; rewrite (fadd_f0 a Pa); reflexivity).
  apply ranges_in; [exact F|apply Rle_refl|exact P|rewrite E; exact F|rewrite E; apply Rle_refl].
Qed.
