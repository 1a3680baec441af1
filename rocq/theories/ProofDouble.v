(** Double arithmetic: operations on finite numbers.  Samples of [0,1], number of steps. *)
From Flocq Require Import Core BinarySingleNaN Relative Plus_error.
From Verif Require Import Vec Double ModelDouble SpecDouble Model0Step.
Open Scope R_scope.

Notation rnd := (round radix2 (FLT_exp (-1074) 53) ZnearestE).
Notation fmt := (generic_format radix2 (FLT_exp (-1074) 53)).

Global Instance p53 : Prec_gt_0 53 := eq_refl.
Global Instance vexp : Valid_exp (FLT_exp (-1074) 53) := FLT_exp_valid (-1074) 53.

Lemma fmt_B2R (x : f64) : fmt (B2R x).
Proof. exact (generic_format_B2R 53 1024 x). Qed.

Lemma rnd_le x y : x <= y -> rnd x <= rnd y.
Proof. apply round_le; typeclasses eauto. Qed.

Lemma rnd_fmt x : fmt x -> rnd x = x.
Proof. apply round_generic; typeclasses eauto. Qed.

Lemma rnd_ge0 x : 0 <= x -> 0 <= rnd x.
Proof. intro H. rewrite <- (rnd_fmt 0 (generic_format_0 _ _)). apply rnd_le, H. Qed.

(** a sum or product whose result is finite *)
Lemma fadd_inv (x y : f64) : is_finite (fadd x y) = true ->
  is_finite x = true /\ is_finite y = true /\ B2R (fadd x y) = rnd (B2R x + B2R y).
Proof.
  intro F.
  assert (Fx : is_finite x = true) by (destruct x as [| [|] | |], y as [| [|] | |]; try reflexivity; try discriminate F).
  assert (Fy : is_finite y = true) by (destruct x as [| [|] | |], y as [| [|] | |]; try reflexivity; try discriminate F).
  split; [exact Fx|split; [exact Fy|]].
  pose proof (Bplus_correct 53 1024 prec_pos prec_emax mode_NE x y Fx Fy) as H.
  destruct (Rlt_bool _ _); [apply H|].
  exfalso. destruct H as [H _]. unfold fadd in F. rewrite <- is_finite_SF_B2SF, H in F. destruct (Bsign x); discriminate F.
Qed.

Lemma fadd_fin (x y : f64) : is_finite x = true -> is_finite y = true -> Rabs (rnd (B2R x + B2R y)) < bpow radix2 1024 ->
  is_finite (fadd x y) = true /\ B2R (fadd x y) = rnd (B2R x + B2R y).
Proof.
  intros Fx Fy L. pose proof (Bplus_correct 53 1024 prec_pos prec_emax mode_NE x y Fx Fy) as H.
  rewrite Rlt_bool_true in H by exact L. destruct H as (V & F & _). split; [exact F|exact V].
Qed.

Lemma fdiv_fin (x y : f64) : is_finite x = true -> B2R y <> 0 -> Rabs (rnd (B2R x / B2R y)) < bpow radix2 1024 ->
  is_finite (fdiv x y) = true /\ B2R (fdiv x y) = rnd (B2R x / B2R y).
Proof.
  intros Fx Ny L. pose proof (Bdiv_correct 53 1024 prec_pos prec_emax mode_NE x y Ny) as H.
  rewrite Rlt_bool_true in H by exact L. destruct H as (V & F & _). split; [|exact V]. unfold fdiv. rewrite F. exact Fx.
Qed.

Lemma fdiv_over (x y : f64) : B2R y <> 0 -> bpow radix2 1024 <= Rabs (rnd (B2R x / B2R y)) ->
  is_finite (fdiv x y) = false.
Proof.
  intros Ny L. pose proof (Bdiv_correct 53 1024 prec_pos prec_emax mode_NE x y Ny) as H.
  rewrite Rlt_bool_false in H by exact L. unfold fdiv. rewrite <- is_finite_SF_B2SF, H.
  destruct (xorb _ _); reflexivity.
Qed.

Lemma fmul_fin (x y : f64) : is_finite x = true -> is_finite y = true -> Rabs (rnd (B2R x * B2R y)) < bpow radix2 1024 ->
  is_finite (fmul x y) = true /\ B2R (fmul x y) = rnd (B2R x * B2R y).
Proof.
  intros Fx Fy L. pose proof (Bmult_correct 53 1024 prec_pos prec_emax mode_NE x y) as H.
  rewrite Rlt_bool_true in H by exact L. destruct H as (V & F & _). split; [|exact V]. unfold fmul. rewrite F, Fx, Fy. reflexivity.
Qed.

Lemma flt_val (x y : f64) : is_finite x = true -> is_finite y = true -> (flt x y = true <-> B2R x < B2R y).
Proof.
  intros Fx Fy. unfold flt. rewrite (Bltb_correct _ _ _ _ Fx Fy). destruct (Rlt_bool_spec (B2R x) (B2R y)); split; intro; try reflexivity; try assumption; try discriminate. lra.
Qed.
Lemma fle_val (x y : f64) : is_finite x = true -> is_finite y = true -> (fle x y = true <-> B2R x <= B2R y).
Proof.
  intros Fx Fy. unfold fle. rewrite (Bleb_correct _ _ _ _ Fx Fy). destruct (Rle_bool_spec (B2R x) (B2R y)); split; intro; try reflexivity; try assumption; try discriminate. lra.
Qed.

Lemma f1_val : B2R f1 = 1.
Proof. apply Bone_correct. Qed.
Lemma f1_fin : is_finite f1 = true.
Proof. reflexivity. Qed.
Lemma f0_val : B2R f0 = 0.
Proof. reflexivity. Qed.

(** integers *)
Lemma fmt_Z n : (Z.abs n <= 2 ^ 53)%Z -> fmt (IZR n).
Proof.
  intro H. replace (IZR n) with (F2R (Float radix2 n 0)) by (unfold F2R; simpl; ring).
  destruct (Z.eq_dec (Z.abs n) (2 ^ 53)) as [E|E].
  - assert (n = 2 ^ 53 \/ n = - 2 ^ 53)%Z as [->| ->] by lia.
    + apply generic_format_FLT. exists (Float radix2 (2 ^ 52) 1); [unfold F2R; simpl; lra|simpl; lia|simpl; lia].
    + apply generic_format_FLT. exists (Float radix2 (- 2 ^ 52) 1); [unfold F2R; simpl; lra|simpl; lia|simpl; lia].
  - apply generic_format_FLT. exists (Float radix2 n 0); [reflexivity|simpl; lia|simpl; lia].
Qed.

Lemma of_Z_val n : (Z.abs n <= 2 ^ 53)%Z -> is_finite (of_Z n) = true /\ B2R (of_Z n) = IZR n.
Proof.
  intro H. pose proof (binary_normalize_correct 53 1024 prec_pos prec_emax mode_NE n 0 false) as C. cbv zeta in C.
  assert (EF : F2R (Float radix2 n 0) = IZR n) by (unfold F2R; simpl; ring).
  rewrite EF in C. change (round radix2 (SpecFloat.fexp 53 1024) (round_mode mode_NE) (IZR n)) with (rnd (IZR n)) in C.
  rewrite (rnd_fmt _ (fmt_Z n H)) in C. rewrite Rlt_bool_true in C.
  - destruct C as (V & F & _). split; [exact F|exact V].
  - rewrite <- abs_IZR. apply Rle_lt_trans with (IZR (2 ^ 53)); [apply IZR_le, H|].
    change (bpow radix2 1024) with (IZR (2 ^ 1024)). apply IZR_lt. reflexivity.
Qed.

Lemma big : bpow radix2 1024 = IZR (2 ^ 1024).
Proof. reflexivity. Qed.
Lemma small_lt x : Rabs x <= IZR (2 ^ 100) -> Rabs x < bpow radix2 1024.
Proof. intro H. eapply Rle_lt_trans; [exact H|]. rewrite big. apply IZR_lt. reflexivity. Qed.

(** relative error of a normal result *)
Lemma u53_pos : 0 < u53.
Proof. unfold u53. apply Rinv_0_lt_compat, IZR_lt. reflexivity. Qed.
Lemma u53_half : / 2 * bpow radix2 (- (53) + 1) = u53.
Proof.
  unfold u53. change (-(53) + 1)%Z with (-(52))%Z. rewrite bpow_opp. change (bpow radix2 52) with (IZR (2 ^ 52)).
  change (2 ^ 53)%Z with (2 * 2 ^ 52)%Z. rewrite mult_IZR. apply eq_sym, Rinv_mult.
Qed.
Lemma rel_err x : / IZR (2 ^ 1022) <= Rabs x -> Rabs (rnd x - x) <= u53 * Rabs x.
Proof.
  intro H. rewrite <- u53_half. apply (relative_error_N_FLT radix2 (-1074) 53 eq_refl (fun x => negb (Z.even x)) x).
  change (-1074 + 53 - 1)%Z with (-(1022))%Z. rewrite bpow_opp. exact H.
Qed.
(** of a sum *)
Lemma add_err x y : fmt x -> fmt y -> Rabs (rnd (x + y) - (x + y)) <= u53 * Rabs (x + y).
Proof.
  intros Fx Fy.
  destruct (Rle_or_lt (/ IZR (2 ^ 1022)) (Rabs (x + y))) as [L|L]; [apply rel_err, L|].
  rewrite rnd_fmt; [unfold Rminus; rewrite Rplus_opp_r, Rabs_R0; apply Rmult_le_pos; [apply Rlt_le, u53_pos|apply Rabs_pos]|].
  apply (FLT_format_plus_small radix2 (-1074) 53); try assumption.
  change (53 + -1074)%Z with (-(1021))%Z. rewrite bpow_opp. eapply Rlt_le, Rlt_trans; [exact L|].
  change (bpow radix2 1021) with (IZR (2 ^ 1021)). apply Rinv_lt_contravar; [|apply IZR_lt; reflexivity].
  apply Rmult_lt_0_compat; apply IZR_lt; reflexivity.
Qed.

(** * Samples of [0,1] *)
Definition u_f : f64 := @B754_finite 53 1024 false 4503599627370496 (-105) eq_refl.
Lemma one_up : rnd (1 + u53) = 1.
Proof.
  assert (F : is_finite (fadd f1 u_f) = true) by reflexivity.
  destruct (fadd_inv _ _ F) as (_ & _ & V).
  replace (fadd f1 u_f) with f1 in V.
  - rewrite f1_val in V.
    replace (B2R u_f) with u53 in V; [symmetry; exact V|].
    unfold u_f, B2R, F2R, Fnum, Fexp, cond_Zopp, u53. change (-105)%Z with (-(105))%Z. rewrite bpow_opp.
    change (bpow radix2 105) with (IZR (2 ^ 105)). change (2 ^ 105)%Z with (2 ^ 53 * 4503599627370496)%Z.
    rewrite mult_IZR. field; repeat split; apply not_0_IZR; discriminate.
  - apply B2SF_inj. vm_compute. reflexivity.
Qed.

Section Samples.
  Variable n : Z.
  Hypothesis Hn : (1 <= n <= 2147483647)%Z.
  Let q := rnd (1 / IZR n).

  Lemma n_pos : 1 <= IZR n <= 2147483647.
  Proof. split; apply IZR_le; lia. Qed.

  Lemma inv_n : / 2147483647 <= 1 / IZR n <= 1.
  Proof.
    pose proof n_pos. unfold Rdiv. rewrite Rmult_1_l. split; [apply Rinv_le; lra|].
    rewrite <- Rinv_1. apply Rinv_le; lra.
  Qed.

  Lemma q_err : Rabs (q - 1 / IZR n) <= u53 / IZR n.
  Proof.
    pose proof inv_n as I. unfold q. eapply Rle_trans; [apply rel_err|].
    - rewrite Rabs_pos_eq by (pose proof (Rinv_0_lt_compat 2147483647 ltac:(lra)); lra).
      eapply Rle_trans; [|apply I]. apply Rinv_le; [lra|apply IZR_le; lia].
    - rewrite Rabs_pos_eq; [right; unfold Rdiv; ring|]. pose proof (Rinv_0_lt_compat 2147483647 ltac:(lra)); lra.
  Qed.

  Lemma q_bounds : 0 <= q <= 1.
  Proof.
    pose proof inv_n as I. unfold q. pose proof (Rinv_0_lt_compat 2147483647 ltac:(lra)). split; [apply rnd_ge0; lra|].
    rewrite <- (rnd_fmt 1) at 2; [apply rnd_le, I|]. apply (fmt_Z 1). lia.
  Qed.

  Lemma q_val : is_finite (fdiv f1 (of_Z n)) = true /\ B2R (fdiv f1 (of_Z n)) = q.
  Proof.
    destruct (of_Z_val n ltac:(lia)) as [F V]. pose proof q_bounds as Q. pose proof n_pos.
    destruct (fdiv_fin f1 (of_Z n)) as [A B]; [reflexivity|rewrite V; lra| |split; [exact A|rewrite B, V, f1_val; reflexivity]].
    rewrite V, f1_val. fold q. apply small_lt. rewrite Rabs_pos_eq by lra. apply Rle_trans with 1; [lra|]. apply IZR_le. lia.
  Qed.

  Lemma nq : IZR n * q <= 1 + u53 /\ 1 - u53 <= IZR n * q.
  Proof.
    pose proof q_err as E. pose proof n_pos as N. apply Rabs_le_inv in E.
    assert (A : IZR n * (1 / IZR n) = 1) by (field; lra).
    assert (B : IZR n * (u53 / IZR n) = u53) by (field; lra).
    split; [rewrite <- A at 1 | rewrite <- A at 1]; rewrite <- B; rewrite <- ?Rmult_plus_distr_l, <- ?Rmult_minus_distr_l;
      apply Rmult_le_compat_l; lra.
  Qed.

  Variable i : Z.
  Hypothesis Hi : (0 <= i <= n)%Z.

  Lemma iq_bounds : 0 <= rnd (IZR i * q) <= 1.
  Proof.
    pose proof q_bounds. assert (I : 0 <= IZR i <= IZR n) by (split; apply IZR_le; lia).
    split; [apply rnd_ge0, Rmult_le_pos; lra|]. rewrite <- one_up. apply rnd_le.
    eapply Rle_trans; [|apply nq]. apply Rmult_le_compat_r; lra.
  Qed.

  Lemma sample_val : is_finite (sample_f n i) = true /\ B2R (sample_f n i) = rnd (IZR i * q).
  Proof.
    destruct q_val as [Fq Vq]. destruct (of_Z_val i ltac:(lia)) as [Fi Vi]. pose proof iq_bounds as B.
    unfold sample_f. rewrite <- Vq, <- Vi. apply fmul_fin; [exact Fi|exact Fq|].
    rewrite Vi, Vq. apply small_lt. rewrite Rabs_pos_eq by lra. apply Rle_trans with 1; [lra|]. apply IZR_le. lia.
  Qed.

  Lemma sample_err : Rabs (B2R (sample_f n i) - IZR i / IZR n) <= 2 * u53.
  Proof.
    destruct sample_val as [_ ->]. pose proof q_err as E. pose proof n_pos as N. pose proof iq_bounds as B. pose proof q_bounds as Q.
    assert (I : 0 <= IZR i <= IZR n) by (split; apply IZR_le; lia).
    assert (E1 : Rabs (IZR i * q - IZR i / IZR n) <= u53).
    { replace (IZR i * q - IZR i / IZR n) with (IZR i * (q - 1 / IZR n)) by (field; lra).
      rewrite Rabs_mult, (Rabs_pos_eq (IZR i)) by lra.
      apply Rle_trans with (IZR n * (u53 / IZR n)); [|right; field; lra].
      apply Rmult_le_compat; [lra|apply Rabs_pos|lra|exact E]. }
    destruct (Z.eq_dec i 0) as [->|Ni].
    { rewrite Rmult_0_l, (rnd_fmt 0 (generic_format_0 _ _)). unfold Rdiv. rewrite Rmult_0_l, Rminus_0_r, Rabs_R0.
      pose proof u53_pos. lra. }
    assert (E2 : Rabs (rnd (IZR i * q) - IZR i * q) <= u53).
    { destruct (Rle_or_lt (IZR i * q) 1) as [L|L].
      - eapply Rle_trans; [apply rel_err|].
        + rewrite Rabs_pos_eq by (apply Rmult_le_pos; lra).
          apply Rle_trans with (1 * / 4294967296).
          * rewrite Rmult_1_l. apply Rinv_le; [lra|apply IZR_le; lia].
          * assert (1 <= IZR i) by (apply IZR_le; lia). apply Rmult_le_compat; [lra| |lra|].
            -- apply Rlt_le, Rinv_0_lt_compat; lra.
            -- pose proof inv_n as J. apply Rabs_le_inv in E.
               assert (u53 / IZR n <= u53 * 1).
               { unfold Rdiv. apply Rmult_le_compat_l; [apply Rlt_le, u53_pos|]. unfold Rdiv in J. rewrite Rmult_1_l in J. lra. }
               assert (u53 <= / 9007199254740992) by (right; reflexivity).
               assert (/ 4294967296 + / 9007199254740992 <= / 2147483647) by lra. lra.
        + rewrite Rabs_pos_eq by (apply Rmult_le_pos; lra). pose proof u53_pos as U.
          rewrite <- (Rmult_1_r u53) at 2. apply Rmult_le_compat_l; lra.
      - assert (rnd (IZR i * q) = 1).
        { apply Rle_antisym; [apply B|]. rewrite <- (rnd_fmt 1) at 1; [apply rnd_le; lra|]. apply (fmt_Z 1). lia. }
        rewrite H. pose proof nq as [M _]. assert (IZR i * q <= IZR n * q) by (apply Rmult_le_compat_r; lra).
        rewrite Rabs_minus_sym, Rabs_pos_eq; lra. }
    replace (rnd (IZR i * q) - IZR i / IZR n) with ((rnd (IZR i * q) - IZR i * q) + (IZR i * q - IZR i / IZR n)) by ring.
    eapply Rle_trans; [apply Rabs_triang|]. lra.
  Qed.
End Samples.

Lemma samples_ok n : (1 <= n <= 2147483647)%Z ->
  (forall i, (0 <= i <= n)%Z ->
     is_finite (sample_f n i) = true /\ bern_accepts (sample_f n i) = true /\
     Rabs (B2R (sample_f n i) - IZR i / IZR n) <= 2 * / IZR (2 ^ 53)) /\
  B2R (sample_f n 0) = 0 /\
  (forall i j, (0 <= i <= j)%Z -> (j <= n)%Z -> B2R (sample_f n i) <= B2R (sample_f n j)) /\
  1 - / IZR (2 ^ 53) <= B2R (sample_f n n) <= 1.
Proof.
  intro Hn. split; [|split; [|split]].
  - intros i Hi. destruct (sample_val n Hn i Hi) as [F V]. pose proof (iq_bounds n Hn i Hi) as B.
    split; [exact F|]. split; [|exact (sample_err n Hn i Hi)].
    unfold bern_accepts. apply andb_true_intro.
    split; apply fle_val; try assumption; try reflexivity; rewrite ?f0_val, ?f1_val, V; apply B.
  - destruct (sample_val n Hn 0 ltac:(lia)) as [_ V]. rewrite V, Rmult_0_l. apply rnd_fmt, generic_format_0.
  - intros i j Hi Hj. destruct (sample_val n Hn i ltac:(lia)) as [_ ->]. destruct (sample_val n Hn j ltac:(lia)) as [_ ->].
    apply rnd_le, Rmult_le_compat_r; [apply q_bounds, Hn|apply IZR_le; lia].
  - destruct (sample_val n Hn n ltac:(lia)) as [_ V]. rewrite V. split; [|apply iq_bounds; lia].
    assert (F : fmt (1 - u53)).
    { apply generic_format_FLT. exists (Float radix2 9007199254740991 (-53)); [|simpl; lia|simpl; lia].
      unfold F2R, Fnum, Fexp, u53. change (-53)%Z with (-(53))%Z. rewrite bpow_opp. change (bpow radix2 53) with (IZR (2 ^ 53)).
      change 9007199254740991%Z with (2 ^ 53 - 1)%Z. rewrite minus_IZR. field. apply not_0_IZR; lia. }
    change (1 - / IZR (2 ^ 53)) with (1 - u53). rewrite <- (rnd_fmt _ F). apply rnd_le, nq, Hn.
Qed.

(** the normalised time of a sample *)
Lemma unit_time_ok (T t : f64) : is_finite T = true -> is_finite t = true -> 0 < B2R T -> 0 <= B2R t ->
  is_finite (unit_time T t) = true /\ bern_accepts (unit_time T t) = true.
Proof.
  intros FT Ft PT Pt. unfold unit_time, fmin.
  assert (Q : 0 <= B2R t / B2R T) by (apply Rmult_le_pos; [exact Pt|apply Rlt_le, Rinv_0_lt_compat, PT]).
  assert (A1 : is_finite f1 = true /\ bern_accepts f1 = true) by (split; reflexivity).
  destruct (flt f1 (fdiv t T)) eqn:L; [exact A1|].
  destruct (Rlt_or_le (Rabs (rnd (B2R t / B2R T))) (bpow radix2 1024)) as [M|M].
  - destruct (fdiv_fin t T Ft ltac:(lra) M) as [F V]. split; [exact F|].
    unfold bern_accepts. apply andb_true_intro. split; apply fle_val; try assumption; try reflexivity.
    + rewrite f0_val, V. apply rnd_ge0, Q.
    + destruct (Rle_or_lt (B2R (fdiv t T)) (B2R f1)) as [K|K]; [exact K|].
      apply flt_val in K; [congruence|reflexivity|exact F].
  - exfalso. pose proof (Bdiv_correct 53 1024 prec_pos prec_emax mode_NE t T ltac:(lra)) as H.
    rewrite Rlt_bool_false in H by exact M.
    unfold flt, Bltb, fdiv in L. rewrite H in L.
    assert (S1 : Bsign t = false \/ B2R t = 0).
    { destruct t as [s| | |s m e]; try (right; reflexivity); try discriminate Ft. destruct s; [|left; reflexivity].
      exfalso. pose proof (F2R_lt_0 radix2 (Float radix2 (Z.neg m) e) eq_refl) as N. simpl in Pt. unfold F2R in N, Pt. simpl in N, Pt. lra. }
    assert (S2 : Bsign T = false).
    { destruct T as [s| | |s m e]; try discriminate FT; [simpl in PT; lra|]. destruct s; [|reflexivity].
      exfalso. pose proof (F2R_lt_0 radix2 (Float radix2 (Z.neg m) e) eq_refl) as N. simpl in PT. unfold F2R in N, PT. simpl in N, PT. lra. }
    destruct S1 as [S1|S1].
    + rewrite S1, S2 in L. discriminate L.
    + rewrite S1 in M. unfold Rdiv in M. rewrite Rmult_0_l, (rnd_fmt 0 (generic_format_0 _ _)), Rabs_R0 in M.
      pose proof (bpow_gt_0 radix2 1024). lra.
Qed.
