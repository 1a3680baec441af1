(** The guard of the capture flag. *)
From Flocq Require Import Core BinarySingleNaN.
From Coq Require Import List Lia Lra Psatz.
From Verif Require Import Vec ModelData Double ModelPtsDouble SpecDouble SpecPtsDouble
  ProofDouble ProofPtsDouble ProofPtsDouble2 ProofPtsDouble4.
Import ListNotations.
Open Scope R_scope.

(** 2^-537 and 2^-538 *)
Definition h537 : f64 := @B754_finite 53 1024 false 4503599627370496 (-589) eq_refl.
Definition h538 : f64 := @B754_finite 53 1024 false 4503599627370496 (-590) eq_refl.
Lemma h_prod : B2R h537 * B2R h538 = eta.
Proof.
  unfold h537, h538, B2R, F2R, eta. cbn [cond_Zopp Fnum Fexp].
  change (-589)%Z with (-(589))%Z. change (-590)%Z with (-(590))%Z. rewrite !bpow_opp.
  change (bpow radix2 589) with (IZR (2 ^ 589)). change (bpow radix2 590) with (IZR (2 ^ 590)).
  rewrite pow_IZR2. change (2 ^ Z.of_nat 1075)%Z with (2 ^ 485 * (2 ^ 590))%Z.
  change (2 ^ 589)%Z with (4503599627370496 * 2 ^ 537)%Z. change (2 ^ 590)%Z with (4503599627370496 * 2 ^ 538)%Z.
  change (2 ^ 485 * (4503599627370496 * 2 ^ 538))%Z with (2 ^ 537 * 2 ^ 538)%Z. rewrite !mult_IZR.
  assert (0 < IZR (2 ^ 537)) by (apply IZR_lt; reflexivity). assert (0 < IZR (2 ^ 538)) by (apply IZR_lt; reflexivity).
  generalize dependent (IZR (2 ^ 537)). generalize dependent (IZR (2 ^ 538)). intros. field. lra.
Qed.
Lemma rnd_eta : rnd eta = 0.
Proof.
  assert (E : fmul h537 h538 = f0) by (apply B2SF_inj; vm_compute; reflexivity).
  destruct (fmul_fin h537 h538 eq_refl eq_refl) as [_ V].
  - apply rnd_big. rewrite h_prod, Rabs_pos_eq by apply Rlt_le, eta_pos. eapply Rle_trans; [apply eta_1|]. apply pow_R1_Rle. lra.
  - rewrite E, h_prod in V. symmetry. exact V.
Qed.
Lemma rnd_zero_iff x : 0 <= x -> (rnd x = 0 <-> x <= eta).
Proof.
  intros Hx. split.
  - intros E. destruct (Rle_or_lt (/ IZR (2 ^ 1022)) (Rabs x)) as [L|L].
    + exfalso. pose proof (rel_err x L) as R. rewrite E in R. unfold Rminus in R. rewrite Rplus_0_l, Rabs_Ropp in R. pose proof u53_small.
      assert (0 < / IZR (2 ^ 1022)) by (apply Rinv_0_lt_compat, IZR_lt; reflexivity). nra.
    + assert (H : Rabs (rnd x - x) <= / 2 * ulp radix2 (FLT_exp (-1074) 53) x) by apply (error_le_half_ulp radix2 (FLT_exp (-1074) 53)).
      rewrite ulp_FLT_small in H; [|exact prec_pos|].
      * rewrite E in H. unfold Rminus in H. rewrite Rplus_0_l, Rabs_Ropp, Rabs_pos_eq in H by exact Hx.
        eapply Rle_trans; [exact H|]. right.
        change (-1074)%Z with (-(1074))%Z. rewrite bpow_opp. change (bpow radix2 1074) with (IZR (2 ^ 1074)).
        unfold eta. rewrite pow_IZR2. change (2 ^ Z.of_nat 1075)%Z with (2 * 2 ^ 1074)%Z. rewrite mult_IZR. symmetry. apply Rinv_mult.
      * change (-1074 + 53)%Z with (-(1021))%Z. rewrite bpow_opp. eapply Rlt_trans; [exact L|].
        change (bpow radix2 1021) with (IZR (2 ^ 1021)). apply Rinv_lt_contravar; [|apply IZR_lt; reflexivity].
        apply Rmult_lt_0_compat; apply IZR_lt; reflexivity.
  - intros L. apply Rle_antisym; [rewrite <- rnd_eta; apply rnd_le, L|apply rnd_ge0, Hx].
Qed.
Lemma fmul_sq (x : f64) : mild x -> is_finite (fmul x x) = true /\ B2R (fmul x x) = rnd (B2R x * B2R x) /\ 0 <= B2R (fmul x x) <= 2 ^ 500.
Proof.
  intros [F B]. assert (S : 0 <= B2R x * B2R x <= 2 ^ 400).
  { replace (B2R x * B2R x) with (Rabs (B2R x) * Rabs (B2R x)) by (rewrite <- Rabs_mult; apply Rabs_pos_eq; nra).
    pose proof (Rabs_pos (B2R x)). split; [nra|]. change 400%nat with (200 + 200)%nat. rewrite pow_add. apply Rmult_le_compat; assumption. }
  destruct (fmul_fin x x F F) as [F2 V2].
  - apply rnd_big. rewrite Rabs_pos_eq by apply S. eapply Rle_trans; [apply S|]. apply Rle_pow; [lra|lia].
  - split; [exact F2|]. split; [exact V2|]. rewrite V2. split; [apply rnd_ge0, S|].
    pose proof (rnd_err (B2R x * B2R x)) as E. rewrite (Rabs_pos_eq (B2R x * B2R x)) in E by apply S.
    pose proof (Rle_abs (rnd (B2R x * B2R x) - B2R x * B2R x)). pose proof u53_small. pose proof u53_pos. pose proof eta_1.
    assert (1 <= 2 ^ 400) by (apply pow_R1_Rle; lra). assert (4 * 2 ^ 400 <= 2 ^ 500) by (replace 4 with (2 ^ 2) by (cbn; lra); rewrite <- pow_add; apply Rle_pow; [lra|lia]). nra.
Qed.
Lemma fadd_nn (x y : f64) B : is_finite x = true -> is_finite y = true -> 0 <= B2R x <= B -> 0 <= B2R y <= B -> 3 * B <= 2 ^ 900 ->
  is_finite (fadd x y) = true /\ 0 <= B2R (fadd x y) <= 3 * B /\ (B2R (fadd x y) = 0 <-> B2R x = 0 /\ B2R y = 0).
Proof.
  intros Fx Fy Hx Hy HB. destruct (fadd_fin x y Fx Fy) as [F V].
  - apply rnd_big. rewrite Rabs_pos_eq by lra. assert (2 ^ 900 <= 2 ^ 1000) by (apply Rle_pow; [lra|lia]). lra.
  - pose proof (add_err (B2R x) (B2R y) (fmt_B2R x) (fmt_B2R y)) as E. rewrite (Rabs_pos_eq (B2R x + B2R y)) in E by lra.
    pose proof (Rle_abs (rnd (B2R x + B2R y) - (B2R x + B2R y))). pose proof u53_small. pose proof u53_pos.
    split; [exact F|]. rewrite V. split; [split; [apply rnd_ge0; lra|nra]|]. split.
    + intros Z. rewrite Z in E. unfold Rminus in E. rewrite Rplus_0_l, Rabs_Ropp, Rabs_pos_eq in E by lra. split; nra.
    + intros [-> ->]. rewrite Rplus_0_r. apply rnd_0.
Qed.
Lemma fsqrt_zero (s : f64) : is_finite s = true -> 0 <= B2R s -> is_finite (fsqrt s) = true /\ (B2R (fsqrt s) = 0 <-> B2R s = 0).
Proof.
  intros F P. destruct (Bsqrt_correct 53 1024 prec_pos prec_emax mode_NE s) as (V & Fs & _). fold (fsqrt s) in V, Fs.
  split.
  - rewrite Fs. destruct s as [sg|sg| |sg m e H]; try reflexivity; try discriminate F. destruct sg; [|reflexivity].
    exfalso. unfold B2R, F2R in P. cbn [cond_Zopp Fnum Fexp] in P. pose proof (bpow_gt_0 radix2 e). assert (N : IZR (Z.neg m) < 0) by (apply IZR_lt; reflexivity). change (- Z.pos m)%Z with (Z.neg m) in P. pose proof (Rmult_lt_0_compat _ _ (Ropp_0_gt_lt_contravar _ N) H0). lra.
  - change (B2R (fsqrt s) = rnd (sqrt (B2R s))) in V. rewrite V. split.
    + intros Z. destruct (Req_dec (B2R s) 0) as [E|E]; [exact E|exfalso].
      assert (L : bpow radix2 (-1074) <= B2R s).
      { rewrite <- (Rabs_pos_eq (B2R s)) by exact P. apply (abs_B2R_ge_emin 53 1024 s). destruct s as [sg|sg| |sg m e H]; try reflexivity; exfalso; apply E; reflexivity. }
      assert (L2 : bpow radix2 (-537) <= sqrt (B2R s)).
      { rewrite <- (sqrt_Rsqr (bpow radix2 (-537))) by apply bpow_ge_0. apply sqrt_le_1_alt. unfold Rsqr. rewrite <- bpow_plus. exact L. }
      assert (L3 : / IZR (2 ^ 1022) <= Rabs (sqrt (B2R s))).
      { rewrite Rabs_pos_eq by apply sqrt_pos. eapply Rle_trans; [|exact L2]. change (/ IZR (2 ^ 1022)) with (/ bpow radix2 1022). rewrite <- bpow_opp. apply bpow_le. lia. }
      pose proof (rel_err _ L3) as R. rewrite Z in R. unfold Rminus in R. rewrite Rplus_0_l, Rabs_Ropp in R. pose proof u53_small.
      pose proof (bpow_gt_0 radix2 (-537)). rewrite Rabs_pos_eq in R by apply sqrt_pos. nra.
    + intros ->. rewrite sqrt_0. apply rnd_0.
Qed.
Lemma guard_ok v : mild3 v -> (Beqb (fv_norm v) f0 = true <-> (forall ax, axis ax -> ax (fv_R v) * ax (fv_R v) <= eta)).
Proof.
  intros (Hx & Hy & Hz). destruct (fmul_sq _ Hx) as (Fx & Vx & Bx), (fmul_sq _ Hy) as (Fy & Vy & By), (fmul_sq _ Hz) as (Fz & Vz & Bz).
  assert (U : 9 * 2 ^ 500 <= 2 ^ 900) by (apply (Rle_trans _ (2 ^ 4 * 2 ^ 500)); [apply Rmult_le_compat_r; [apply pow_le; lra|cbn; lra]|]; rewrite <- pow_add; apply Rle_pow; [lra|lia]).
  assert (P5 : 0 < 2 ^ 500) by (apply pow_lt; lra).
  destruct (fadd_nn (fmul (fx v) (fx v)) (fmul (fy v) (fy v)) (2 ^ 500) Fx Fy) as (F1 & B1 & Z1); [lra|lra|lra|].
  destruct (fadd_nn (fadd (fmul (fx v) (fx v)) (fmul (fy v) (fy v))) (fmul (fz v) (fz v)) (3 * 2 ^ 500) F1 Fz) as (F2 & B2 & Z2); [lra|lra|lra|].
  destruct (fsqrt_zero _ F2) as [F3 Z3]; [lra|]. fold (fv_norm v) in F3, Z3.
  rewrite Beqb_correct by (exact F3 || reflexivity). rewrite f0_val.
  rewrite Vx, Vy in Z1. rewrite Vz in Z2.
  rewrite rnd_zero_iff in Z1 by nra. rewrite rnd_zero_iff in Z1 by nra. rewrite rnd_zero_iff in Z2 by nra.
  split.
  - intros E. destruct (Req_bool_spec (B2R (fv_norm v)) 0) as [E0|]; [|discriminate]. apply Z3 in E0. apply Z2 in E0. destruct E0 as [E0 E3]. apply Z1 in E0. destruct E0 as [E1 E2].
    intros ax [->|[->| ->]]; assumption.
  - intros H. apply Req_bool_true, Z3, Z2. split; [apply Z1; split|]; [apply (H vx)|apply (H vy)|apply (H vz)]; unfold axis; tauto.
Qed.
