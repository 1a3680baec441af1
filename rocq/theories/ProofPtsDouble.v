(** Rounding errors of the fixed control points. *)
From Flocq Require Import Core BinarySingleNaN.
From Coq Require Import List Lia Lra Psatz.
From Verif Require Import Vec ModelData Double ModelPtsDouble SpecDouble SpecPtsDouble ProofDouble.
Import ListNotations.
Open Scope R_scope.

Lemma pow_IZR2 n : 2 ^ n = IZR (2 ^ Z.of_nat n).
Proof. rewrite <- pow_IZR. reflexivity. Qed.
Lemma eta_pos : 0 < eta.
Proof. unfold eta. apply Rinv_0_lt_compat, pow_lt. lra. Qed.
Lemma u53_small : u53 <= / 1000000.
Proof. unfold u53. apply Rinv_le_contravar; [lra|]. apply IZR_le. vm_compute. discriminate. Qed.

(** one rounding *)
Lemma rnd_err x : Rabs (rnd x - x) <= u53 * Rabs x + eta.
Proof.
  pose proof eta_pos as E. pose proof u53_pos as U. pose proof (Rabs_pos x) as P.
  destruct (Rle_or_lt (/ IZR (2 ^ 1022)) (Rabs x)) as [L|L].
  - pose proof (rel_err x L). lra.
  - assert (H : Rabs (rnd x - x) <= / 2 * ulp radix2 (FLT_exp (-1074) 53) x).
    { apply (error_le_half_ulp radix2 (FLT_exp (-1074) 53)). }
    rewrite ulp_FLT_small in H; [|exact prec_pos|].
    + assert (eta = / 2 * bpow radix2 (-1074)).
      { change (-1074)%Z with (-(1074))%Z. rewrite bpow_opp. change (bpow radix2 1074) with (IZR (2 ^ 1074)).
        unfold eta. rewrite pow_IZR2. change (2 ^ Z.of_nat 1075)%Z with (2 * 2 ^ 1074)%Z. rewrite mult_IZR. apply Rinv_mult. }
      nra.
    + change (-1074 + 53)%Z with (-(1021))%Z. rewrite bpow_opp. eapply Rlt_trans; [exact L|].
      change (bpow radix2 1021) with (IZR (2 ^ 1021)). apply Rinv_lt_contravar; [|apply IZR_lt; reflexivity].
      apply Rmult_lt_0_compat; apply IZR_lt; reflexivity.
Qed.
Lemma rnd_big x : Rabs x <= 2 ^ 1000 -> Rabs (rnd x) < bpow radix2 1024.
Proof.
  intros H. pose proof (rnd_err x) as E. pose proof u53_small. pose proof u53_pos. pose proof eta_pos.
  assert (eta <= 1).
  { unfold eta. apply (Rle_trans _ (/ 1)); [|right; apply Rinv_1]. apply Rinv_le_contravar; [lra|]. apply pow_R1_Rle. lra. }
  assert (1 <= 2 ^ 1000) by (apply pow_R1_Rle; lra).
  assert (Rabs (rnd x) <= Rabs (rnd x - x) + Rabs x).
  { replace (rnd x) with (rnd x - x + x) at 1 by ring. apply Rabs_triang. }
  pose proof (Rabs_pos x). assert (Rabs (rnd x) <= 3 * 2 ^ 1000) by nra.
  eapply Rle_lt_trans; [eassumption|]. rewrite big, pow_IZR2, <- mult_IZR. apply IZR_lt. reflexivity.
Qed.

(** [f] is [x] up to [k] roundings of quantities of size [M], and [e]. *)
Definition th (k : nat) : R := (1 + u53) ^ k.
Definition near (k : nat) (M e : R) (f : f64) (x : R) : Prop :=
  is_finite f = true /\ Rabs (B2R f - x) <= (th k - 1) * M + e /\ Rabs x <= M /\ 0 <= e.
Lemma th_1 k : 1 <= th k.
Proof. apply pow_R1_Rle. pose proof u53_pos. lra. Qed.
Lemma th_S k : th (S k) = (1 + u53) * th k.
Proof. reflexivity. Qed.
Lemma th_mono k k' : (k <= k')%nat -> th k <= th k'.
Proof. intros H. apply Rle_pow; [pose proof u53_pos; lra|exact H]. Qed.
Lemma th_2 k : (k <= 20)%nat -> th k <= 2.
Proof.
  intros H. eapply Rle_trans; [apply (th_mono k 20 H)|]. unfold th.
  eapply Rle_trans; [apply (pow_incr _ (1 + / 1000000)); pose proof u53_small; pose proof u53_pos; lra|]. lra.
Qed.
Lemma near_exact (f : f64) : is_finite f = true -> near 0 (Rabs (B2R f)) 0 f (B2R f).
Proof.
  intros F. split; [exact F|]. split; [|split; [right; reflexivity|right; reflexivity]].
  unfold th. cbn. rewrite Rminus_diag_eq by reflexivity. rewrite Rabs_R0. lra.
Qed.
Lemma near_weaken k k' M M' e e' f x : (k <= k')%nat -> M <= M' -> e <= e' -> near k M e f x -> near k' M' e' f x.
Proof.
  intros Hk HM He (F & B & X & P). pose proof (th_mono k k' Hk). pose proof (th_1 k). pose proof (Rabs_pos x).
  split; [exact F|]. split; [|split; [lra|lra]]. eapply Rle_trans; [exact B|]. nra.
Qed.
Lemma near_opp k M e f x : near k M e f x -> near k M e (fopp f) (- x).
Proof.
  intros (F & B & X & P). unfold near, fopp. rewrite is_finite_Bopp, B2R_Bopp. split; [exact F|]. split; [|split; [now rewrite Rabs_Ropp|exact P]].
  replace (- B2R f - - x) with (- (B2R f - x)) by ring. now rewrite Rabs_Ropp.
Qed.
Lemma near_abs k M e f x : near k M e f x -> Rabs (B2R f) <= th k * M + e.
Proof.
  intros (F & B & X & P). replace (B2R f) with (B2R f - x + x) by ring. eapply Rle_trans; [apply Rabs_triang|]. lra.
Qed.
(** an operation with the exact result [a * t], where [a] is the value of [f] *)
Lemma near_scaled k M e f x t (g : f64) : near k M e f x -> 0 <= t ->
  is_finite g = true -> B2R g = rnd (B2R f * t) -> near (S k) (M * t) ((1 + u53) * (e * t) + eta) g (x * t).
Proof.
  intros N Ht Fg Vg. pose proof (near_abs _ _ _ _ _ N) as A. destruct N as (F & B & X & P).
  pose proof (rnd_err (B2R f * t)) as E. pose proof u53_pos as U. pose proof eta_pos as Et.
  split; [exact Fg|]. split; [|split].
  - rewrite Vg, th_S. replace (rnd (B2R f * t) - x * t) with (rnd (B2R f * t) - B2R f * t + (B2R f - x) * t) by ring.
    eapply Rle_trans; [apply Rabs_triang|]. rewrite (Rabs_mult _ t), (Rabs_pos_eq t Ht).
    rewrite (Rabs_mult _ t), (Rabs_pos_eq t Ht) in E.
    assert (H1 : Rabs (B2R f - x) * t <= ((th k - 1) * M + e) * t) by (apply Rmult_le_compat_r; assumption).
    assert (H2 : u53 * (Rabs (B2R f) * t) <= u53 * ((th k * M + e) * t)).
    { apply Rmult_le_compat_l; [lra|]. apply Rmult_le_compat_r; assumption. }
    eapply Rle_trans; [apply Rplus_le_compat; [exact E|exact H1]|].
    eapply Rle_trans; [apply Rplus_le_compat_r, Rplus_le_compat_r; exact H2|]. right. ring.
  - rewrite Rabs_mult, (Rabs_pos_eq t Ht). apply Rmult_le_compat_r; assumption.
  - apply Rplus_le_le_0_compat; [|lra]. apply Rmult_le_pos; [lra|]. apply Rmult_le_pos; assumption.
Qed.
Lemma near_fits k M e f x t : near k M e f x -> (k <= 20)%nat -> 0 <= t -> M * t <= 2 ^ 900 -> e * t <= 2 ^ 900 -> Rabs (B2R f * t) <= 2 ^ 1000.
Proof.
  intros N Hk Ht H1 H2. pose proof (near_abs _ _ _ _ _ N) as A. destruct N as (_ & _ & X & P). pose proof (Rabs_pos x). pose proof (th_2 k Hk). pose proof (th_1 k).
  rewrite Rabs_mult, (Rabs_pos_eq t Ht).
  assert (Rabs (B2R f) * t <= (th k * M + e) * t) by (apply Rmult_le_compat_r; assumption).
  assert (0 <= M * t) by (apply Rmult_le_pos; lra).
  assert (3 * 2 ^ 900 <= 2 ^ 1000).
  { rewrite !pow_IZR2, <- mult_IZR. apply IZR_le. vm_compute. discriminate. }
  replace ((th k * M + e) * t) with (th k * (M * t) + e * t) in * by ring. nra.
Qed.
Lemma near_mul k M e f x (T : f64) : near k M e f x -> is_finite T = true -> 0 <= B2R T -> (k <= 20)%nat -> M * B2R T <= 2 ^ 900 -> e * B2R T <= 2 ^ 900 ->
  near (S k) (M * B2R T) ((1 + u53) * (e * B2R T) + eta) (fmul f T) (x * B2R T).
Proof.
  intros N FT HT Hk H1 H2. destruct (fmul_fin f T (proj1 N) FT) as [F V]; [apply rnd_big, (near_fits k M e f x); assumption|].
  apply near_scaled with (f := f); assumption.
Qed.
Lemma near_scal k M e f x (T : f64) : near k M e f x -> is_finite T = true -> 0 <= B2R T -> (k <= 20)%nat -> M * B2R T <= 2 ^ 900 -> e * B2R T <= 2 ^ 900 ->
  near (S k) (M * B2R T) ((1 + u53) * (e * B2R T) + eta) (fmul T f) (x * B2R T).
Proof.
  intros N FT HT Hk H1 H2. destruct (fmul_fin T f FT (proj1 N)) as [F V]; [rewrite Rmult_comm; apply rnd_big, (near_fits k M e f x); assumption|].
  rewrite Rmult_comm in V. apply near_scaled with (f := f); assumption.
Qed.
Lemma near_div k M e f x (n : f64) : near k M e f x -> 1 <= B2R n -> (k <= 20)%nat -> M <= 2 ^ 900 -> e <= 2 ^ 900 ->
  near (S k) (M / B2R n) ((1 + u53) * (e / B2R n) + eta) (fdiv f n) (x / B2R n).
Proof.
  intros N Hn Hk H1 H2. assert (I : 0 < / B2R n <= 1) by (split; [apply Rinv_0_lt_compat; lra|rewrite <- Rinv_1; apply Rinv_le_contravar; lra]).
  assert (0 <= M) by (destruct N as (_ & _ & X & _); pose proof (Rabs_pos x); lra).
  assert (0 <= e) by apply N.
  destruct (fdiv_fin f n (proj1 N)) as [F V]; [lra|apply rnd_big, (near_fits k M e f x); try assumption; try lra; nra|].
  apply near_scaled with (f := f); try assumption. lra.
Qed.
Lemma near_sum k M1 e1 M2 e2 (f1 f2 g : f64) x1 x2 : near k M1 e1 f1 x1 -> near k M2 e2 f2 x2 -> is_finite g = true -> B2R g = rnd (B2R f1 + B2R f2) ->
  near (S k) (M1 + M2) ((1 + u53) * (e1 + e2)) g (x1 + x2).
Proof.
  intros N1 N2 Fg Vg. pose proof (near_abs _ _ _ _ _ N1) as A1. pose proof (near_abs _ _ _ _ _ N2) as A2.
  destruct N1 as (F1 & B1 & X1 & P1), N2 as (F2 & B2 & X2 & P2).
  pose proof (add_err (B2R f1) (B2R f2) (fmt_B2R f1) (fmt_B2R f2)) as E. pose proof u53_pos as U.
  split; [exact Fg|]. split; [|split].
  - rewrite Vg, th_S. replace (rnd (B2R f1 + B2R f2) - (x1 + x2)) with (rnd (B2R f1 + B2R f2) - (B2R f1 + B2R f2) + ((B2R f1 - x1) + (B2R f2 - x2))) by ring.
    eapply Rle_trans; [apply Rabs_triang|]. pose proof (Rabs_triang (B2R f1 - x1) (B2R f2 - x2)). pose proof (Rabs_triang (B2R f1) (B2R f2)).
    assert (u53 * Rabs (B2R f1 + B2R f2) <= u53 * (th k * (M1 + M2) + (e1 + e2))) by (apply Rmult_le_compat_l; lra). lra.
  - pose proof (Rabs_triang x1 x2). lra.
  - apply Rmult_le_pos; lra.
Qed.
Lemma fsub_fin (x y : f64) : is_finite x = true -> is_finite y = true -> Rabs (rnd (B2R x - B2R y)) < bpow radix2 1024 ->
  is_finite (fsub x y) = true /\ B2R (fsub x y) = rnd (B2R x - B2R y).
Proof.
  intros Fx Fy L. pose proof (Bminus_correct 53 1024 prec_pos prec_emax mode_NE x y Fx Fy) as H.
  rewrite Rlt_bool_true in H by exact L. destruct H as (V & F & _). split; [exact F|exact V].
Qed.
Lemma near_add k M1 e1 M2 e2 (f1 f2 : f64) x1 x2 : near k M1 e1 f1 x1 -> near k M2 e2 f2 x2 -> (k <= 20)%nat ->
  M1 + M2 <= 2 ^ 900 -> e1 + e2 <= 2 ^ 900 -> near (S k) (M1 + M2) ((1 + u53) * (e1 + e2)) (fadd f1 f2) (x1 + x2).
Proof.
  intros N1 N2 Hk H1 H2. pose proof (near_abs _ _ _ _ _ N1) as A1. pose proof (near_abs _ _ _ _ _ N2) as A2.
  destruct (fadd_fin f1 f2 (proj1 N1) (proj1 N2)) as [F V]; [|apply near_sum with (f1 := f1) (f2 := f2); assumption].
  apply rnd_big. pose proof (Rabs_triang (B2R f1) (B2R f2)). pose proof (th_2 k Hk). pose proof (th_1 k).
  assert (0 <= M1 + M2) by (destruct N1 as (_ & _ & X1 & _), N2 as (_ & _ & X2 & _); pose proof (Rabs_pos x1); pose proof (Rabs_pos x2); lra).
  assert (3 * 2 ^ 900 <= 2 ^ 1000).
  { rewrite !pow_IZR2, <- mult_IZR. apply IZR_le. vm_compute. discriminate. }
  nra.
Qed.
Lemma near_sub k M1 e1 M2 e2 (f1 f2 : f64) x1 x2 : near k M1 e1 f1 x1 -> near k M2 e2 f2 x2 -> (k <= 20)%nat ->
  M1 + M2 <= 2 ^ 900 -> e1 + e2 <= 2 ^ 900 -> near (S k) (M1 + M2) ((1 + u53) * (e1 + e2)) (fsub f1 f2) (x1 - x2).
Proof.
  intros N1 N2 Hk H1 H2. apply near_opp in N2. pose proof (near_abs _ _ _ _ _ N1) as A1. pose proof (near_abs _ _ _ _ _ N2) as A2.
  assert (V2 : B2R (fopp f2) = - B2R f2) by (unfold fopp; apply B2R_Bopp).
  assert (Ff2 : is_finite f2 = true) by (pose proof (proj1 N2) as F2; unfold fopp in F2; rewrite is_finite_Bopp in F2; exact F2).
  destruct (fsub_fin f1 f2 (proj1 N1) Ff2) as [F V].
  - apply rnd_big. rewrite V2 in A2. pose proof (Rabs_triang (B2R f1) (- B2R f2)). pose proof (th_2 k Hk). pose proof (th_1 k).
    assert (0 <= M1 + M2) by (destruct N1 as (_ & _ & X1 & _), N2 as (_ & _ & X2 & _); pose proof (Rabs_pos x1); pose proof (Rabs_pos (- x2)); lra).
    assert (3 * 2 ^ 900 <= 2 ^ 1000).
    { rewrite !pow_IZR2, <- mult_IZR. apply IZR_le. vm_compute. discriminate. }
    unfold Rminus. nra.
  - apply near_sum with (f1 := f1) (f2 := fopp f2); try assumption. rewrite V, V2. reflexivity.
Qed.
