(** Rounding errors of the coordinates of the fixed control points. *)
From Flocq Require Import Core BinarySingleNaN.
From Coq Require Import List Lia Lra Psatz.
From Verif Require Import Vec ModelData Double ModelPtsDouble SpecDouble SpecPtsDouble ProofDouble ProofPtsDouble.
Import ListNotations.
Open Scope R_scope.

Lemma near_e k M e e' f x : near k M e f x -> e <= e' -> near k M e' f x.
Proof. intros N H. apply (near_weaken k k M M e e'); [lia|right; reflexivity|exact H|exact N]. Qed.
Lemma near_k k k' M e f x : near k M e f x -> (k <= k')%nat -> near k' M e f x.
Proof. intros N H. apply (near_weaken k k' M M e e); [exact H|right; reflexivity|right; reflexivity|exact N]. Qed.
Lemma eta_1 : eta <= 1.
Proof. unfold eta. apply (Rle_trans _ (/ 1)); [|right; apply Rinv_1]. apply Rinv_le_contravar; [lra|]. apply pow_R1_Rle. lra. Qed.

Section Terms.
  Variables (T : f64).
  Let t := B2R T.
  Hypotheses (FT : is_finite T = true) (T0 : 0 <= t) (TB : t <= 2 ^ 200).

  (** products of sizes *)
  Lemma pow_add2 a b c : (a + b = c)%nat -> 2 ^ a * 2 ^ b = 2 ^ c.
  Proof. intros <-. symmetry. apply pow_add. Qed.
  Lemma size_mul m (a : nat) : 0 <= m <= 2 ^ a -> 0 <= m * t <= 2 ^ (a + 200).
  Proof.
    intros [H0 H1]. split; [apply Rmult_le_pos; assumption|]. rewrite pow_add. apply Rmult_le_compat; assumption.
  Qed.
  Lemma size_up m a b : 0 <= m <= 2 ^ a -> (a <= b)%nat -> m <= 2 ^ b.
  Proof. intros [_ H] L. eapply Rle_trans; [exact H|]. apply Rle_pow; [lra|exact L]. Qed.
  Lemma size_nn m a : 0 <= m <= 2 ^ a -> forall b, (a <= b)%nat -> 0 <= m <= 2 ^ b.
  Proof. intros H b L. split; [apply H|eapply size_up; eassumption]. Qed.

  (** errors: [eta (1 + t)^j] times a constant at most 2 *)
  Definition et (j : nat) : R := eta * (1 + t) ^ j.
  Lemma et_pos j : 0 < et j.
  Proof. apply Rmult_lt_0_compat; [apply eta_pos|apply pow_lt; lra]. Qed.
  Lemma et_S j : et (S j) = et j + et j * t.
  Proof. unfold et. cbn [pow]. ring. Qed.
  Lemma et_eta j : eta <= et j.
  Proof. unfold et. pose proof eta_pos. assert (1 <= (1 + t) ^ j) by (apply pow_R1_Rle; lra). nra. Qed.
  Lemma et_mono i j : (i <= j)%nat -> et i <= et j.
  Proof. intros H. unfold et. apply Rmult_le_compat_l; [apply Rlt_le, eta_pos|]. apply Rle_pow; [lra|exact H]. Qed.
  Lemma et_size c j : 0 <= c <= 2 -> (j <= 2)%nat -> 0 <= c * et j <= 2 ^ 410.
  Proof.
    intros Hc Hj. pose proof (et_pos j). split; [nra|].
    assert (et j <= (2 ^ 201) ^ 2).
    { unfold et. pose proof eta_1. pose proof eta_pos. apply (Rle_trans _ (1 * (1 + t) ^ j)); [apply Rmult_le_compat_r; [apply pow_le; lra|assumption]|]. rewrite Rmult_1_l.
      apply (Rle_trans _ ((1 + t) ^ 2)); [apply Rle_pow; [lra|exact Hj]|]. apply pow_incr. split; [lra|].
      assert (1 <= 2 ^ 200) by (apply pow_R1_Rle; lra). change (2 ^ 201) with (2 * 2 ^ 200). lra. }
    rewrite <- pow_mult in H0. change (201 * 2)%nat with 402%nat in H0.
    assert (2 * 2 ^ 402 <= 2 ^ 410) by (change (2 * 2 ^ 402) with (2 ^ 403); apply Rle_pow; [lra|lia]). nra.
  Qed.

  Lemma step_mul k M c j a f x : near k M (c * et j) f x -> (k <= 10)%nat -> 0 <= M <= 2 ^ a -> (a <= 650)%nat -> 1 <= c <= 3 / 2 -> (j <= 1)%nat ->
    near (S k) (M * t) ((c + / 100) * et (S j)) (fmul f T) (x * t).
  Proof.
    intros N Hk HM Ha Hc Hj. eapply near_e.
    - apply near_mul; try eassumption; [lia| |].
      + eapply size_up; [apply size_mul, HM|lia].
      + eapply size_up; [apply (size_mul _ 410), et_size; [lra|lia]|lia].
    - fold t. pose proof (et_pos j). pose proof (et_eta j). pose proof u53_small. pose proof u53_pos.
      rewrite et_S. assert (0 <= et j * t) by (apply Rmult_le_pos; lra).
      assert (0 <= c * (et j * t)) by (apply Rmult_le_pos; lra).
      assert (u53 * (c * (et j * t)) <= / 1000000 * (3 / 2 * (et j * t))) by (apply Rmult_le_compat; try lra; nra).
      nra.
  Qed.
  (** the first product *)
  Lemma step_mul0 a f : is_finite f = true -> 0 <= Rabs (B2R f) <= 2 ^ a -> (a <= 600)%nat ->
    near 1 (Rabs (B2R f) * t) (1 * et 0) (fmul f T) (B2R f * t).
  Proof.
    intros F HM Ha. eapply near_e.
    - apply near_mul; try eassumption; [apply near_exact, F|lia| |].
      + eapply size_up; [apply size_mul, HM|lia].
      + rewrite Rmult_0_l. apply pow_le. lra.
    - rewrite Rmult_0_l, Rmult_0_r. unfold et. cbn. pose proof eta_pos. lra.
  Qed.
  Lemma step_scal f (m : Z) : is_finite f = true -> 0 <= Rabs (B2R f) <= 2 ^ 200 -> (1 <= m <= 3)%Z ->
    near 1 (Rabs (B2R f) * IZR m) (1 * et 0) (fmul (of_Z m) f) (B2R f * IZR m).
  Proof.
    intros F HM Hm. destruct (of_Z_val m) as [Fm Vm]; [lia|].
    assert (1 <= IZR m <= 3) by (split; apply IZR_le; lia).
    rewrite <- Vm in *. eapply near_e.
    - apply near_scal; [apply near_exact, F|exact Fm|lra|lia| |].
      + apply (Rle_trans _ (2 ^ 200 * 2 ^ 2)); [apply Rmult_le_compat; try lra; cbn; lra|]. rewrite <- pow_add. apply Rle_pow; [lra|lia].
      + rewrite Rmult_0_l. apply pow_le. lra.
    - rewrite Rmult_0_l, Rmult_0_r. unfold et. cbn. pose proof eta_pos. lra.
  Qed.
  Lemma step_div k M c j f x (n : f64) : near k M (c * et j) f x -> (k <= 10)%nat -> 0 <= M <= 2 ^ 850 -> 0 <= c <= 11 / 10 -> (j <= 2)%nat -> 2 <= B2R n ->
    near (S k) (M / B2R n) (8 / 5 * et j) (fdiv f n) (x / B2R n).
  Proof.
    intros N Hk HM Hc Hj Hn. eapply near_e.
    - apply near_div; try eassumption; [lra|lia| |].
      + eapply size_up; [exact HM|lia].
      + eapply size_up; [apply et_size; [lra|lia]|lia].
    - pose proof (et_pos j). pose proof (et_eta j). pose proof u53_small. pose proof u53_pos.
      assert (I : 0 < / B2R n <= / 2) by (split; [apply Rinv_0_lt_compat; lra|apply Rinv_le_contravar; lra]).
      assert (c * et j / B2R n <= 11 / 10 * et j * / 2).
      { unfold Rdiv. apply Rmult_le_compat; try lra; [nra|]. apply Rmult_le_compat_r; lra. }
      assert (0 <= c * et j / B2R n) by (unfold Rdiv; apply Rmult_le_pos; [nra|lra]).
      nra.
  Qed.

  Section Of.
    Variable f : f64.
    Hypotheses (F : is_finite f = true) (B : Rabs (B2R f) <= 2 ^ 200).
    Let x := B2R f.
    Lemma x_size : 0 <= Rabs x <= 2 ^ 200.
    Proof. split; [apply Rabs_pos|exact B]. Qed.
    (** f * T / n *)
    Lemma term1 (n : f64) : 2 <= B2R n -> near 2 (Rabs x * t / B2R n) (8 / 5 * et 0) (fdiv (fmul f T) n) (x * t / B2R n).
    Proof.
      intros Hn. apply (step_div 1 _ 1 0); try lia; try lra.
      - apply (step_mul0 200); [exact F|exact x_size|lia].
      - eapply size_nn; [apply size_mul, x_size|lia].
    Qed.
    (** f * T * T / n *)
    Lemma term2 (n : f64) : 2 <= B2R n -> near 3 (Rabs x * t * t / B2R n) (8 / 5 * et 1) (fdiv (fmul (fmul f T) T) n) (x * t * t / B2R n).
    Proof.
      intros Hn. apply (step_div 2 _ (1 + / 100) 1); try lia; try lra.
      - apply (step_mul 1 _ 1 0 400); try lia; try lra; [apply (step_mul0 200); [exact F|exact x_size|lia]|apply (size_mul _ 200), x_size].
      - eapply size_nn; [apply size_mul, size_mul, x_size|lia].
    Qed.
    (** f * T * T * T / n *)
    Lemma term3 (n : f64) : 2 <= B2R n -> near 4 (Rabs x * t * t * t / B2R n) (8 / 5 * et 2) (fdiv (fmul (fmul (fmul f T) T) T) n) (x * t * t * t / B2R n).
    Proof.
      intros Hn. apply (step_div 3 _ (1 + / 100 + / 100) 2); try lia; try lra.
      - apply (step_mul 2 _ (1 + / 100) 1 600); try lia; try lra; [|apply (size_mul _ 400), (size_mul _ 200), x_size].
        apply (step_mul 1 _ 1 0 400); try lia; try lra; [apply (step_mul0 200); [exact F|exact x_size|lia]|apply (size_mul _ 200), x_size].
      - eapply size_nn; [apply size_mul, size_mul, size_mul, x_size|lia].
    Qed.
    Lemma mx_size (m : Z) : (1 <= m <= 3)%Z -> 0 <= Rabs x * IZR m <= 2 ^ 202.
    Proof.
      intros Hm. assert (1 <= IZR m <= 3) by (split; apply IZR_le; lia). pose proof x_size as [H0 H1]. split; [apply Rmult_le_pos; lra|].
      change (2 ^ 202) with (2 * (2 * 2 ^ 200)). nra.
    Qed.
    (** m * f * T / n *)
    Lemma term1m (m : Z) (n : f64) : (1 <= m <= 3)%Z -> 2 <= B2R n ->
      near 3 (Rabs x * IZR m * t / B2R n) (8 / 5 * et 1) (fdiv (fmul (fmul (of_Z m) f) T) n) (x * IZR m * t / B2R n).
    Proof.
      intros Hm Hn. apply (step_div 2 _ (1 + / 100) 1); try lia; try lra.
      - apply (step_mul 1 _ 1 0 202); try lia; try lra; [apply step_scal; [exact F|exact x_size|exact Hm]|apply mx_size, Hm].
      - eapply size_nn; [apply size_mul, mx_size, Hm|lia].
    Qed.
    (** m * f * T * T / n *)
    Lemma term2m (m : Z) (n : f64) : (1 <= m <= 3)%Z -> 2 <= B2R n ->
      near 4 (Rabs x * IZR m * t * t / B2R n) (8 / 5 * et 2) (fdiv (fmul (fmul (fmul (of_Z m) f) T) T) n) (x * IZR m * t * t / B2R n).
    Proof.
      intros Hm Hn. apply (step_div 3 _ (1 + / 100 + / 100) 2); try lia; try lra.
      - apply (step_mul 2 _ (1 + / 100) 1 402); try lia; try lra; [|apply (size_mul _ 202), mx_size, Hm].
        apply (step_mul 1 _ 1 0 202); try lia; try lra; [apply step_scal; [exact F|exact x_size|exact Hm]|apply mx_size, Hm].
      - eapply size_nn; [apply size_mul, size_mul, mx_size, Hm|lia].
    Qed.
  End Of.
End Terms.
