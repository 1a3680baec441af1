(** Rounding errors of the coordinates of the fixed control points: the six formulas. *)
From Flocq Require Import Core BinarySingleNaN.
From Coq Require Import List Lia Lra Psatz.
From Verif Require Import Vec ModelData Double ModelPtsDouble SpecDouble SpecPtsDouble ProofDouble ProofPtsDouble ProofPtsDouble2.
Import ListNotations.
Open Scope R_scope.

Lemma th_7 k : (k <= 7)%nat -> th k - 1 <= 8 * u53.
Proof.
  intros H. eapply Rle_trans; [apply Rplus_le_compat_r, (th_mono k 7 H)|]. pose proof u53_pos as U. pose proof u53_small as S. unfold th.
  assert (H2 : (1 + u53) ^ 2 <= 1 + (2 + / 10000) * u53) by (cbn; nra).
  assert (H4 : (1 + u53) ^ 4 <= 1 + (4 + / 1000) * u53).
  { change 4%nat with (2 + 2)%nat. rewrite pow_add. assert (0 <= (1 + u53) ^ 2) by (apply pow_le; lra). nra. }
  assert (H6 : (1 + u53) ^ 6 <= 1 + (6 + / 100) * u53).
  { change 6%nat with (4 + 2)%nat. rewrite pow_add. assert (0 <= (1 + u53) ^ 2) by (apply pow_le; lra). assert (0 <= (1 + u53) ^ 4) by (apply pow_le; lra). nra. }
  change 7%nat with (1 + 6)%nat. rewrite pow_add. cbn [pow] in *. assert (0 <= (1 + u53) ^ 6) by (apply pow_le; lra). nra.
Qed.
Lemma reach_pos t l : 0 <= t -> 0 <= reach t l.
Proof. intros H. induction l as [|a l IH]; cbn [reach]; [lra|]. pose proof (Rabs_pos a). assert (0 <= t * reach t l) by (apply Rmult_le_pos; assumption). lra. Qed.

Section Pts.
  Variables (T n m2 m3 : f64).
  Let t := B2R T.
  Hypotheses (FT : is_finite T = true) (T0 : 0 <= t) (TB : t <= 2 ^ 200).
  Hypotheses (Hn : 3 <= B2R n) (Hm2 : 3 <= B2R m2) (Hm3 : 2 <= B2R m3).

  Lemma near_close k M e f x l : near k M e f x -> (k <= 7)%nat -> M <= reach t l -> e <= 8 * et T 2 ->
    is_finite f = true /\ Rabs (B2R f - x) <= pt_err t l.
  Proof.
    intros (F & B & X & P) Hk HM He. split; [exact F|]. eapply Rle_trans; [exact B|]. pose proof (th_7 k Hk). pose proof (th_1 k). pose proof (Rabs_pos x).
    unfold pt_err. unfold et in He. fold t in He. pose proof u53_pos.
    assert ((th k - 1) * M <= 8 * u53 * reach t l) by (apply Rmult_le_compat; lra). lra.
  Qed.

  Lemma div_le a k d : 0 <= a -> 0 < k <= d -> a * k / d <= a.
  Proof.
    intros Ha [Hk Hd]. apply (Rmult_le_reg_r d); [lra|]. unfold Rdiv. rewrite Rmult_assoc, Rinv_l, Rmult_1_r by lra. apply Rmult_le_compat_l; assumption.
  Qed.

  Variables (c d a j : f64).
  Hypotheses (Hc : mild c) (Hd : mild d) (Ha : mild a) (Hj : mild j).
  Notation C := (B2R c). Notation D := (B2R d). Notation A := (B2R a). Notation J := (B2R j).

  Lemma near_c k : near k (Rabs C) 0 c C.
  Proof. apply (near_k 0); [apply near_exact, Hc|lia]. Qed.
  Lemma et2_2 : 0 <= et T 0 <= et T 2 /\ 0 <= et T 1 <= et T 2.
  Proof. pose proof (et_pos T T0 0). pose proof (et_pos T T0 1). pose proof (et_mono T T0 0 2 ltac:(lia)). pose proof (et_mono T T0 1 2 ltac:(lia)). lra. Qed.
  Lemma M900 M : M <= 2 ^ 890 -> M + Rabs C <= 2 ^ 900.
  Proof.
    intros H. destruct Hc as [_ B]. assert (2 ^ 200 <= 2 ^ 890) by (apply Rle_pow; [lra|lia]). assert (2 * 2 ^ 890 <= 2 ^ 900) by (change (2 * 2 ^ 890) with (2 ^ 891); apply Rle_pow; [lra|lia]). lra.
  Qed.
  Lemma div_size M b nn : 0 <= M <= 2 ^ b -> 1 <= nn -> 0 <= M / nn <= 2 ^ b.
  Proof.
    intros [H0 H1] Hnn. assert (I : 0 < / nn <= 1) by (split; [apply Rinv_0_lt_compat; lra|rewrite <- Rinv_1; apply Rinv_le_contravar; lra]).
    unfold Rdiv. split; [apply Rmult_le_pos; lra|]. nra.
  Qed.
  Lemma absb x (H : mild x) : 0 <= Rabs (B2R x) <= 2 ^ 200.
  Proof. destruct H as [_ H]. split; [apply Rabs_pos|exact H]. Qed.
  Lemma small_e e : 0 <= e <= 10 * et T 2 -> e <= 2 ^ 900.
  Proof.
    intros H. pose proof (et_size T T0 TB 1 2 ltac:(lra) ltac:(lia)) as [_ E]. assert (10 * 2 ^ 410 <= 2 ^ 900).
    { apply (Rle_trans _ (2 ^ 4 * 2 ^ 410)); [apply Rmult_le_compat_r; [apply pow_le; lra|cbn; lra]|]. rewrite <- pow_add. apply Rle_pow; [lra|lia]. }
    lra.
  Qed.

  Lemma up1 X : 0 <= X -> 0 <= (1 + u53) * X <= 101 / 100 * X.
  Proof. intros H. pose proof u53_pos. pose proof u53_small. nra. Qed.
  Ltac ub := pose proof et2_2;
    repeat match goal with |- context [(1 + u53) * ?X] =>
      lazymatch X with context [u53] => fail | _ => let v := fresh "v" in let H := fresh "H" in
        assert (H := up1 X ltac:(lra)); set (v := (1 + u53) * X) in *; clearbody v end end; lra.

  (** c + T d / n *)
  Lemma p1_err : is_finite (fadd (fdiv (fmul d T) n) c) = true /\ Rabs (B2R (fadd (fdiv (fmul d T) n) c) - (D * t / B2R n + C)) <= pt_err t [C; D].
  Proof.
    apply (near_close 3 (Rabs D * t / B2R n + Rabs C) ((1 + u53) * (8 / 5 * et T 0 + 0))); try lia.
    - apply near_add; [apply (term1 T FT T0 TB d (proj1 Hd) (proj2 Hd)); lra|apply near_c|lia| |apply small_e; ub].
      apply M900. eapply Rle_trans; [apply (div_size _ 400); [apply (size_mul T T0 TB _ 200), absb, Hd|lra]|apply Rle_pow; [lra|lia]].
    - cbn [reach]. pose proof (div_le (Rabs D * t) 1 (B2R n)). assert (0 <= Rabs D * t) by (apply Rmult_le_pos; [apply Rabs_pos|exact T0]).
      rewrite Rmult_1_r in *. lra.
    - ub.
  Qed.

  Lemma bound2 M1 M2 : M1 <= 2 ^ 880 -> M2 <= 2 ^ 880 -> M1 + M2 <= 2 ^ 890.
  Proof. intros H1 H2. assert (2 * 2 ^ 880 <= 2 ^ 890) by (change (2 * 2 ^ 880) with (2 ^ 881); apply Rle_pow; [lra|lia]). lra. Qed.
  Lemma s_d k : (1 <= k <= 3)%Z -> Rabs D * IZR k * t / B2R n <= 2 ^ 870.
  Proof. intros Hk. eapply Rle_trans; [apply (div_size _ 402); [apply (size_mul T T0 TB _ 202), (mx_size d (proj2 Hd)), Hk|lra]|apply Rle_pow; [lra|lia]]. Qed.
  Lemma s_a : Rabs A * t * t / B2R m2 <= 2 ^ 870.
  Proof. eapply Rle_trans; [apply (div_size _ 600); [apply (size_mul T T0 TB _ 400), (size_mul T T0 TB _ 200), absb, Ha|lra]|apply Rle_pow; [lra|lia]]. Qed.
  Lemma s_a3 k : (1 <= k <= 3)%Z -> Rabs A * IZR k * t * t / B2R m2 <= 2 ^ 870.
  Proof. intros Hk. eapply Rle_trans; [apply (div_size _ 602); [apply (size_mul T T0 TB _ 402), (size_mul T T0 TB _ 202), (mx_size a (proj2 Ha)), Hk|lra]|apply Rle_pow; [lra|lia]]. Qed.
  Lemma s_j : Rabs J * t * t * t / B2R m3 <= 2 ^ 870.
  Proof. eapply Rle_trans; [apply (div_size _ 800); [apply (size_mul T T0 TB _ 600), (size_mul T T0 TB _ 400), (size_mul T T0 TB _ 200), absb, Hj|lra]|apply Rle_pow; [lra|lia]]. Qed.
  Lemma up87 M : M <= 2 ^ 870 -> M <= 2 ^ 880.
  Proof. intros H. eapply Rle_trans; [exact H|]. apply Rle_pow; [lra|lia]. Qed.
  Lemma bound87 M1 M2 : M1 <= 2 ^ 870 -> M2 <= 2 ^ 870 -> M1 + M2 <= 2 ^ 880.
  Proof. intros H1 H2. assert (2 * 2 ^ 870 <= 2 ^ 880) by (change (2 * 2 ^ 870) with (2 ^ 871); apply Rle_pow; [lra|lia]). lra. Qed.
  Lemma up89 M : M <= 2 ^ 890 -> M <= 2 ^ 900.
  Proof. intros H. eapply Rle_trans; [exact H|]. apply Rle_pow; [lra|lia]. Qed.

  (** bounds of the sizes *)
  Lemma r_d k : (1 <= k <= 3)%Z -> Rabs D * IZR k * t / B2R n <= t * Rabs D.
  Proof.
    intros Hk. assert (1 <= IZR k <= 3) by (split; apply IZR_le; lia). pose proof (Rabs_pos D).
    replace (Rabs D * IZR k * t / B2R n) with (t * Rabs D * IZR k / B2R n) by (unfold Rdiv; ring). apply div_le; [apply Rmult_le_pos; lra|lra].
  Qed.
  Lemma r_a : Rabs A * t * t / B2R m2 <= t * t * Rabs A.
  Proof.
    pose proof (Rabs_pos A). replace (Rabs A * t * t / B2R m2) with (t * t * Rabs A * 1 / B2R m2) by (unfold Rdiv; ring). apply div_le; [apply Rmult_le_pos; [apply Rmult_le_pos|]; lra|lra].
  Qed.
  Lemma r_a3 k : (1 <= k <= 3)%Z -> Rabs A * IZR k * t * t / B2R m2 <= t * t * Rabs A.
  Proof.
    intros Hk. assert (1 <= IZR k <= 3) by (split; apply IZR_le; lia). pose proof (Rabs_pos A).
    replace (Rabs A * IZR k * t * t / B2R m2) with (t * t * Rabs A * IZR k / B2R m2) by (unfold Rdiv; ring). apply div_le; [apply Rmult_le_pos; [apply Rmult_le_pos|]; lra|lra].
  Qed.
  Lemma r_j : Rabs J * t * t * t / B2R m3 <= t * t * t * Rabs J.
  Proof.
    pose proof (Rabs_pos J). replace (Rabs J * t * t * t / B2R m3) with (t * t * t * Rabs J * 1 / B2R m3) by (unfold Rdiv; ring).
    apply div_le; [apply Rmult_le_pos; [apply Rmult_le_pos; [apply Rmult_le_pos|]|]; lra|lra].
  Qed.

  (** c + 2 T d / n + T^2 a / m2, with the two signs *)
  Lemma p2_err : let p := fadd (fadd (fdiv (fmul (fmul a T) T) m2) (fdiv (fmul (fmul (of_Z 2) d) T) n)) c in
    is_finite p = true /\ Rabs (B2R p - (A * t * t / B2R m2 + D * 2 * t / B2R n + C)) <= pt_err t [C; D; A].
  Proof.
    cbv zeta. apply (near_close 5 (Rabs A * t * t / B2R m2 + Rabs D * 2 * t / B2R n + Rabs C) ((1 + u53) * ((1 + u53) * (8 / 5 * et T 1 + 8 / 5 * et T 1) + 0))); try lia.
    - apply near_add; [|apply near_c|lia| |apply small_e; ub].
      + apply near_add; [apply (term2 T FT T0 TB a (proj1 Ha) (proj2 Ha)); lra|apply (term1m T FT T0 TB d (proj1 Hd) (proj2 Hd) 2 n); [lia|lra]|lia| |apply small_e; ub].
        apply up89, bound2; apply up87; [apply s_a|apply (s_d 2); lia].
      + apply M900, bound2; apply up87; [apply s_a|apply (s_d 2); lia].
    - cbn [reach]. pose proof r_a. pose proof (r_d 2 ltac:(lia)). lra.
    - ub.
  Qed.
  Lemma q2_err : let p := fadd (fsub (fdiv (fmul (fmul a T) T) m2) (fdiv (fmul (fmul (of_Z 2) d) T) n)) c in
    is_finite p = true /\ Rabs (B2R p - (A * t * t / B2R m2 - D * 2 * t / B2R n + C)) <= pt_err t [C; D; A].
  Proof.
    cbv zeta. apply (near_close 5 (Rabs A * t * t / B2R m2 + Rabs D * 2 * t / B2R n + Rabs C) ((1 + u53) * ((1 + u53) * (8 / 5 * et T 1 + 8 / 5 * et T 1) + 0))); try lia.
    - apply near_add; [|apply near_c|lia| |apply small_e; ub].
      + apply near_sub; [apply (term2 T FT T0 TB a (proj1 Ha) (proj2 Ha)); lra|apply (term1m T FT T0 TB d (proj1 Hd) (proj2 Hd) 2 n); [lia|lra]|lia| |apply small_e; ub].
        apply up89, bound2; apply up87; [apply s_a|apply (s_d 2); lia].
      + apply M900, bound2; apply up87; [apply s_a|apply (s_d 2); lia].
    - cbn [reach]. pose proof r_a. pose proof (r_d 2 ltac:(lia)). lra.
    - ub.
  Qed.
  Lemma q1_err : let p := fadd (fdiv (fmul (fopp d) T) n) c in
    is_finite p = true /\ Rabs (B2R p - (- D * t / B2R n + C)) <= pt_err t [C; D].
  Proof.
    cbv zeta. assert (V : B2R (fopp d) = - D) by (unfold fopp; apply B2R_Bopp).
    apply (near_close 3 (Rabs D * t / B2R n + Rabs C) ((1 + u53) * (8 / 5 * et T 0 + 0))); try lia.
    - apply near_add; [|apply near_c|lia| |apply small_e; ub].
      + rewrite <- V. replace (Rabs D) with (Rabs (B2R (fopp d))) by (rewrite V; apply Rabs_Ropp).
        apply (term1 T FT T0 TB (fopp d)); [unfold fopp; rewrite is_finite_Bopp; apply Hd|rewrite V, Rabs_Ropp; apply Hd|lra].
      + apply M900. eapply Rle_trans; [apply (div_size _ 400); [apply (size_mul T T0 TB _ 200), absb, Hd|lra]|apply Rle_pow; [lra|lia]].
    - cbn [reach]. pose proof (div_le (Rabs D * t) 1 (B2R n)). assert (0 <= Rabs D * t) by (apply Rmult_le_pos; [apply Rabs_pos|exact T0]).
      rewrite Rmult_1_r in *. lra.
    - ub.
  Qed.
  (** c + 3 T d / n + 3 T^2 a / m2 + T^3 j / m3, with the two signs *)
  Lemma p3_err : let p := fadd (fadd (fadd (fdiv (fmul (fmul (fmul j T) T) T) m3) (fdiv (fmul (fmul (fmul (of_Z 3) a) T) T) m2)) (fdiv (fmul (fmul (of_Z 3) d) T) n)) c in
    is_finite p = true /\ Rabs (B2R p - (J * t * t * t / B2R m3 + A * 3 * t * t / B2R m2 + D * 3 * t / B2R n + C)) <= pt_err t [C; D; A; J].
  Proof.
    cbv zeta. apply (near_close 7 (Rabs J * t * t * t / B2R m3 + Rabs A * 3 * t * t / B2R m2 + Rabs D * 3 * t / B2R n + Rabs C)
      ((1 + u53) * ((1 + u53) * ((1 + u53) * (8 / 5 * et T 2 + 8 / 5 * et T 2) + 8 / 5 * et T 1) + 0))); try lia.
    - apply near_add; [|apply near_c|lia| |apply small_e; ub].
      + apply near_add; [|apply (near_k 3); [apply (term1m T FT T0 TB d (proj1 Hd) (proj2 Hd) 3 n); [lia|lra]|lia]|lia| |apply small_e; ub].
        * apply near_add; [apply (term3 T FT T0 TB j (proj1 Hj) (proj2 Hj)); lra|apply (term2m T FT T0 TB a (proj1 Ha) (proj2 Ha) 3 m2); [lia|lra]|lia| |apply small_e; ub].
          apply up89, bound2; apply up87; [apply s_j|apply (s_a3 3); lia].
        * apply up89, bound2; [apply bound87; [apply s_j|apply (s_a3 3); lia]|apply up87, (s_d 3); lia].
      + apply M900, bound2; [apply bound87; [apply s_j|apply (s_a3 3); lia]|apply up87, (s_d 3); lia].
    - cbn [reach]. pose proof r_j. pose proof (r_a3 3 ltac:(lia)). pose proof (r_d 3 ltac:(lia)). lra.
    - ub.
  Qed.
  Lemma q3_err : let p := fadd (fsub (fadd (fdiv (fmul (fmul (fmul (fopp j) T) T) T) m3) (fdiv (fmul (fmul (fmul (of_Z 3) a) T) T) m2)) (fdiv (fmul (fmul (of_Z 3) d) T) n)) c in
    is_finite p = true /\ Rabs (B2R p - (- J * t * t * t / B2R m3 + A * 3 * t * t / B2R m2 - D * 3 * t / B2R n + C)) <= pt_err t [C; D; A; J].
  Proof.
    cbv zeta. assert (V : B2R (fopp j) = - J) by (unfold fopp; apply B2R_Bopp).
    apply (near_close 7 (Rabs J * t * t * t / B2R m3 + Rabs A * 3 * t * t / B2R m2 + Rabs D * 3 * t / B2R n + Rabs C)
      ((1 + u53) * ((1 + u53) * ((1 + u53) * (8 / 5 * et T 2 + 8 / 5 * et T 2) + 8 / 5 * et T 1) + 0))); try lia.
    - apply near_add; [|apply near_c|lia| |apply small_e; ub].
      + apply near_sub; [|apply (near_k 3); [apply (term1m T FT T0 TB d (proj1 Hd) (proj2 Hd) 3 n); [lia|lra]|lia]|lia| |apply small_e; ub].
        * apply near_add; [|apply (term2m T FT T0 TB a (proj1 Ha) (proj2 Ha) 3 m2); [lia|lra]|lia| |apply small_e; ub].
          { rewrite <- V. replace (Rabs J) with (Rabs (B2R (fopp j))) by (rewrite V; apply Rabs_Ropp).
            apply (term3 T FT T0 TB (fopp j)); [unfold fopp; rewrite is_finite_Bopp; apply Hj|rewrite V, Rabs_Ropp; apply Hj|lra]. }
          apply up89, bound2; apply up87; [apply s_j|apply (s_a3 3); lia].
        * apply up89, bound2; [apply bound87; [apply s_j|apply (s_a3 3); lia]|apply up87, (s_d 3); lia].
      + apply M900, bound2; [apply bound87; [apply s_j|apply (s_a3 3); lia]|apply up87, (s_d 3); lia].
    - cbn [reach]. pose proof r_j. pose proof (r_a3 3 ltac:(lia)). pose proof (r_d 3 ltac:(lia)). lra.
    - ub.
  Qed.
End Pts.
