(** The rows of one sample and the constraint they stand for. *)
From Flocq Require Import Core BinarySingleNaN.
From Coq Require Import List Lia Lra.
From Verif Require Import Vec SpecBezier ModelData ModelWaypoints ModelDispatch SpecCom Double ModelPtsDouble ModelCoefDouble ModelRowsDouble SpecDouble SpecPtsDouble SpecCoefDouble SpecRowsDouble
  ProofBezier ProofCurve ProofWaypoints ProofWaypoints2 ProofDouble ProofPtsDouble ProofPtsDouble7 ProofCoefDouble ProofCoefDouble3 ProofCoefDouble4 ProofRowsDouble ProofRowsDouble2.
Import ListNotations.
Open Scope R_scope.

Section Main.
  Variables (d : fdata) (pData : problem) (T : f64).
  Hypotheses (Hd : denotes d pData) (Hm : mild_data d) (T0 : 0 < B2R T) (TB : B2R T <= 2 ^ 200).
  Hypotheses (Hf : In (flag_of pData) com_flags).
  Let t := B2R T.
  Let n := (npts (flag_of pData) - 1)%nat.
  Let S0 (ax : vec3 -> R) := extent t pData vzero ax.

  Definition pos_ok (c : f64 * fvec) (u : R) : Prop := finite_coefs c /\ forall x, exists cv, com_curve pData (B2R T) x = Ok cv /\
    apart (fun ax => pos_err (degree cv) (B2R T) (extent (B2R T) pData x ax)) (at_free c x) (cv_fun cv u).
  Definition acc_ok (c : f64 * fvec) (u : R) : Prop := finite_coefs c /\ forall x, exists cv, com_curve pData (B2R T) x = Ok cv /\ exists v, is_deriv_n 2 (cv_fun cv) u v /\
    apart (fun ax => acc_err (degree cv) (B2R T) (extent (B2R T) pData x ax)) (at_free c x) v.

  Lemma nr : (3 <= n <= 6)%nat.
  Proof. unfold n. pose proof (npts_range _ Hf). lia. Qed.
  Lemma t0' : 0 <= t. Proof. unfold t. lra. Qed.
  Lemma S0_nonneg ax : axis ax -> 0 <= S0 ax.
  Proof. intros Hax. unfold S0. eapply Rle_trans; [apply Rabs_pos|apply extent_pos, t0']. Qed.
  Lemma S0_ext x ax : axis ax -> extent t pData x ax = S0 ax + Rabs (ax x).
  Proof. intros Hax. rewrite extent_shift. fold (S0 ax). rewrite (at_zero ax Hax), Rabs_R0. ring. Qed.
  Lemma S0_602 ax : axis ax -> S0 ax <= 2 ^ 602.
  Proof.
    intros Hax. pose proof (S0_big d pData T Hd Hm T0 TB Hf ax Hax) as B. cbv beta in B. unfold S0, extent. rewrite (at_zero ax Hax), Rabs_R0, Rplus_0_r. exact B.
  Qed.
  Lemma free_ax c x ax : axis ax -> ax (at_free c x) = B2R (fst c) * ax x + ax (fv_R (snd c)).
  Proof. intros [->|[->| ->]]; unfold at_free; vsimp; reflexivity. Qed.

  Lemma b_bound c u ax : pos_ok c u -> 0 <= u <= t -> axis ax -> Rabs (ax (fv_R (snd c))) <= S0 ax + pos_err n t (S0 ax).
  Proof.
    intros [_ H] Hu Hax. destruct (H vzero) as (cv & E & A). specialize (A ax Hax). cbv beta in A. fold t in A, E. rewrite (degree_is pData t vzero cv t0' Hf E) in A. fold n (S0 ax) in A.
    pose proof (exact_pos pData t vzero cv u ax T0 Hf E Hu Hax) as B. fold (S0 ax) in B. rewrite free_ax, (at_zero ax Hax), Rmult_0_r, Rplus_0_l in A by exact Hax.
    set (b := ax (fv_R (snd c))) in *. set (w := ax (cv_fun cv u)) in *. replace b with (b - w + w) by ring. eapply Rle_trans; [apply Rabs_triang|]. lra.
  Qed.
  Lemma b_650 c u ax : pos_ok c u -> 0 <= u <= t -> axis ax -> Rabs (ax (fv_R (snd c))) <= 2 ^ 650.
  Proof.
    intros H Hu Hax. pose proof (b_bound c u ax H Hu Hax) as B. pose proof (S0_602 ax Hax). pose proof (q_big T T0 TB) as Q. fold t in Q. pose proof (S0_nonneg ax Hax).
    pose proof (pos_err_small n t (S0 ax) ltac:(pose proof nr; lia) ltac:(assumption) T0). assert (2 ^ 402 <= 2 ^ 602) by (apply Rle_pow; [lra|lia]).
    assert (2 * 2 ^ 602 <= 2 ^ 650) by (apply (Rle_pow 2 603 650); [lra|lia]). lra.
  Qed.
  Lemma a_bound c u : pos_ok c u -> 0 <= u <= t -> Rabs (B2R (fst c)) <= 4.
  Proof.
    intros H Hu. assert (Hax : axis vx) by (left; reflexivity). pose proof (b_bound c u vx H Hu Hax) as Bb. destruct H as [_ H].
    set (q := (1 + t) ^ 2) in *. assert (Q : 1 <= q) by (apply pow_R1_Rle; unfold t; lra). pose proof (S0_nonneg vx Hax) as S1. set (X := S0 vx + q). assert (X0 : 0 < X) by (unfold X; lra).
    destruct (H (V3 X 0 0)) as (cv & E & A). specialize (A vx Hax). cbv beta in A. fold t in A, E. rewrite (degree_is pData t _ cv t0' Hf E) in A. fold n in A.
    pose proof (exact_pos pData t _ cv u vx T0 Hf E Hu Hax) as B. rewrite free_ax in A by exact Hax. rewrite S0_ext in A, B by exact Hax. cbn [vx] in A, B. rewrite (Rabs_pos_eq X) in A, B by lra.
    pose proof (pos_err_small n t (S0 vx) ltac:(pose proof nr; lia) S1 T0) as P1. pose proof (pos_err_small n t (S0 vx + X) ltac:(pose proof nr; lia) ltac:(lra) T0) as P2. fold q in P1, P2.
    set (a := B2R (fst c)) in *. set (b := vx (fv_R (snd c))) in *. set (w := vx (cv_fun cv u)) in *.
    assert (Ha : Rabs (a * X) <= 4 * X).
    { replace (a * X) with ((a * X + b - w) + w - b) by ring. apply Rabs_le_inv in A, B, Bb. apply Rabs_le. unfold X in *. lra. }
    rewrite Rabs_mult, (Rabs_pos_eq X) in Ha by lra. apply Rmult_le_reg_r with X; assumption.
  Qed.

  Lemma kin_near sub c u K k : subtracts sub -> pos_ok c u -> 0 <= u <= t -> mild3 K -> mild k ->
    finite_row (kin_row_f sub c K k) /\ forall x cv, com_curve pData t x = Ok cv ->
      Rabs ((vdot (fv_R (fst (kin_row_f sub c K k))) x - B2R (snd (kin_row_f sub c K k))) - (vdot (fv_R K) (cv_fun cv u) - B2R k)) <= kin_err (degree cv) t pData x (fv_R K) (B2R k).
  Proof.
    intros Hs H Hu HK Hk. pose proof (a_bound c u H Hu) as Ba. pose proof H as Hp. destruct H as [[Fa Fb] H].
    destruct (sub_near sub k K (snd c) Hs Hk HK Fb (fun ax Hax => b_650 c u ax Hp Hu Hax)) as [Fr Er].
    destruct HK as ((F1 & M1) & (F2 & M2) & (F3 & M3)).
    assert (Pm : forall k' : f64, is_finite k' = true -> Rabs (B2R k') <= 2 ^ 200 -> is_finite (fmul k' (fst c)) = true /\ Rabs (B2R (fmul k' (fst c)) - B2R k' * B2R (fst c)) <= 4 * u53 * Rabs (B2R k') + eta).
    { intros k' F M. destruct (fmul_near k' (fst c) F Fa) as [F' E].
      - rewrite Rabs_mult. apply Rle_trans with (2 ^ 200 * 4); [apply Rmult_le_compat; try apply Rabs_pos; assumption|]. replace (2 ^ 200 * 4) with (2 ^ 202) by (change 202%nat with (200 + 2)%nat; rewrite pow_add; cbn [pow]; ring). apply Rle_pow; [lra|lia].
      - split; [exact F'|]. eapply Rle_trans; [exact E|]. rewrite Rabs_mult. pose proof u53_pos. pose proof (Rabs_pos (B2R k')).
        assert (Rabs (B2R k') * Rabs (B2R (fst c)) <= Rabs (B2R k') * 4) by (apply Rmult_le_compat_l; assumption).
        assert (u53 * (Rabs (B2R k') * Rabs (B2R (fst c))) <= u53 * (Rabs (B2R k') * 4)) by (apply Rmult_le_compat_l; lra). lra. }
    destruct (Pm _ F1 M1) as [G1 E1]. destruct (Pm _ F2 M2) as [G2 E2]. destruct (Pm _ F3 M3) as [G3 E3].
    split; [split; [repeat split; assumption|exact Fr]|].
    intros x cv E. destruct (H x) as (cv' & E' & A). fold t in E'. rewrite E in E'. injection E' as <-. fold t in A. rewrite (degree_is pData t x cv t0' Hf E) in *. fold n in A |- *.
    assert (Q : forall ax, axis ax -> 4 * u53 * Rabs (ax x) + 6 * u53 * Rabs (ax (fv_R (snd c))) <= pos_err n t (extent t pData x ax)).
    { intros ax Hax. pose proof (b_bound c u ax Hp Hu Hax) as Bb. pose proof (S0_nonneg ax Hax) as S1. pose proof (S0_ext x ax Hax) as Ex. pose proof (Rabs_pos (ax x)) as X0.
      pose proof (pos_err_mono n t (S0 ax) (extent t pData x ax) T0 ltac:(lra)) as Mo. pose proof (pos_err_big n t (extent t pData x ax) ltac:(pose proof nr; lia) ltac:(lra) T0) as Bg.
      pose proof u53_pos. pose proof u53_small. set (p := pos_err n t (extent t pData x ax)) in *. set (S := extent t pData x ax) in *.
      assert (P0 : 0 <= p) by (eapply Rle_trans; [|exact Bg]; apply Rmult_le_pos; lra).
      assert (u53 * Rabs (ax (fv_R (snd c))) <= u53 * (S + p)) by (apply Rmult_le_compat_l; lra). assert (u53 * p <= / 1000000 * p) by (apply Rmult_le_compat_r; lra).
      assert (u53 * Rabs (ax x) <= u53 * S) by (apply Rmult_le_compat_l; lra). lra. }
    pose proof (A vx (or_introl eq_refl)) as A1. pose proof (A vy (or_intror (or_introl eq_refl))) as A2. pose proof (A vz (or_intror (or_intror eq_refl))) as A3. cbv beta in A1, A2, A3.
    pose proof (Q vx (or_introl eq_refl)) as Q1. pose proof (Q vy (or_intror (or_introl eq_refl))) as Q2. pose proof (Q vz (or_intror (or_intror eq_refl))) as Q3.
    rewrite !free_ax in A1, A2, A3 by (unfold axis; auto).
    unfold kin_err, kin_row_f. cbn [fst snd]. unfold vdot in *. unfold fv_R, fv_mul in *. cbn [vx vy vz fx fy fz] in *.
    set (a := B2R (fst c)) in *. set (K1 := B2R (fx K)) in *. set (K2 := B2R (fy K)) in *. set (K3 := B2R (fz K)) in *.
    set (b1 := B2R (fx (snd c))) in *. set (b2 := B2R (fy (snd c))) in *. set (b3 := B2R (fz (snd c))) in *.
    set (c1' := vx (cv_fun cv u)) in *. set (c2' := vy (cv_fun cv u)) in *. set (c3' := vz (cv_fun cv u)) in *.
    set (p1 := pos_err n t (extent t pData x vx)) in *. set (p2 := pos_err n t (extent t pData x vy)) in *. set (p3 := pos_err n t (extent t pData x vz)) in *.
    set (r1 := B2R (fmul (fx K) (fst c))) in *. set (r2 := B2R (fmul (fy K) (fst c))) in *. set (r3 := B2R (fmul (fz K) (fst c))) in *.
    set (h := B2R (sub k K (snd c))) in *. set (k0 := B2R k) in *. set (x1 := vx x) in *. set (x2 := vy x) in *. set (x3 := vz x) in *.
    assert (Z : forall K r p xx b cc, Rabs (r - K * a) <= 4 * u53 * Rabs K + eta -> Rabs (a * xx + b - cc) <= p -> 4 * u53 * Rabs xx + 6 * u53 * Rabs b <= p ->
      Rabs ((r - K * a) * xx + K * (a * xx + b - cc)) + 6 * u53 * (Rabs K * Rabs b) <= 2 * Rabs K * p + eta * Rabs xx).
    { intros K' r p xx b cc Hr Hp' Hq. pose proof (Rabs_pos K'). eapply Rle_trans; [apply Rplus_le_compat_r, Rabs_triang|]. rewrite !Rabs_mult.
      assert (Rabs (r - K' * a) * Rabs xx <= (4 * u53 * Rabs K' + eta) * Rabs xx) by (apply Rmult_le_compat_r; [apply Rabs_pos|exact Hr]).
      assert (Rabs K' * Rabs (a * xx + b - cc) <= Rabs K' * p) by (apply Rmult_le_compat_l; assumption).
      assert (Rabs K' * (4 * u53 * Rabs xx + 6 * u53 * Rabs b) <= Rabs K' * p) by (apply Rmult_le_compat_l; assumption). lra. }
    pose proof (Z K1 r1 p1 x1 b1 c1' E1 A1 Q1) as Z1. pose proof (Z K2 r2 p2 x2 b2 c2' E2 A2 Q2) as Z2. pose proof (Z K3 r3 p3 x3 b3 c3' E3 A3 Q3) as Z3.
    set (w1 := (r1 - K1 * a) * x1 + K1 * (a * x1 + b1 - c1')) in *. set (w2 := (r2 - K2 * a) * x2 + K2 * (a * x2 + b2 - c2')) in *. set (w3 := (r3 - K3 * a) * x3 + K3 * (a * x3 + b3 - c3')) in *.
    replace (r1 * x1 + r2 * x2 + r3 * x3 - h - (K1 * c1' + K2 * c2' + K3 * c3' - k0)) with (w1 + w2 + w3 - (h - (k0 - (K1 * b1 + K2 * b2 + K3 * b3)))) by (unfold w1, w2, w3; ring).
    pose proof eta_pos. pose proof (Rabs_pos x1). pose proof (Rabs_pos x2). pose proof (Rabs_pos x3).
    assert (0 <= eta * Rabs x1) by (apply Rmult_le_pos; lra). assert (0 <= eta * Rabs x2) by (apply Rmult_le_pos; lra). assert (0 <= eta * Rabs x3) by (apply Rmult_le_pos; lra).
    assert (Tr : forall a b : R, Rabs (a - b) <= Rabs a + Rabs b) by (intros; unfold Rminus; eapply Rle_trans; [apply Rabs_triang|]; rewrite Rabs_Ropp; lra).
    eapply Rle_trans; [apply Tr|]. eapply Rle_trans; [apply Rplus_le_compat_r; eapply Rle_trans; [apply Rabs_triang|apply Rplus_le_compat_r, Rabs_triang]|]. lra.
  Qed.

  Lemma acc_err_small S : / 2 ^ 100 <= t -> 0 <= S <= 2 ^ 603 -> acc_err n t S <= 2 ^ 900 /\ 120 * (S / t ^ 2) <= 2 ^ 900.
  Proof.
    intros TL HS. pose proof (q_big T T0 TB) as Q. fold t in Q. unfold acc_err. assert (It : 0 < / t ^ 2) by (apply Rinv_0_lt_compat, pow_lt; exact T0).
    assert (Lo : / 2 ^ 200 <= t ^ 2).
    { replace (2 ^ 200) with ((2 ^ 100) ^ 2) by (rewrite <- pow_mult; reflexivity). rewrite <- pow_inv. apply pow_incr. split; [left; apply Rinv_0_lt_compat, pow_lt; lra|exact TL]. }
    assert (I2 : / t ^ 2 <= 2 ^ 200). { rewrite <- (Rinv_inv (2 ^ 200)). apply Rinv_le_contravar; [apply Rinv_0_lt_compat, pow_lt; lra|exact Lo]. }
    assert (P2 : 1 <= 2 ^ 200) by (apply pow_R1_Rle; lra). assert (P6 : 1 <= 2 ^ 603) by (apply pow_R1_Rle; lra).
    assert (Sd : 0 <= S / t ^ 2 <= 2 ^ 803).
    { split; [apply Rmult_le_pos; lra|]. change 803%nat with (603 + 200)%nat. rewrite pow_add. apply Rmult_le_compat; lra. }
    assert (Pr : 0 <= (1 + / t ^ 2) * ((1 + t) ^ 2 + S) <= 2 ^ 805).
    { assert (0 <= (1 + t) ^ 2) by (apply pow_le; unfold t; lra). split; [apply Rmult_le_pos; lra|]. change 805%nat with (201 + 604)%nat. rewrite pow_add. assert (2 ^ 402 <= 2 ^ 603) by (apply Rle_pow; [lra|lia]). apply Rmult_le_compat; lra. }
    assert (U : 2 ^ (3 * n + 1) * u53 <= 1).
    { apply Rle_trans with (2 ^ 19 * u53); [apply Rmult_le_compat_r; [left; apply u53_pos|apply Rle_pow; [lra|pose proof nr; lia]]|]. rewrite pow_IZR2. change (2 ^ Z.of_nat 19)%Z with 524288%Z. unfold u53. change (IZR (2 ^ 53)) with (IZR 9007199254740992). lra. }
    assert (E : 2 ^ 40 * eta <= 1).
    { unfold eta. apply Rle_trans with (2 ^ 40 * / 2 ^ 40); [apply Rmult_le_compat_l; [apply pow_le; lra|apply Rinv_le_contravar; [apply pow_lt; lra|apply Rle_pow; [lra|lia]]]|]. rewrite Rinv_r by (apply pow_nonzero; lra). lra. }
    assert (U0 : 0 <= 2 ^ (3 * n + 1) * u53) by (apply Rmult_le_pos; [apply pow_le; lra|left; apply u53_pos]). assert (E0 : 0 <= 2 ^ 40 * eta) by (apply Rmult_le_pos; [apply pow_le; lra|left; apply eta_pos]).
    assert (2 ^ (3 * n + 1) * u53 * (S / t ^ 2) <= 1 * 2 ^ 803) by (apply Rmult_le_compat; lra).
    assert (2 ^ 40 * eta * ((1 + / t ^ 2) * ((1 + t) ^ 2 + S)) <= 1 * 2 ^ 805) by (apply Rmult_le_compat; lra).
    assert (2 ^ 803 <= 2 ^ 805) by (apply Rle_pow; [lra|lia]). assert (512 * 2 ^ 805 <= 2 ^ 900). { replace 512 with (2 ^ 9) by (cbn [pow]; ring). rewrite <- pow_add. apply Rle_pow; [lra|lia]. }
    lra.
  Qed.
  Lemma acc_b c u ax : acc_ok c u -> 0 <= u <= t -> axis ax -> Rabs (ax (fv_R (snd c))) <= 120 * (S0 ax / t ^ 2) + acc_err n t (S0 ax).
  Proof.
    intros [_ H] Hu Hax. destruct (H vzero) as (cv & E & v & Dv & A). specialize (A ax Hax). cbv beta in A. fold t in A, E. rewrite (degree_is pData t vzero cv t0' Hf E) in A. fold n (S0 ax) in A.
    pose proof (exact_acc pData t vzero cv u ax v T0 Hf E Hu Hax Dv) as B. fold (S0 ax) in B. rewrite free_ax, (at_zero ax Hax), Rmult_0_r, Rplus_0_l in A by exact Hax.
    set (b := ax (fv_R (snd c))) in *. set (w := ax v) in *. replace b with (b - w + w) by ring. eapply Rle_trans; [apply Rabs_triang|]. lra.
  Qed.
  Lemma one_mul (a : f64) : is_finite a = true -> is_finite (fmul #1 a) = true /\ B2R (fmul #1 a) = B2R a /\ is_finite (fmul (fopp #1) a) = true /\ B2R (fmul (fopp #1) a) = - B2R a.
  Proof.
    intros F. assert (F1 : is_finite (of_Z 1) = true) by (vm_compute; reflexivity). assert (V1 : B2R (of_Z 1) = 1) by (apply of_Z_val; lia).
    assert (F1' : is_finite (fopp (of_Z 1)) = true) by (unfold fopp; rewrite is_finite_Bopp; exact F1). assert (V1' : B2R (fopp (of_Z 1)) = - 1) by (unfold fopp; rewrite B2R_Bopp, V1; reflexivity).
    assert (Ra : rnd (B2R a) = B2R a) by (apply rnd_fmt, f64_fmt). assert (Ra' : rnd (- B2R a) = - B2R a) by (apply rnd_fmt, generic_format_opp, f64_fmt).
    destruct (fmul_fin (of_Z 1) a F1 F) as [G1 W1]; [rewrite V1, Rmult_1_l, Ra; apply abs_B2R_lt_emax|].
    destruct (fmul_fin (fopp (of_Z 1)) a F1' F) as [G2 W2]; [rewrite V1'; replace (-1 * B2R a) with (- B2R a) by ring; rewrite Ra', Rabs_Ropp; apply abs_B2R_lt_emax|].
    rewrite V1, Rmult_1_l, Ra in W1. rewrite V1' in W2. replace (-1 * B2R a) with (- B2R a) in W2 by ring. rewrite Ra' in W2. auto.
  Qed.
  Lemma zero_mul (a : f64) : is_finite a = true -> is_finite (fmul f0 a) = true /\ B2R (fmul f0 a) = 0 /\ is_finite (fmul (fopp f0) a) = true /\ B2R (fmul (fopp f0) a) = 0.
  Proof. intros F. destruct a; try discriminate; repeat split; reflexivity. Qed.
  Lemma acc_rhs amax c u ax fax : / 2 ^ 100 <= t -> acc_ok c u -> 0 <= u <= t -> mild amax -> axis ax -> (forall v, ax (fv_R v) = B2R (fax v)) -> (forall v, finite3 v -> is_finite (fax v) = true) ->
    (is_finite (fsub amax (fax (snd c))) = true /\ Rabs (B2R (fsub amax (fax (snd c))) - (B2R amax - ax (fv_R (snd c)))) <= u53 * (Rabs (B2R amax) + Rabs (ax (fv_R (snd c))))) /\
    (is_finite (fadd amax (fax (snd c))) = true /\ Rabs (B2R (fadd amax (fax (snd c))) - (B2R amax + ax (fv_R (snd c)))) <= u53 * (Rabs (B2R amax) + Rabs (ax (fv_R (snd c))))).
  Proof.
    intros TL H Hu [Fm Bm] Hax Ex Fx. pose proof (acc_b c u ax H Hu Hax) as Bb. destruct H as [[_ Fb] _]. pose proof (Fx _ Fb) as F. pose proof (S0_602 ax Hax) as S6. pose proof (S0_nonneg ax Hax) as S1.
    destruct (acc_err_small (S0 ax) TL) as [A1 A2]; [split; [exact S1|]; assert (2 ^ 602 <= 2 ^ 603) by (apply Rle_pow; [lra|lia]); lra|].
    rewrite Ex in *. set (b := fax (snd c)) in *. pose proof u53_pos.
    assert (P : 2 ^ 200 + (2 ^ 900 + 2 ^ 900) <= 2 ^ 1000). { assert (2 ^ 200 <= 2 ^ 900) by (apply Rle_pow; [lra|lia]). assert (4 * 2 ^ 900 <= 2 ^ 1000). { replace 4 with (2 ^ 2) by ring. rewrite <- pow_add. apply Rle_pow; [lra|lia]. } pose proof (pow_le 2 900 ltac:(lra)). lra. }
    assert (Tm : Rabs (B2R amax - B2R b) <= Rabs (B2R amax) + Rabs (B2R b)) by (unfold Rminus; eapply Rle_trans; [apply Rabs_triang|]; rewrite Rabs_Ropp; lra).
    pose proof (Rabs_triang (B2R amax) (B2R b)) as Tp. split.
    - destruct (fsub_fin amax b Fm F) as [G W]; [apply rnd_big; lra|]. split; [exact G|]. rewrite W. unfold Rminus at 2 3. eapply Rle_trans; [apply add_err; [apply f64_fmt|apply generic_format_opp, f64_fmt]|].
      apply Rmult_le_compat_l; [lra|exact Tm].
    - destruct (fadd_sum amax b Fm F) as [G W]; [lra|]. split; [exact G|]. eapply Rle_trans; [exact W|]. apply Rmult_le_compat_l; [lra|exact Tp].
  Qed.
  Lemma acc_slack c u ax x : acc_ok c u -> 0 <= u <= t -> axis ax -> u53 * Rabs (ax (fv_R (snd c))) <= acc_err n t (extent t pData x ax) /\ 0 <= acc_err n t (extent t pData x ax).
  Proof.
    intros H Hu Hax. pose proof (acc_b c u ax H Hu Hax) as Bb. pose proof (S0_nonneg ax Hax) as S1. pose proof (S0_ext x ax Hax) as Ex. pose proof (Rabs_pos (ax x)) as X0.
    pose proof (acc_err_mono n t (S0 ax) (extent t pData x ax) T0 ltac:(lra)) as Mo. pose proof (acc_err_big n t (extent t pData x ax) ltac:(pose proof nr; lia) ltac:(lra) T0) as Bg.
    assert (It : 0 < / t ^ 2) by (apply Rinv_0_lt_compat, pow_lt; exact T0). pose proof u53_pos. pose proof u53_small. set (p := acc_err n t (extent t pData x ax)) in *. set (S := extent t pData x ax) in *.
    assert (Sd : S0 ax / t ^ 2 <= S / t ^ 2) by (apply Rmult_le_compat_r; lra). assert (S00 : 0 <= S / t ^ 2) by (apply Rmult_le_pos; lra).
    assert (P0 : 0 <= p) by (eapply Rle_trans; [|exact Bg]; apply Rmult_le_pos; lra). split; [|exact P0].
    assert (u53 * Rabs (ax (fv_R (snd c))) <= u53 * (120 * (S / t ^ 2) + p)) by (apply Rmult_le_compat_l; lra). assert (u53 * p <= / 1000000 * p) by (apply Rmult_le_compat_r; lra).
    assert (0 <= u53 * (S / t ^ 2)) by (apply Rmult_le_pos; lra). lra.
  Qed.

  (** the six rows *)
  Lemma acc_near amax c u : / 2 ^ 100 <= t -> acc_ok c u -> 0 <= u <= t -> mild amax ->
    Forall finite_row (acc_rows_f c (fmul #1 amax)) /\
    forall x cv v, com_curve pData t x = Ok cv -> is_deriv_n 2 (cv_fun cv) u v ->
      (forall r, In r (acc_rows_f c (fmul #1 amax)) -> exists ax sg, axis ax /\ (sg = 1 \/ sg = -1) /\
         Rabs ((vdot (fv_R (fst r)) x - B2R (snd r)) - (sg * ax v - B2R amax)) <= accel_err (degree cv) t pData x (B2R amax) ax) /\
      (forall ax sg, axis ax -> (sg = 1 \/ sg = -1) -> exists r, In r (acc_rows_f c (fmul #1 amax)) /\
         Rabs ((vdot (fv_R (fst r)) x - B2R (snd r)) - (sg * ax v - B2R amax)) <= accel_err (degree cv) t pData x (B2R amax) ax).
  Proof.
    intros TL H Hu Ha. destruct Ha as [Fa Ba]. destruct (one_mul amax Fa) as (Fm & Vm & _ & _). assert (Hm' : mild (fmul #1 amax)) by (split; [exact Fm|rewrite Vm; exact Ba]).
    set (am := fmul #1 amax) in *.
    destruct (acc_rhs am c u vx fx TL H Hu Hm' (or_introl eq_refl) (fun v => eq_refl) (fun v G => proj1 G)) as [[F1 E1] [F4 E4]].
    destruct (acc_rhs am c u vy fy TL H Hu Hm' (or_intror (or_introl eq_refl)) (fun v => eq_refl) (fun v G => proj1 (proj2 G))) as [[F2 E2] [F5 E5]].
    destruct (acc_rhs am c u vz fz TL H Hu Hm' (or_intror (or_intror eq_refl)) (fun v => eq_refl) (fun v G => proj2 (proj2 G))) as [[F3 E3] [F6 E6]].
    pose proof H as Hp. destruct H as [[Fc Fb] H]. destruct (one_mul (fst c) Fc) as (G1 & V1 & G1' & V1'). destruct (zero_mul (fst c) Fc) as (G0 & V0 & G0' & V0').
    unfold acc_rows_f. cbv zeta. fold am.
    split; [repeat (apply Forall_cons; [split; [repeat split; cbn [fst fx fy fz]; assumption|cbn [snd]; assumption]|]); constructor|].
    intros x cv v E Dv. destruct (H x) as (cv' & E' & v' & Dv' & A). fold t in E', A. rewrite E in E'. injection E' as <-.
    assert (Ev : v = v') by (apply (is_deriv_n_unique 2 _ _ u _ _ (fun _ => eq_refl) Dv Dv')). subst v'. rewrite (degree_is pData t x cv t0' Hf E) in *. fold n in A |- *.
    assert (Up : forall ax r h, axis ax -> vdot (fv_R r) x = B2R (fst c) * ax x -> Rabs (h - (B2R am - ax (fv_R (snd c)))) <= u53 * (Rabs (B2R am) + Rabs (ax (fv_R (snd c)))) ->
      Rabs ((vdot (fv_R r) x - h) - (1 * ax v - B2R amax)) <= accel_err n t pData x (B2R amax) ax).
    { intros ax r h Hax Er Eh. rewrite Er. rewrite Vm in Eh. specialize (A ax Hax). cbv beta in A. rewrite free_ax in A by exact Hax. destruct (acc_slack c u ax x Hp Hu Hax) as [P1 P2]. unfold accel_err.
      set (ac := acc_err n t (extent t pData x ax)) in *. set (b := ax (fv_R (snd c))) in *. set (a := B2R (fst c)) in *. set (am0 := B2R amax) in *.
      replace (a * ax x - h - (1 * ax v - am0)) with ((a * ax x + b - ax v) - (h - (am0 - b))) by ring. unfold Rminus at 1. eapply Rle_trans; [apply Rabs_triang|]. rewrite Rabs_Ropp.
      pose proof u53_pos. pose proof (Rabs_pos am0). assert (0 <= u53 * Rabs am0) by (apply Rmult_le_pos; lra). lra. }
    assert (Lo : forall ax r h, axis ax -> vdot (fv_R r) x = - (B2R (fst c) * ax x) -> Rabs (h - (B2R am + ax (fv_R (snd c)))) <= u53 * (Rabs (B2R am) + Rabs (ax (fv_R (snd c)))) ->
      Rabs ((vdot (fv_R r) x - h) - (-1 * ax v - B2R amax)) <= accel_err n t pData x (B2R amax) ax).
    { intros ax r h Hax Er Eh. rewrite Er. rewrite Vm in Eh. specialize (A ax Hax). cbv beta in A. rewrite free_ax in A by exact Hax. destruct (acc_slack c u ax x Hp Hu Hax) as [P1 P2]. unfold accel_err.
      set (ac := acc_err n t (extent t pData x ax)) in *. set (b := ax (fv_R (snd c))) in *. set (a := B2R (fst c)) in *. set (am0 := B2R amax) in *.
      replace (- (a * ax x) - h - (-1 * ax v - am0)) with (- ((a * ax x + b - ax v) + (h - (am0 + b)))) by ring. rewrite Rabs_Ropp. eapply Rle_trans; [apply Rabs_triang|].
      pose proof u53_pos. pose proof (Rabs_pos am0). assert (0 <= u53 * Rabs am0) by (apply Rmult_le_pos; lra). lra. }
    assert (D : forall p q r, vdot (fv_R (FV p q r)) x = B2R p * vx x + B2R q * vy x + B2R r * vz x) by reflexivity.
    assert (R1 := Up vx (FV (fmul #1 (fst c)) (fmul f0 (fst c)) (fmul f0 (fst c))) _ (or_introl eq_refl) ltac:(rewrite D, V1, V0; ring) E1).
    assert (R2 := Up vy (FV (fmul f0 (fst c)) (fmul #1 (fst c)) (fmul f0 (fst c))) _ (or_intror (or_introl eq_refl)) ltac:(rewrite D, V1, V0; ring) E2).
    assert (R3 := Up vz (FV (fmul f0 (fst c)) (fmul f0 (fst c)) (fmul #1 (fst c))) _ (or_intror (or_intror eq_refl)) ltac:(rewrite D, V1, V0; ring) E3).
    assert (R4 := Lo vx (FV (fmul (fopp #1) (fst c)) (fmul (fopp f0) (fst c)) (fmul (fopp f0) (fst c))) _ (or_introl eq_refl) ltac:(rewrite D, V1', V0'; ring) E4).
    assert (R5 := Lo vy (FV (fmul (fopp f0) (fst c)) (fmul (fopp #1) (fst c)) (fmul (fopp f0) (fst c))) _ (or_intror (or_introl eq_refl)) ltac:(rewrite D, V1', V0'; ring) E5).
    assert (R6 := Lo vz (FV (fmul (fopp f0) (fst c)) (fmul (fopp f0) (fst c)) (fmul (fopp #1) (fst c))) _ (or_intror (or_intror eq_refl)) ltac:(rewrite D, V1', V0'; ring) E6).
    split.
    - intros r [<-|[<-|[<-|[<-|[<-|[<-|[]]]]]]].
      + exists vx, 1. split; [unfold axis; auto|]. split; [auto|exact R1].
      + exists vy, 1. split; [unfold axis; auto|]. split; [auto|exact R2].
      + exists vz, 1. split; [unfold axis; auto|]. split; [auto|exact R3].
      + exists vx, (-1). split; [unfold axis; auto|]. split; [auto|exact R4].
      + exists vy, (-1). split; [unfold axis; auto|]. split; [auto|exact R5].
      + exists vz, (-1). split; [unfold axis; auto|]. split; [auto|exact R6].
    - intros ax sg [->|[->| ->]] [-> | ->];
        first [refine (ex_intro _ (_, _) (conj _ R1))|refine (ex_intro _ (_, _) (conj _ R2))|refine (ex_intro _ (_, _) (conj _ R3))|refine (ex_intro _ (_, _) (conj _ R4))|refine (ex_intro _ (_, _) (conj _ R5))|refine (ex_intro _ (_, _) (conj _ R6))];
        cbn [In]; auto 10.
  Qed.
End Main.
