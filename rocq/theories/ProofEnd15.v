(** Continuous plans: a rate of the control points of the wrench for the two flags whose
    formulas use decimals (C62 decimal). *)
From Verif Require Import Vec SpecBezier SpecTime ModelData ModelWaypoints ModelDispatch ModelUtils ModelRows ModelCom ModelNd ModelCont ModelSolver ModelTraj ModelQp
  SpecCom SpecWp SpecCtr SpecCont SpecSolver SpecTraj SpecEnd SpecEnd2 SpecDec SpecDec2 ProofBezier ProofCurve ProofWaypoints ProofWaypoints2 ProofWaypointsDec ProofWaypointsErr ProofTime ProofTime2
  ProofRows ProofEmit ProofCom ProofCom2 ProofCom3 ProofNd ProofCont ProofCont2 ProofCont3 ProofCont4 ProofCont5 ProofCont6 ProofCont7 ProofCont8 ProofCont10
  ProofSolver ProofTraj ProofTraj2 ProofEnd ProofEnd2 ProofEnd3 ProofEnd5 ProofEnd6 ProofEnd8 ProofEnd14.
Open Scope R_scope.

Lemma vb_lin k v b M : Rabs k <= b -> vnorm v <= M -> vnorm (vscal k v) <= b * M.
Proof. intros Hk Hv. rewrite vnorm_scal. apply Rmult_le_compat; [apply Rabs_pos|apply vnorm_ge|exact Hk|exact Hv]. Qed.
Lemma cross_rate al c q d a b : 0 <= al -> Rabs c <= a -> vnorm q <= b -> norm6 (vscal (al * c) d, vcross q d) <= (al * a + b) * vnorm d.
Proof.
  intros Ha Hc Hq. eapply Rle_trans; [apply norm6_split|]. rewrite Rmult_plus_distr_r. pose proof (vnorm_ge d). apply Rplus_le_compat.
  - rewrite vnorm_scal. apply Rmult_le_compat_r; [assumption|]. rewrite Rabs_mult, (Rabs_right al) by lra. apply Rmult_le_compat_l; assumption.
  - eapply Rle_trans; [apply vnorm_cross|]. apply Rmult_le_compat_r; assumption.
Qed.

Section D5.
  Variables (T G M : R) (g p0 p1 p2 p4 p5 x y : vec3).
  Hypothesis HT : 0 < T.
  Hypothesis HG : vnorm g <= G.
  Hypothesis H0 : vnorm p0 <= M.
  Hypothesis H1 : vnorm p1 <= M.
  Hypothesis H2 : vnorm p2 <= M.
  Hypothesis H4 : vnorm p4 <= M.
  Hypothesis H5 : vnorm p5 <= M.
  Lemma d5_row_rate c0 c1 c2 c3 c4 c5 d0 d1 d2 d3 d4 d5 d6 d7 d8 d9 da db dc dd de e0 e1 e2 e3 e4 e5 :
    Rabs c3 <= 60 -> Rabs d2 + Rabs d6 + Rabs d9 + Rabs dc + Rabs dd <= 60 -> Rabs e3 <= 1 ->
    let r := ([c0; c1; c2; c3; c4; c5], [d0; d1; d2; d3; d4; d5; d6; d7; d8; d9; da; db; dc; dd; de], [e0; e1; e2; e3; e4; e5]) in
    norm6 (v6sub (row_val T g [p0; p1; p2; x; p4; p5] r) (row_val T g [p0; p1; p2; y; p4; p5] r)) <= (60 * (1 + M) / (T * T) + G) * vnorm (vsub x y).
  Proof.
    intros Hc Hd He r. set (al := 1 / (T * T)). assert (AP : 0 < al) by (apply Rdiv_lt_0_compat; [lra|nra]).
    set (q := vadd (vscal al (vadd (vscal d2 p0) (vadd (vscal d6 p1) (vadd (vscal d9 p2) (vadd (vscal (- dc) p4) (vscal (- dd) p5)))))) (vscal e3 g)).
    assert (E : v6sub (row_val T g [p0; p1; p2; x; p4; p5] r) (row_val T g [p0; p1; p2; y; p4; p5] r) = (vscal (al * c3) (vsub x y), vcross q (vsub x y))).
    { unfold r, row_val, v6sub; cbn [map crosses app lc fst snd]. fold al. clearbody al. f_equal; apply v3_eq; unfold q; cbn; ring. }
    rewrite E. pose proof (vnorm_ge p0). assert (M0 : 0 <= M) by lra.
    assert (Nq : vnorm q <= al * (60 * M) + 1 * G).
    { unfold q. eapply Rle_trans; [apply vnorm_triang|]. apply Rplus_le_compat; [|apply vb_lin; assumption].
      rewrite vnorm_scal, Rabs_right by lra. apply Rmult_le_compat_l; [lra|].
      apply Rle_trans with ((Rabs d2 + Rabs d6 + Rabs d9 + Rabs dc + Rabs dd) * M); [|apply Rmult_le_compat_r; assumption].
      rewrite !Rmult_plus_distr_r.
      eapply Rle_trans; [apply vnorm_triang|]. rewrite !Rplus_assoc. apply Rplus_le_compat; [apply vb_lin; [lra|assumption]|].
      eapply Rle_trans; [apply vnorm_triang|]. apply Rplus_le_compat; [apply vb_lin; [lra|assumption]|].
      eapply Rle_trans; [apply vnorm_triang|]. apply Rplus_le_compat; [apply vb_lin; [lra|assumption]|].
      eapply Rle_trans; [apply vnorm_triang|]. apply Rplus_le_compat; apply vb_lin; rewrite ?Rabs_Ropp; try assumption; lra. }
    eapply Rle_trans; [apply (cross_rate al c3 q (vsub x y) 60 _ ltac:(lra) Hc Nq)|]. apply Rmult_le_compat_r; [apply vnorm_ge|].
    right. unfold al. field. lra.
  Qed.
End D5.

Section D6.
  Variables (T G M : R) (g p0 p1 p2 p4 p5 p6 x y : vec3).
  Hypothesis HT : 0 < T.
  Hypothesis HG : vnorm g <= G.
  Hypothesis H0 : vnorm p0 <= M.
  Hypothesis H1 : vnorm p1 <= M.
  Hypothesis H2 : vnorm p2 <= M.
  Hypothesis H4 : vnorm p4 <= M.
  Hypothesis H5 : vnorm p5 <= M.
  Hypothesis H6 : vnorm p6 <= M.
  Lemma d6_row_rate c0 c1 c2 c3 c4 c5 c6 d01 d02 d03 d04 d05 d06 d12 d13 d14 d15 d16 d23 d24 d25 d26 d34 d35 d36 d45 d46 d56 e0 e1 e2 e3 e4 e5 e6 :
    Rabs c3 <= 60 -> Rabs d03 + Rabs d13 + Rabs d23 + Rabs d34 + Rabs d35 + Rabs d36 <= 60 -> Rabs e3 <= 1 ->
    let r := ([c0; c1; c2; c3; c4; c5; c6], [d01; d02; d03; d04; d05; d06; d12; d13; d14; d15; d16; d23; d24; d25; d26; d34; d35; d36; d45; d46; d56],
              [e0; e1; e2; e3; e4; e5; e6]) in
    norm6 (v6sub (row_val T g [p0; p1; p2; x; p4; p5; p6] r) (row_val T g [p0; p1; p2; y; p4; p5; p6] r)) <= (60 * (1 + M) / (T * T) + G) * vnorm (vsub x y).
  Proof.
    intros Hc Hd He r. set (al := 1 / (T * T)). assert (AP : 0 < al) by (apply Rdiv_lt_0_compat; [lra|nra]).
    set (q := vadd (vscal al (vadd (vscal d03 p0) (vadd (vscal d13 p1) (vadd (vscal d23 p2) (vadd (vscal (- d34) p4) (vadd (vscal (- d35) p5) (vscal (- d36) p6))))))) (vscal e3 g)).
    assert (E : v6sub (row_val T g [p0; p1; p2; x; p4; p5; p6] r) (row_val T g [p0; p1; p2; y; p4; p5; p6] r) = (vscal (al * c3) (vsub x y), vcross q (vsub x y))).
    { unfold r, row_val, v6sub; cbn [map crosses app lc fst snd]. fold al. clearbody al. f_equal; apply v3_eq; unfold q; cbn; ring. }
    rewrite E. pose proof (vnorm_ge p0). assert (M0 : 0 <= M) by lra.
    assert (Nq : vnorm q <= al * (60 * M) + 1 * G).
    { unfold q. eapply Rle_trans; [apply vnorm_triang|]. apply Rplus_le_compat; [|apply vb_lin; assumption].
      rewrite vnorm_scal, Rabs_right by lra. apply Rmult_le_compat_l; [lra|].
      apply Rle_trans with ((Rabs d03 + Rabs d13 + Rabs d23 + Rabs d34 + Rabs d35 + Rabs d36) * M); [|apply Rmult_le_compat_r; assumption].
      rewrite !Rmult_plus_distr_r.
      eapply Rle_trans; [apply vnorm_triang|]. rewrite !Rplus_assoc. apply Rplus_le_compat; [apply vb_lin; [lra|assumption]|].
      eapply Rle_trans; [apply vnorm_triang|]. apply Rplus_le_compat; [apply vb_lin; [lra|assumption]|].
      eapply Rle_trans; [apply vnorm_triang|]. apply Rplus_le_compat; [apply vb_lin; [lra|assumption]|].
      eapply Rle_trans; [apply vnorm_triang|]. apply Rplus_le_compat; [apply vb_lin; rewrite ?Rabs_Ropp; [lra|assumption]|].
      eapply Rle_trans; [apply vnorm_triang|]. apply Rplus_le_compat; apply vb_lin; rewrite ?Rabs_Ropp; try assumption; lra. }
    eapply Rle_trans; [apply (cross_rate al c3 q (vsub x y) 60 _ ltac:(lra) Hc Nq)|]. apply Rmult_le_compat_r; [apply vnorm_ge|].
    right. unfold al. field. lra.
  Qed.
End D6.

Ltac rabs0 := repeat match goal with |- context [Rabs ?a] => first [rewrite (Rabs_right a) by (clear; lra)|rewrite (Rabs_left1 a) by (clear; lra)] end; clear; lra.
Ltac rows_rate L := repeat (apply Forall2_cons; [apply L; first [assumption|rabs0]|]); apply Forall2_nil.

Lemma c62_rate_dec pData T g G M cv0 ws B : In (flag_of pData) dec_w_flags -> front_gravity pData = Ok g -> com_curve pData T vzero = Ok cv0 ->
  Forall (fun p => vnorm p <= M) (bc_pts cv0) -> vnorm g <= G -> computeWwaypoints pData T = Ok ws ->
  60 * (1 + M) / (T * T) + G <= B -> wrench_ctrl_rate pData T g (length ws) B.
Proof.
  intros Hf Eg H0 HM HG Ews HB x y cvx cvy P Q Hx Hy LP LQ CP CQ.
  pose proof (dec_in_com _ Hf) as Hc.
  destruct (com_curve_inv _ _ _ _ Hc H0) as (pi & pts0 & S0 & E0 & HT & -> & _).
  destruct (com_curve_inv _ _ _ _ Hc Hx) as (pi1 & ptsx & S1 & E1 & _ & -> & _). rewrite E0 in E1. injection E1 as <-.
  destruct (com_curve_inv _ _ _ _ Hc Hy) as (pi2 & ptsy & S2 & E2 & _ & -> & _). rewrite E0 in E2. injection E2 as <-. cbn [bc_pts] in HM.
  assert (HT0 : T <> 0) by lra.
  assert (K : exists tab, length tab = length ws /\ tab <> [] /\
    (forall t, curve6 (map (row_val T g ptsx) tab) T t = wrench g (curve ptsx T t) (curve (hodo_n 2 T ptsx) T t)) /\
    (forall t, curve6 (map (row_val T g ptsy) tab) T t = wrench g (curve ptsy T t) (curve (hodo_n 2 T ptsy) T t)) /\
    Forall2 (fun p q => norm6 (v6sub p q) <= (60 * (1 + M) / (T * T) + G) * vnorm (vsub x y)) (map (row_val T g ptsx) tab) (map (row_val T g ptsy) tab)).
  { assert (N : forall z, flag_of pData = z -> In z dec_w_flags) by (intros; subst; assumption).
    destruct S0 as [pi E Hp a b c e Ep|pi E Hp a b c e Ep|pi E Hp a b c e f Ep|pi E Hp a b c e Ep|pi E Hp a b c e f Ep|pi E Hp a b c e f h Ep|pi E Hp a b c e f h k Ep];
      try (exfalso; apply N in E; vm_compute in E; intuition discriminate);
    (destruct S1 as [pi E' _ a' b' c' e' Ep'|pi E' _ a' b' c' e' Ep'|pi E' _ a' b' c' e' f' Ep'|pi E' _ a' b' c' e' Ep'|pi E' _ a' b' c' e' f' Ep'
       |pi E' _ a' b' c' e' f' h' Ep'|pi E' _ a' b' c' e' f' h' k' Ep'];
      try (exfalso; rewrite E in E'; vm_compute in E'; discriminate));
    (destruct S2 as [pi E2' _ a2 b2 c2 e2 Ep2|pi E2' _ a2 b2 c2 e2 Ep2|pi E2' _ a2 b2 c2 e2 f2 Ep2|pi E2' _ a2 b2 c2 e2 Ep2|pi E2' _ a2 b2 c2 e2 f2 Ep2
       |pi E2' _ a2 b2 c2 e2 f2 h2 Ep2|pi E2' _ a2 b2 c2 e2 f2 h2 k2 Ep2];
      try (exfalso; rewrite E in E2'; vm_compute in E2'; discriminate));
    rewrite Ep in Ep', Ep2; injection Ep'; injection Ep2; intros; subst;
    repeat match goal with H : Forall _ (_ :: _) |- _ => inversion H; clear H; subst end.
    - destruct (d5_rows _ _ x _ _ _ _ _ _ _ g HT0 E Hp eq_refl Eg) as (ws0 & W1 & W2). rewrite Ews in W1. injection W1 as <-.
      exists tab_d5_ex. split; [|split; [discriminate|split; [intros t; apply d5_exact; assumption|split; [intros t; apply d5_exact; assumption|]]]].
      + apply (f_equal (@length v6)) in W2. rewrite !map_length in W2. rewrite W2. reflexivity.
      + unfold tab_d5_ex. cbn [map]. rows_rate d5_row_rate.
    - destruct (d6_rows _ _ x _ _ _ _ _ _ _ _ g HT0 E Hp eq_refl Eg) as (ws0 & W1 & W2). rewrite Ews in W1. injection W1 as <-.
      exists tab_d6_ex. split; [|split; [discriminate|split; [intros t; apply d6_exact; assumption|split; [intros t; apply d6_exact; assumption|]]]].
      + apply (f_equal (@length v6)) in W2. rewrite !map_length in W2. rewrite W2. reflexivity.
      + unfold tab_d6_ex. cbn [map]. rows_rate d6_row_rate. }
  destruct K as (tab & Lt & Nt & Kx & Ky & F). set (up := CPhase [] 1 g []) in *.
  assert (Nm : forall pts, map (row_val T g pts) tab <> []) by (intros pts Z; apply map_eq_nil in Z; contradiction).
  assert (EP : P = map (it6 up) (map (row_val T g ptsx) tab)).
  { apply (ctrl_giw_uniq P _ 0 T up (BCurve ptsx T) HT); [rewrite !map_length; congruence|exact CP|].
    apply ctrl_it6; [apply Nm|]. intros t acc Ha. unfold cv_fun in *. cbn [bc_pts bc_T] in *. rewrite (curve_deriv_n_eq _ _ _ _ _ Ha). apply Kx. }
  assert (EQ : Q = map (it6 up) (map (row_val T g ptsy) tab)).
  { apply (ctrl_giw_uniq Q _ 0 T up (BCurve ptsy T) HT); [rewrite !map_length; congruence|exact CQ|].
    apply ctrl_it6; [apply Nm|]. intros t acc Ha. unfold cv_fun in *. cbn [bc_pts bc_T] in *. rewrite (curve_deriv_n_eq _ _ _ _ _ Ha). apply Ky. }
  subst P Q. clear - F HB. induction F as [|p q lp lq Hpq F IH]; cbn [map]; constructor; [|exact IH].
  replace (norm6 (v6sub (it6 up p) (it6 up q))) with (norm6 (v6sub p q)).
  - eapply Rle_trans; [exact Hpq|]. apply Rmult_le_compat_r; [apply vnorm_ge|exact HB].
  - clear. unfold it6, up; cbn [cp_mass cp_gravity]. destruct p as [[? ? ?] [? ? ?]], q as [[? ? ?] [? ? ?]], g as [? ? ?].
    unfold norm6, dot6, v6_scal, v6sub, vsub, vscal, vdot, vzero; cbn. f_equal. ring.
Qed.
