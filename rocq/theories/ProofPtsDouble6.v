(** The lists of control points of the ten flags, and the curves made of them. *)
From Flocq Require Import Core BinarySingleNaN.
From Coq Require Import List Lia Lra Psatz.
From Verif Require Import Vec SpecBezier ModelData ModelWaypoints ModelWaypointsJerk ModelDispatch ModelEff SpecCom SpecEff Double ModelPtsDouble SpecDouble SpecPtsDouble
  ProofDouble ProofPtsDouble ProofPtsDouble2 ProofPtsDouble3 ProofPtsDouble4 ProofPtsDouble5 ProofCurve ProofWaypoints ProofEff.
Import ListNotations.
Open Scope R_scope.

Lemma reach_pos T l : 0 <= T -> 0 <= reach T l.
Proof. intros H. induction l as [|a l IH]; cbn [reach]; [lra|]. pose proof (Rabs_pos a). nra. Qed.
Lemma eta_pos : 0 < eta.
Proof. apply Rinv_0_lt_compat, pow_lt. lra. Qed.
Lemma pt_err_pos T l : 0 <= T -> 0 <= pt_err T l.
Proof.
  intros H. unfold pt_err. pose proof (reach_pos T l H). pose proof eta_pos. pose proof (pow2_ge_0 (1 + T)).
  assert (0 < u53) by (unfold u53; apply Rinv_0_lt_compat; apply IZR_lt; reflexivity).
  apply Rplus_le_le_0_compat; apply Rmult_le_pos; try apply Rmult_le_pos; lra.
Qed.
Lemma apart_refl e v : (forall ax, axis ax -> 0 <= e ax) -> apart e v v.
Proof. intros H ax Hax. rewrite Rminus_diag_eq by reflexivity. rewrite Rabs_R0. now apply H. Qed.
Lemma end_err_pos T s i ax : 0 <= T -> 0 <= end_err T s i ax.
Proof. intros H. apply pt_err_pos, H. Qed.

(** The two lists of a flag, as a relation easy to prove by cases *)
Record pair_ok (t : R) (s e : list vec3) (pf : list fvec) (pi : list vec3) : Prop := {
  po_fin : Forall finite3 pf;
  po_near : points_near t s e (map fv_R pf) pi }.

Section C.
  Variables (d : fdata) (pData : problem) (T : f64).
  Let t := B2R T.
  Hypotheses (FT : is_finite T = true) (T0 : 0 < t) (TB : t <= 2 ^ 200).
  Hypotheses (Ef : flag_of pData = fd_flag d)
    (E0 : c0 pData = fv_R (fd_c0 d)) (E1 : dc0 pData = fv_R (fd_dc0 d)) (E2 : ddc0 pData = fv_R (fd_ddc0 d)) (E3 : j0 pData = fv_R (fd_j0 d))
    (E4 : c1 pData = fv_R (fd_c1 d)) (E5 : dc1 pData = fv_R (fd_dc1 d)) (E6 : ddc1 pData = fv_R (fd_ddc1 d)) (E7 : j1 pData = fv_R (fd_j1 d)).
  Hypotheses (M0 : mild3 (fd_c0 d)) (M1 : mild3 (fd_dc0 d)) (M2 : mild3 (fd_ddc0 d)) (M3 : mild3 (fd_j0 d))
    (M4 : mild3 (fd_c1 d)) (M5 : mild3 (fd_dc1 d)) (M6 : mild3 (fd_ddc1 d)) (M7 : mild3 (fd_j1 d)).

  Let T0' : 0 <= t. Proof. lra. Qed.

  Lemma fin_c v : mild3 v -> finite3 v.
  Proof. intros (A & B & C). repeat split; [apply A|apply B|apply C]. Qed.
  Lemma fin_0 : finite3 fv_zero.
  Proof. repeat split. Qed.

  Ltac fins := repeat first [apply Forall_nil | apply Forall_cons; [first [apply fin_0 | apply fin_c; assumption | match goal with G : good _ _ _ |- _ => exact (proj1 G) end]|]].
  Ltac idx i Hi := repeat (destruct i as [|i]; [first [exfalso; cbn [length] in Hi; lia | idtac]|]); try (exfalso; cbn [length] in Hi; lia).
  Ltac pnear := unfold points_near; repeat match goal with |- _ /\ _ => split end;
    [ reflexivity | reflexivity
    | let i := fresh in let Hi := fresh in intros i Hi; do 4 (try (destruct i as [|i])); cbn [length] in Hi; try (exfalso; lia); cbn [nth map]
    | let Hne := fresh in intros Hne; try (exfalso; apply Hne; reflexivity); reflexivity
    | let i := fresh in let Hi := fresh in intros i Hi; do 4 (try (destruct i as [|i])); cbn [length] in Hi; try (exfalso; lia); cbn [nth map length Nat.sub]
    | let i := fresh in let Hi := fresh in intros i Hi; cbn [length map Nat.sub] in Hi; do 13 (try (destruct i as [|i]; [first [exfalso; lia|reflexivity]|])); exfalso; lia ];
    first [ apply apart_refl; intros; apply end_err_pos; exact T0' | match goal with G : good _ _ _ |- _ => exact (proj2 G) end ].

  Definition case_ok (flag : Z) (pf : list fvec) (pi : list vec3) : Prop :=
    points_f d T = Ok pf /\ computeConstantWaypoints pData t = Ok pi /\ Forall finite3 pf /\ points_near t (start_state pData) (end_state pData) (map fv_R pf) pi.

  Definition curve_ok (pf : list fvec) (pi : list vec3) : Prop := forall x, exists P Q,
    computeBezierCurve (flag_of pData) t (map fv_R pf) x = Ok (BCurve P t) /\ computeBezierCurve (flag_of pData) t pi x = Ok (BCurve Q t) /\ (3 < length P)%nat /\
    points_near t (start_state pData) (end_state pData) P Q.

  Ltac prep E :=
    unfold curve_ok, case_ok, points_f, computeConstantWaypoints, start_state, end_state, when; rewrite <- ?Ef, ?E;
    repeat match goal with |- context [fl_has ?a ?b] => let v := eval vm_compute in (fl_has a b) in change (fl_has a b) with v end; cbv iota; cbn [app].
  Ltac states := rewrite ?E0, ?E1, ?E2, ?E3, ?E4, ?E5, ?E6, ?E7.

  Lemma case_c1 : flag_of pData = F_c1 -> exists pf pi, case_ok F_c1 pf pi /\ curve_ok pf pi.
  Proof.
    intros E. destruct ints as (I3 & I4 & I5 & I6 & I8 & I10 & I12).
    pose proof (v1_ok T _ 3 FT T0' TB I3 ltac:(lra) _ _ M0 M1) as G1.
    prep E. eexists _, _. split.
    - split; [reflexivity|]. split; [reflexivity|]. split; [fins|]. states. pnear.
    - intros x. eexists _, _. split; [apply mk_bezier_ok; exact T0|]. split; [apply mk_bezier_ok; exact T0|]. split; [cbn [length]; lia|]. states. pnear.
  Qed.
  Ltac fin_case := eexists _, _; split;
    [ split; [reflexivity|]; split; [reflexivity|]; split; [fins|]; states; pnear
    | let x := fresh in intros x; eexists _, _; split; [apply mk_bezier_ok; exact T0|]; split; [apply mk_bezier_ok; exact T0|]; split; [cbn [length]; lia|]; states; pnear ].
  Lemma case_dc1_c1 : flag_of pData = F_dc1_c1 -> exists pf pi, case_ok F_dc1_c1 pf pi /\ curve_ok pf pi.
  Proof.
    intros E. destruct ints as (I3 & I4 & I5 & I6 & I8 & I10 & I12).
    pose proof (v1_ok T _ 4 FT T0' TB I4 ltac:(lra) _ _ M0 M1) as G1.
    pose proof (w1_ok T _ 4 FT T0' TB I4 ltac:(lra) _ _ M4 M5) as G2.
    prep E. fin_case.
  Qed.
  Lemma case_acc : flag_of pData = F_acc -> exists pf pi, case_ok F_acc pf pi /\ curve_ok pf pi.
  Proof.
    intros E. destruct ints as (I3 & I4 & I5 & I6 & I8 & I10 & I12).
    pose proof (v1_ok T _ 3 FT T0' TB I3 ltac:(lra) _ _ M0 M1) as G0.
    pose proof (v2_ok T _ _ 3 (3 * (3 - 1)) FT T0' TB I3 m2_3 ltac:(lra) ltac:(lra) _ _ _ M0 M1 M2) as G1.
    prep E. fin_case.
  Qed.
  Lemma case_acc_c1 : flag_of pData = F_acc_c1 -> exists pf pi, case_ok F_acc_c1 pf pi /\ curve_ok pf pi.
  Proof.
    intros E. destruct ints as (I3 & I4 & I5 & I6 & I8 & I10 & I12).
    pose proof (v1_ok T _ 4 FT T0' TB I4 ltac:(lra) _ _ M0 M1) as G0.
    pose proof (v2_ok T _ _ 4 (4 * (4 - 1)) FT T0' TB I4 m2_4 ltac:(lra) ltac:(lra) _ _ _ M0 M1 M2) as G1.
    prep E. fin_case.
  Qed.
  Lemma case_acc_dc1_c1 : flag_of pData = F_acc_dc1_c1 -> exists pf pi, case_ok F_acc_dc1_c1 pf pi /\ curve_ok pf pi.
  Proof.
    intros E. destruct ints as (I3 & I4 & I5 & I6 & I8 & I10 & I12).
    pose proof (v1_ok T _ 5 FT T0' TB I5 ltac:(lra) _ _ M0 M1) as G0.
    pose proof (v2_ok T _ _ 5 (5 * (5 - 1)) FT T0' TB I5 m2_5 ltac:(lra) ltac:(lra) _ _ _ M0 M1 M2) as G1.
    pose proof (w1_ok T _ 5 FT T0' TB I5 ltac:(lra) _ _ M4 M5) as G2.
    prep E. fin_case.
  Qed.
  Lemma case_acc_all : flag_of pData = F_acc_all -> exists pf pi, case_ok F_acc_all pf pi /\ curve_ok pf pi.
  Proof.
    intros E. destruct ints as (I3 & I4 & I5 & I6 & I8 & I10 & I12).
    pose proof (v1_ok T _ 6 FT T0' TB I6 ltac:(lra) _ _ M0 M1) as G0.
    pose proof (v2_ok T _ _ 6 (6 * (6 - 1)) FT T0' TB I6 m2_6 ltac:(lra) ltac:(lra) _ _ _ M0 M1 M2) as G1.
    pose proof (w1_ok T _ 6 FT T0' TB I6 ltac:(lra) _ _ M4 M5) as G2.
    pose proof (w2_ok T _ _ 6 (6 * (6 - 1)) FT T0' TB I6 m2_6 ltac:(lra) ltac:(lra) _ _ _ M4 M5 M6) as G3.
    prep E. fin_case.
  Qed.
  Lemma case_capture : flag_of pData = F_capture -> dc1 pData = vzero -> exists pf pi, case_ok F_capture pf pi /\ curve_ok pf pi.
  Proof.
    intros E Hz. destruct ints as (I3 & I4 & I5 & I6 & I8 & I10 & I12).
    pose proof (v1_ok T _ 3 FT T0' TB I3 ltac:(lra) _ _ M0 M1) as G0.
    assert (Gf : points_f d T = Ok [fd_c0 d; fv_add (fv_div (fv_mul (fd_dc0 d) T) (of_Z 3)) (fd_c0 d); fv_zero; fv_zero]).
    { unfold points_f. rewrite <- Ef, E. change (c0_dc0_dc1_points d T = Ok [fd_c0 d; fv_add (fv_div (fv_mul (fd_dc0 d) T) (of_Z 3)) (fd_c0 d); fv_zero; fv_zero]).
      unfold c0_dc0_dc1_points. rewrite (proj2 (guard_ok (fd_dc1 d) M5)); [reflexivity|].
      intros ax Hax. rewrite <- E5, Hz. pose proof eta_pos. destruct Hax as [->|[->| ->]]; cbn [vx vy vz vzero]; lra. }
    assert (Gr : computeConstantWaypoints pData t = Ok [c0 pData; vadd (vdivs (vscal t (dc0 pData)) 3) (c0 pData); vzero; vzero]).
    { rewrite (ccw_capture _ _ E). unfold c0_dc0_dc1_computeConstantWaypoints. destruct (Req_EM_T (vnorm (dc1 pData)) 0) as [H|H]; [reflexivity|].
      exfalso. apply H, vnorm_0, Hz. }
    eexists _, _. split.
    - split; [exact Gf|]. split; [exact Gr|]. clear Gf Gr. prep E. split; [fins|]. states. pnear.
    - clear Gf Gr. prep E. intros x. eexists _, _. split; [apply mk_bezier_ok; exact T0|]. split; [apply mk_bezier_ok; exact T0|]. split; [cbn [length]; lia|]. states. pnear.
  Qed.

  Definition effcurve_ok (xs : list vec3) (pf : list fvec) : Prop := exists P Q,
    (pts <- put_free (map fv_R pf) 4 xs ;; mk_bezier pts t) = Ok (BCurve P t) /\ eff_curve pData t xs = Ok (BCurve Q t) /\ (3 < length P)%nat /\
    points_near t (start_state pData) (end_state pData) P Q.
  Lemma case_jerk : flag_of pData = F_jerk -> exists pf pi, case_ok F_jerk pf pi /\ forall xs, length xs = eff_free F_jerk -> effcurve_ok xs pf.
  Proof.
    intros E. destruct ints as (I3 & I4 & I5 & I6 & I8 & I10 & I12).
    pose proof (v1_ok T _ 8 FT T0' TB I8 ltac:(lra) _ _ M0 M1) as G0.
    pose proof (v2_ok T _ _ 8 (8 * (8 - 1)) FT T0' TB I8 m2_8 ltac:(lra) ltac:(lra) _ _ _ M0 M1 M2) as G1.
    pose proof (v3_ok T _ _ _ 8 (8 * (8 - 1)) (8 * (8 - 1) * (8 - 2)) FT T0' TB I8 m2_8 m3_8 ltac:(lra) ltac:(lra) ltac:(lra) _ _ _ _ M0 M1 M2 M3) as G2.
    pose proof (w1_ok T _ 8 FT T0' TB I8 ltac:(lra) _ _ M4 M5) as G3.
    pose proof (w2_ok T _ _ 8 (8 * (8 - 1)) FT T0' TB I8 m2_8 ltac:(lra) ltac:(lra) _ _ _ M4 M5 M6) as G4.
    pose proof (w3_ok T _ _ _ 8 (8 * (8 - 1)) (8 * (8 - 1) * (8 - 2)) FT T0' TB I8 m2_8 m3_8 ltac:(lra) ltac:(lra) ltac:(lra) _ _ _ _ M4 M5 M6 M7) as G5.
    eexists _, _. split.
    - prep E. split; [reflexivity|]. split; [reflexivity|]. cbn [app repeat]. split; [fins|]. states. pnear.
    - intros xs Hl. unfold effcurve_ok.
      destruct (list1 xs Hl) as (x0 & ->).
      eexists _, _. split; [apply mk_bezier_ok; exact T0|].
      split; [unfold eff_curve, computeC_of_T, computeConstantWaypoints, dimVar; rewrite E; cbn -[mk_bezier IZR]; rewrite ?v3_eta; apply mk_bezier_ok; exact T0|]. split; [cbn [length]; lia|].
      prep E. cbn [app repeat]. states. pnear.
  Qed.
  Lemma case_x3 : flag_of pData = F_x3 -> exists pf pi, case_ok F_x3 pf pi /\ forall xs, length xs = eff_free F_x3 -> effcurve_ok xs pf.
  Proof.
    intros E. destruct ints as (I3 & I4 & I5 & I6 & I8 & I10 & I12).
    pose proof (v1_ok T _ 10 FT T0' TB I10 ltac:(lra) _ _ M0 M1) as G0.
    pose proof (v2_ok T _ _ 10 (10 * (10 - 1)) FT T0' TB I10 m2_10 ltac:(lra) ltac:(lra) _ _ _ M0 M1 M2) as G1.
    pose proof (v3_ok T _ _ _ 10 (10 * (10 - 1)) (10 * (10 - 1) * (10 - 2)) FT T0' TB I10 m2_10 m3_10 ltac:(lra) ltac:(lra) ltac:(lra) _ _ _ _ M0 M1 M2 M3) as G2.
    pose proof (w1_ok T _ 10 FT T0' TB I10 ltac:(lra) _ _ M4 M5) as G3.
    pose proof (w2_ok T _ _ 10 (10 * (10 - 1)) FT T0' TB I10 m2_10 ltac:(lra) ltac:(lra) _ _ _ M4 M5 M6) as G4.
    pose proof (w3_ok T _ _ _ 10 (10 * (10 - 1)) (10 * (10 - 1) * (10 - 2)) FT T0' TB I10 m2_10 m3_10 ltac:(lra) ltac:(lra) ltac:(lra) _ _ _ _ M4 M5 M6 M7) as G5.
    eexists _, _. split.
    - prep E. split; [reflexivity|]. split; [reflexivity|]. cbn [app repeat]. split; [fins|]. states. pnear.
    - intros xs Hl. unfold effcurve_ok.
      destruct (list3v xs Hl) as (x0 & x1 & x2 & ->).
      eexists _, _. split; [apply mk_bezier_ok; exact T0|].
      split; [unfold eff_curve, computeC_of_T, computeConstantWaypoints, dimVar; rewrite E; cbn -[mk_bezier IZR]; rewrite ?v3_eta; apply mk_bezier_ok; exact T0|]. split; [cbn [length]; lia|].
      prep E. cbn [app repeat]. states. pnear.
  Qed.
  Lemma case_x5 : flag_of pData = F_x5 -> exists pf pi, case_ok F_x5 pf pi /\ forall xs, length xs = eff_free F_x5 -> effcurve_ok xs pf.
  Proof.
    intros E. destruct ints as (I3 & I4 & I5 & I6 & I8 & I10 & I12).
    pose proof (v1_ok T _ 12 FT T0' TB I12 ltac:(lra) _ _ M0 M1) as G0.
    pose proof (v2_ok T _ _ 12 (12 * (12 - 1)) FT T0' TB I12 m2_12 ltac:(lra) ltac:(lra) _ _ _ M0 M1 M2) as G1.
    pose proof (v3_ok T _ _ _ 12 (12 * (12 - 1)) (12 * (12 - 1) * (12 - 2)) FT T0' TB I12 m2_12 m3_12 ltac:(lra) ltac:(lra) ltac:(lra) _ _ _ _ M0 M1 M2 M3) as G2.
    pose proof (w1_ok T _ 12 FT T0' TB I12 ltac:(lra) _ _ M4 M5) as G3.
    pose proof (w2_ok T _ _ 12 (12 * (12 - 1)) FT T0' TB I12 m2_12 ltac:(lra) ltac:(lra) _ _ _ M4 M5 M6) as G4.
    pose proof (w3_ok T _ _ _ 12 (12 * (12 - 1)) (12 * (12 - 1) * (12 - 2)) FT T0' TB I12 m2_12 m3_12 ltac:(lra) ltac:(lra) ltac:(lra) _ _ _ _ M4 M5 M6 M7) as G5.
    eexists _, _. split.
    - prep E. split; [reflexivity|]. split; [reflexivity|]. cbn [app repeat]. split; [fins|]. states. pnear.
    - intros xs Hl. unfold effcurve_ok.
      destruct (list5v xs Hl) as (x0 & x1 & x2 & x3 & x4 & ->).
      eexists _, _. split; [apply mk_bezier_ok; exact T0|].
      split; [unfold eff_curve, computeC_of_T, computeConstantWaypoints, dimVar; rewrite E; cbn -[mk_bezier IZR]; rewrite ?v3_eta; apply mk_bezier_ok; exact T0|]. split; [cbn [length]; lia|].
      prep E. cbn [app repeat]. states. pnear.
  Qed.
End C.
