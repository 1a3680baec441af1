(** End-effector curves: boundary conditions and waypoints of the derivatives. *)
From Verif Require Import Vec SpecBezier ModelData ModelWaypointsJerk ModelDispatch ModelCont ModelTraj ModelEff
  SpecCom SpecEff ProofBezier ProofCurve ProofWaypoints.
Open Scope R_scope.

Lemma list1 (xs : list vec3) : length xs = 1%nat -> exists a, xs = [a].
Proof. destruct xs as [|a [|b l]]; try discriminate; eauto. Qed.
Lemma list3v (xs : list vec3) : length xs = 3%nat -> exists a b c, xs = [a;b;c].
Proof. destruct xs as [|a [|b [|c [|d l]]]]; try discriminate; eauto. Qed.
Lemma list5v (xs : list vec3) : length xs = 5%nat -> exists a b c d e, xs = [a;b;c;d;e].
Proof. destruct xs as [|a [|b [|c [|d [|e [|f l]]]]]]; try discriminate; eauto 6. Qed.

Lemma v3_eta v : V3 (vx v) (vy v) (vz v) = v.
Proof. destruct v; reflexivity. Qed.

(** The control points, per flag *)
Inductive eff_shape (pData : problem) (T : R) : list vec3 -> list vec3 -> list vec3 -> Prop :=
| es_j (x0 : vec3) pi a0 a1 a2 a3 a4 a5 a6 a7 a8 : flag_of pData = F_jerk ->
    j0j1_computeConstantWaypoints pData T = Ok pi -> pi = [a0;a1;a2;a3;a4;a5;a6;a7;a8] ->
    eff_shape pData T [x0] pi [a0;a1;a2;a3;x0;a5;a6;a7;a8]
| es_x3 (x0 x1 x2 : vec3) pi a0 a1 a2 a3 a4 a5 a6 a7 a8 a9 a10 : flag_of pData = F_x3 ->
    x3_computeConstantWaypoints pData T = Ok pi -> pi = [a0;a1;a2;a3;a4;a5;a6;a7;a8;a9;a10] ->
    eff_shape pData T [x0;x1;x2] pi [a0;a1;a2;a3;x0;x1;x2;a7;a8;a9;a10]
| es_x5 (x0 x1 x2 x3 x4 : vec3) pi a0 a1 a2 a3 a9 a10 a11 a12 : flag_of pData = F_x5 ->
    x5_computeConstantWaypoints pData T = Ok pi -> pi = [a0;a1;a2;a3;vzero;vzero;vzero;vzero;vzero;a9;a10;a11;a12] ->
    eff_shape pData T [x0;x1;x2;x3;x4] pi [a0;a1;a2;a3;x0;x1;x2;x3;x4;a9;a10;a11;a12].

Lemma eff_shape_total pData T xs :
  In (flag_of pData) effector_flags -> length xs = eff_free (flag_of pData) ->
  exists pi pts, computeConstantWaypoints pData T = Ok pi /\ eff_shape pData T xs pi pts.
Proof.
  intros Hin Hl. in_cases Hin; rewrite Hin in Hl; unfold computeConstantWaypoints; rewrite Hin.
  - destruct (list1 _ Hl) as [a ->]. eexists _, _. split; [reflexivity|].
    eapply es_j; [assumption|reflexivity|reflexivity].
  - destruct (list3v _ Hl) as (a & b & c & ->). eexists _, _. split; [reflexivity|].
    eapply es_x3; [assumption|reflexivity|reflexivity].
  - destruct (list5v _ Hl) as (a & b & c & d & e & ->). eexists _, _. split; [reflexivity|].
    eapply es_x5; [assumption|reflexivity|reflexivity].
Qed.

Lemma eff_shape_ccw pData T xs pi pts :
  eff_shape pData T xs pi pts -> computeConstantWaypoints pData T = Ok pi.
Proof. intros H. destruct H as [? ? ? ? ? ? ? ? ? ? ? E Hc Hp|? ? ? ? ? ? ? ? ? ? ? ? ? ? ? E Hc Hp|? ? ? ? ? ? ? ? ? ? ? ? ? ? E Hc Hp];
  unfold computeConstantWaypoints; rewrite E; exact Hc.
Qed.

Lemma eff_shape_curve pData T xs pi pts :
  eff_shape pData T xs pi pts -> eff_curve pData T xs = mk_bezier pts T.
Proof.
  intros H. unfold eff_curve, computeC_of_T. rewrite (eff_shape_ccw _ _ _ _ _ H).
  destruct H as [? ? ? ? ? ? ? ? ? ? ? E Hc Hp|? ? ? ? ? ? ? ? ? ? ? ? ? ? ? E Hc Hp|? ? ? ? ? ? ? ? ? ? ? ? ? ? E Hc Hp];
  subst pi; unfold dimVar; rewrite E; simpl; rewrite ?v3_eta; reflexivity.
Qed.

Lemma eff_curve_ok pData T xs :
  In (flag_of pData) effector_flags -> length xs = eff_free (flag_of pData) -> 0 < T ->
  exists pi pts, computeConstantWaypoints pData T = Ok pi /\ eff_shape pData T xs pi pts /\
    eff_curve pData T xs = Ok (BCurve pts T).
Proof.
  intros Hin Hl HT. destruct (eff_shape_total pData T xs Hin Hl) as (pi & pts & Hc & Hs).
  exists pi, pts. split; [exact Hc|]. split; [exact Hs|]. rewrite (eff_shape_curve _ _ _ _ _ Hs).
  inversion Hs; subst; apply mk_bezier_ok; exact HT.
Qed.

(** * C29 *)
Lemma eff_boundary pData T xs :
  In (flag_of pData) effector_flags -> length xs = eff_free (flag_of pData) -> 0 < T ->
  exists cv, eff_curve pData T xs = Ok cv /\ bc_T cv = T /\ firstn (length xs) (skipn 4 (bc_pts cv)) = xs /\
    meets_all pData T (cv_fun cv).
Proof.
  intros Hin Hl HT. destruct (eff_curve_ok pData T xs Hin Hl HT) as (pi & pts & Hc & Hs & He).
  exists (BCurve pts T). split; [exact He|]. split; [reflexivity|].
  assert (HT0 : T <> 0) by lra.
  split; [inversion Hs; reflexivity|].
  unfold cv_fun. simpl bc_pts. simpl bc_T.
  inversion Hs as [? ? ? ? ? ? ? ? ? ? ? E Hcc Hp|? ? ? ? ? ? ? ? ? ? ? ? ? ? ? E Hcc Hp|? ? ? ? ? ? ? ? ? ? ? ? ? ? E Hcc Hp]; subst;
    injection Hcc; intros; subst; clear Hcc;
    (repeat split);
    first [ rewrite curve_at_0; reflexivity
          | rewrite curve_at_T by assumption; reflexivity
          | apply is_deriv_n_at_0; hodo_vals; vec_field
          | apply is_deriv_n_at_T; [assumption|]; hodo_vals; vec_field ].
Qed.

(** * C30, C31: waypoints of the derivatives *)
Lemma deriv_points_hodo k P T : deriv_points k (curve P T) T (hodo_n k T P).
Proof. intros t. apply curve_is_deriv_n. Qed.

Ltac eff_cases Hs :=
  inversion Hs as [? ? ? ? ? ? ? ? ? ? ? E Hcc Hp|? ? ? ? ? ? ? ? ? ? ? ? ? ? ? E Hcc Hp|? ? ? ? ? ? ? ? ? ? ? ? ? ? E Hcc Hp]; subst; clear Hs Hcc.
Ltac cons_eq := repeat (match goal with |- _ :: _ = _ :: _ => f_equal end).
Ltac vcbn := cbn [vx vy vz vadd vsub vopp vscal vdivs vzero ev_wpn ev_blocks wn_blocks wn_pt mvmul mscal mdivs mid mzero madd msub row0 row1 row2]; unfold vdot; cbn [vx vy vz vadd vsub vopp vscal vdivs vzero].
Ltac wp_field := apply v3_eq; vcbn; field; auto.

Lemma vel_points pData T xs pi pts :
  T <> 0 -> eff_shape pData T xs pi pts ->
  exists ws, computeVelocityWaypoints pData T pi = Ok ws /\ at_free xs ws = hodo_n 1 T pts.
Proof.
  intros HT Hs. eff_cases Hs; unfold computeVelocityWaypoints; rewrite E;
    (eexists; split; [reflexivity|]); hodo_vals; cbn [at_free map]; cons_eq; wp_field.
Qed.

Lemma jerk_points pData T xs pi pts :
  T <> 0 -> eff_shape pData T xs pi pts ->
  exists ws, computeJerkWaypoints pData T pi = Ok ws /\ at_free xs ws = hodo_n 3 T pts.
Proof.
  intros HT Hs. eff_cases Hs; unfold computeJerkWaypoints; rewrite E;
    (eexists; split; [reflexivity|]); hodo_vals; cbn [at_free map]; cons_eq; wp_field.
Qed.

Lemma acc_points pData T xs pi pts :
  T <> 0 -> eff_shape pData T xs pi pts ->
  exists ws, computeAccelerationWaypoints pData T pi = Ok ws /\
    at_free xs ws = acc_errs (flag_of pData) T pts (hodo_n 2 T pts).
Proof.
  intros HT Hs. eff_cases Hs; unfold computeAccelerationWaypoints, acc_errs; rewrite E;
    (eexists; split; [reflexivity|]); hodo_vals;
    cbn [at_free map Z.eqb Pos.eqb F_jerk F_x3 shift_at repeat_at firstn skipn app nth]; simpl Z.eqb; cbv iota; cons_eq; try wp_field.
Qed.

Lemma c30_points pData T xs : In (flag_of pData) effector_flags -> length xs = eff_free (flag_of pData) -> 0 < T ->
  exists pi cv wv wj, computeConstantWaypoints pData T = Ok pi /\ eff_curve pData T xs = Ok cv /\
    computeVelocityWaypoints pData T pi = Ok wv /\ computeJerkWaypoints pData T pi = Ok wj /\
    length wv = (length (bc_pts cv) - 1)%nat /\ length wj = (length (bc_pts cv) - 3)%nat /\
    deriv_points 1 (cv_fun cv) T (at_free xs wv) /\ deriv_points 3 (cv_fun cv) T (at_free xs wj).
Proof.
  intros Hin Hl HT. assert (HT0 : T <> 0) by lra.
  destruct (eff_curve_ok pData T xs Hin Hl HT) as (pi & pts & Hc & Hs & He).
  destruct (vel_points _ _ _ _ _ HT0 Hs) as (wv & Hv & Pv). destruct (jerk_points _ _ _ _ _ HT0 Hs) as (wj & Hj & Pj).
  exists pi, (BCurve pts T), wv, wj. do 4 (split; [assumption|]). cbn [bc_pts].
  assert (Lv : length wv = length (hodo_n 1 T pts)) by (rewrite <- Pv; unfold at_free; now rewrite map_length).
  assert (Lj : length wj = length (hodo_n 3 T pts)) by (rewrite <- Pj; unfold at_free; now rewrite map_length).
  split; [rewrite Lv; inversion Hs; reflexivity|]. split; [rewrite Lj; inversion Hs; reflexivity|].
  rewrite Pv, Pj. split; apply deriv_points_hodo.
Qed.
Lemma c31_points pData T xs : In (flag_of pData) effector_flags -> length xs = eff_free (flag_of pData) -> 0 < T ->
  exists pi cv wa P, computeConstantWaypoints pData T = Ok pi /\ eff_curve pData T xs = Ok cv /\
    computeAccelerationWaypoints pData T pi = Ok wa /\
    length P = (length (bc_pts cv) - 2)%nat /\ deriv_points 2 (cv_fun cv) T P /\
    at_free xs wa = acc_errs (flag_of pData) T (bc_pts cv) P.
Proof.
  intros Hin Hl HT. assert (HT0 : T <> 0) by lra.
  destruct (eff_curve_ok pData T xs Hin Hl HT) as (pi & pts & Hc & Hs & He).
  destruct (acc_points _ _ _ _ _ HT0 Hs) as (wa & Ha & Pa).
  exists pi, (BCurve pts T), wa, (hodo_n 2 T pts). do 3 (split; [assumption|]). cbn [bc_pts].
  split; [inversion Hs; reflexivity|]. split; [apply deriv_points_hodo|exact Pa].
Qed.
