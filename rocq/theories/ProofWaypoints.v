(** The seven CoM flags: boundary conditions, evaluation, wrench waypoints. *)
From Verif Require Import Vec SpecBezier ModelData ModelWaypoints ModelWaypointsJerk ModelDispatch
  SpecCom ProofBezier ProofCurve.
Open Scope R_scope.

Lemma vnorm_0 v : vnorm v = 0 <-> v = vzero.
Proof.
  unfold vnorm, vnorm2, vdot. split.
  - intros H. apply sqrt_eq_0 in H; [|nra].
    assert (vx v = 0) by nra. assert (vy v = 0) by nra. assert (vz v = 0) by nra.
    apply v3_eq; assumption.
  - intros ->. simpl. rewrite !Rmult_0_r, !Rplus_0_r. apply sqrt_0.
Qed.

Ltac in_cases H := simpl in H; repeat (destruct H as [H|H]; [symmetry in H|]); [..|contradiction H].

(** ** Control points per flag *)

Definition lin1 (n : R) (pData : problem) (T : R) : vec3 := vadd (vdivs (vscal T (dc0 pData)) n) (c0 pData).

Lemma mk_bezier_ok p l T : 0 < T -> mk_bezier (p :: l) T = Ok (BCurve (p :: l) T).
Proof. intros H. unfold mk_bezier. destruct (Rle_dec T 0); [lra|reflexivity]. Qed.

Lemma mk_bezier_inv l T cv : mk_bezier l T = Ok cv -> 0 < T /\ cv = BCurve l T.
Proof.
  unfold mk_bezier. destruct l; [discriminate|]. destruct (Rle_dec T 0); [discriminate|].
  intros H; inversion H; split; [lra|reflexivity].
Qed.

Ltac solve_ccw := intros pData T E; unfold computeConstantWaypoints; rewrite E; reflexivity.

Lemma ccw_c1 : forall pData T, flag_of pData = F_c1 ->
  computeConstantWaypoints pData T = c0_dc0_c1_computeConstantWaypoints pData T.
Proof. solve_ccw. Qed.
Lemma ccw_capture : forall pData T, flag_of pData = F_capture ->
  computeConstantWaypoints pData T = c0_dc0_dc1_computeConstantWaypoints pData T.
Proof. solve_ccw. Qed.
Lemma ccw_dc1_c1 : forall pData T, flag_of pData = F_dc1_c1 ->
  computeConstantWaypoints pData T = c0_dc0_dc1_c1_computeConstantWaypoints pData T.
Proof. solve_ccw. Qed.
Lemma ccw_acc : forall pData T, flag_of pData = F_acc ->
  computeConstantWaypoints pData T = c0_dc0_ddc0_computeConstantWaypoints pData T.
Proof. solve_ccw. Qed.
Lemma ccw_acc_c1 : forall pData T, flag_of pData = F_acc_c1 ->
  computeConstantWaypoints pData T = c0_dc0_ddc0_c1_computeConstantWaypoints pData T.
Proof. solve_ccw. Qed.
Lemma ccw_acc_dc1_c1 : forall pData T, flag_of pData = F_acc_dc1_c1 ->
  computeConstantWaypoints pData T = c0_dc0_ddc0_dc1_c1_computeConstantWaypoints pData T.
Proof. solve_ccw. Qed.
Lemma ccw_acc_all : forall pData T, flag_of pData = F_acc_all ->
  computeConstantWaypoints pData T = c0_dc0_ddc0_ddc1_dc1_c1_computeConstantWaypoints pData T.
Proof. solve_ccw. Qed.

(** The curve built for each flag, from a list of waypoints of the right length. *)
Ltac solve_bez := intros; cbn; first [apply mk_bezier_ok; assumption | reflexivity].

Lemma bez_c1 T a b c d x : 
  computeBezierCurve F_c1 T [a;b;c;d] x = mk_bezier [a;b;x;d] T.
Proof. reflexivity. Qed.
Lemma bez_capture T a b c d x :
  computeBezierCurve F_capture T [a;b;c;d] x = mk_bezier [a;b;x;x] T.
Proof. reflexivity. Qed.
Lemma bez_dc1_c1 T a b c d e x :
  computeBezierCurve F_dc1_c1 T [a;b;c;d;e] x = mk_bezier [a;b;x;d;e] T.
Proof. reflexivity. Qed.
Lemma bez_acc T a b c d x :
  computeBezierCurve F_acc T [a;b;c;d] x = mk_bezier [a;b;c;x] T.
Proof. reflexivity. Qed.
Lemma bez_acc_c1 T a b c d e x :
  computeBezierCurve F_acc_c1 T [a;b;c;d;e] x = mk_bezier [a;b;c;x;e] T.
Proof. reflexivity. Qed.
Lemma bez_acc_dc1_c1 T a b c d e f x :
  computeBezierCurve F_acc_dc1_c1 T [a;b;c;d;e;f] x = mk_bezier [a;b;c;x;e;f] T.
Proof. reflexivity. Qed.
Lemma bez_acc_all T a b c d e f h x :
  computeBezierCurve F_acc_all T [a;b;c;d;e;f;h] x = mk_bezier [a;b;c;x;e;f;h] T.
Proof. reflexivity. Qed.

(** Shape of the curve: the inputs to the arithmetic. *)
Inductive com_shape (pData : problem) (T : R) (x : vec3) : list vec3 -> list vec3 -> Prop :=
| sh_c1 pi : flag_of pData = F_c1 ->
    c0_dc0_c1_computeConstantWaypoints pData T = Ok pi ->
    forall a b c d, pi = [a;b;c;d] -> com_shape pData T x pi [a;b;x;d]
| sh_capture pi : flag_of pData = F_capture ->
    c0_dc0_dc1_computeConstantWaypoints pData T = Ok pi ->
    forall a b c d, pi = [a;b;c;d] -> com_shape pData T x pi [a;b;x;x]
| sh_dc1_c1 pi : flag_of pData = F_dc1_c1 ->
    c0_dc0_dc1_c1_computeConstantWaypoints pData T = Ok pi ->
    forall a b c d e, pi = [a;b;c;d;e] -> com_shape pData T x pi [a;b;x;d;e]
| sh_acc pi : flag_of pData = F_acc ->
    c0_dc0_ddc0_computeConstantWaypoints pData T = Ok pi ->
    forall a b c d, pi = [a;b;c;d] -> com_shape pData T x pi [a;b;c;x]
| sh_acc_c1 pi : flag_of pData = F_acc_c1 ->
    c0_dc0_ddc0_c1_computeConstantWaypoints pData T = Ok pi ->
    forall a b c d e, pi = [a;b;c;d;e] -> com_shape pData T x pi [a;b;c;x;e]
| sh_acc_dc1_c1 pi : flag_of pData = F_acc_dc1_c1 ->
    c0_dc0_ddc0_dc1_c1_computeConstantWaypoints pData T = Ok pi ->
    forall a b c d e f, pi = [a;b;c;d;e;f] -> com_shape pData T x pi [a;b;c;x;e;f]
| sh_acc_all pi : flag_of pData = F_acc_all ->
    c0_dc0_ddc0_ddc1_dc1_c1_computeConstantWaypoints pData T = Ok pi ->
    forall a b c d e f h, pi = [a;b;c;d;e;f;h] -> com_shape pData T x pi [a;b;c;x;e;f;h].

Lemma com_shape_total pData T x :
  In (flag_of pData) com_flags -> (flag_of pData = F_capture -> dc1 pData = vzero) ->
  exists pi pts, computeConstantWaypoints pData T = Ok pi /\ com_shape pData T x pi pts.
Proof.
  intros Hin Hcap. in_cases Hin.
  - rewrite (ccw_c1 _ _ Hin). eexists _, _. split; [reflexivity|].
    eapply sh_c1; [assumption|reflexivity|reflexivity].
  - rewrite (ccw_capture _ _ Hin). unfold c0_dc0_dc1_computeConstantWaypoints.
    destruct (Req_EM_T (vnorm (dc1 pData)) 0) as [H0|H0].
    2:{ exfalso. apply H0, vnorm_0, Hcap, Hin. }
    eexists _, _. split; [reflexivity|].
    eapply sh_capture; [assumption| |reflexivity].
    unfold c0_dc0_dc1_computeConstantWaypoints.
    destruct (Req_EM_T (vnorm (dc1 pData)) 0); [reflexivity|contradiction].
  - rewrite (ccw_dc1_c1 _ _ Hin). eexists _, _. split; [reflexivity|].
    eapply sh_dc1_c1; [assumption|reflexivity|reflexivity].
  - rewrite (ccw_acc _ _ Hin). eexists _, _. split; [reflexivity|].
    eapply sh_acc; [assumption|reflexivity|reflexivity].
  - rewrite (ccw_acc_c1 _ _ Hin). eexists _, _. split; [reflexivity|].
    eapply sh_acc_c1; [assumption|reflexivity|reflexivity].
  - rewrite (ccw_acc_dc1_c1 _ _ Hin). eexists _, _. split; [reflexivity|].
    eapply sh_acc_dc1_c1; [assumption|reflexivity|reflexivity].
  - rewrite (ccw_acc_all _ _ Hin). eexists _, _. split; [reflexivity|].
    eapply sh_acc_all; [assumption|reflexivity|reflexivity].
Qed.

Lemma com_shape_bez pData T x pi pts :
  com_shape pData T x pi pts -> computeBezierCurve (flag_of pData) T pi x = mk_bezier pts T.
Proof.
  intros H. destruct H as [pi E _ a b c d Ep|pi E _ a b c d Ep|pi E _ a b c d e Ep|pi E _ a b c d Ep
    |pi E _ a b c d e Ep|pi E _ a b c d e f Ep|pi E _ a b c d e f h Ep]; rewrite E, Ep; reflexivity.
Qed.

Lemma com_shape_ccw pData T x pi pts :
  com_shape pData T x pi pts -> computeConstantWaypoints pData T = Ok pi.
Proof.
  intros H. destruct H as [pi E Hc a b c d Ep|pi E Hc a b c d Ep|pi E Hc a b c d e Ep|pi E Hc a b c d Ep
    |pi E Hc a b c d e Ep|pi E Hc a b c d e f Ep|pi E Hc a b c d e f h Ep].
  - rewrite (ccw_c1 _ _ E); assumption.
  - rewrite (ccw_capture _ _ E); assumption.
  - rewrite (ccw_dc1_c1 _ _ E); assumption.
  - rewrite (ccw_acc _ _ E); assumption.
  - rewrite (ccw_acc_c1 _ _ E); assumption.
  - rewrite (ccw_acc_dc1_c1 _ _ E); assumption.
  - rewrite (ccw_acc_all _ _ E); assumption.
Qed.

(** The capture flag throws exactly for a non-zero end velocity. *)
Lemma capture_throw pData T :
  flag_of pData = F_capture -> dc1 pData <> vzero -> computeConstantWaypoints pData T = Throw.
Proof.
  intros E H. rewrite (ccw_capture _ _ E). unfold c0_dc0_dc1_computeConstantWaypoints.
  destruct (Req_EM_T (vnorm (dc1 pData)) 0) as [H0|H0]; [|reflexivity].
  exfalso. apply H, vnorm_0, H0.
Qed.

(** Inversion: a curve that exists has a shape. *)
Lemma com_curve_inv pData T x cv :
  In (flag_of pData) com_flags -> com_curve pData T x = Ok cv ->
  exists pi pts, com_shape pData T x pi pts /\ computeConstantWaypoints pData T = Ok pi /\
    0 < T /\ cv = BCurve pts T /\ (flag_of pData = F_capture -> dc1 pData = vzero).
Proof.
  intros Hin H.
  assert (Hcap : flag_of pData = F_capture -> dc1 pData = vzero).
  { intros E. destruct (Req_EM_T (vnorm (dc1 pData)) 0) as [H0|H0]; [apply vnorm_0, H0|].
    exfalso. unfold com_curve in H. rewrite capture_throw in H; [discriminate|assumption|].
    intros H1. apply H0. apply vnorm_0. exact H1. }
  destruct (com_shape_total pData T x Hin Hcap) as (pi & pts & Hc & Hs).
  unfold com_curve in H. rewrite Hc in H. cbn [bind] in H.
  rewrite (com_shape_bez _ _ _ _ _ Hs) in H. apply mk_bezier_inv in H. destruct H as [HT ->].
  exists pi, pts. auto.
Qed.

Lemma com_curve_total pData T x :
  In (flag_of pData) com_flags -> (flag_of pData = F_capture -> dc1 pData = vzero) -> 0 < T ->
  exists cv, com_curve pData T x = Ok cv.
Proof.
  intros Hin Hcap HT. destruct (com_shape_total pData T x Hin Hcap) as (pi & pts & Hc & Hs).
  unfold com_curve. rewrite Hc. cbn [bind]. rewrite (com_shape_bez _ _ _ _ _ Hs).
  assert (pts <> []) by (destruct Hs; discriminate).
  destruct pts as [|p l]; [contradiction|]. rewrite mk_bezier_ok by assumption. eauto.
Qed.

(** ** Boundary conditions *)

Ltac hodo_vals :=
  unfold hodo_n, hodo; cbn [length pred vdiffs map hd last];
  rewrite ?INR_IZR_INZ;
  repeat match goal with
  | |- context [IZR (Z.of_nat ?n)] =>
      let v := eval vm_compute in (Z.of_nat n) in change (Z.of_nat n) with v
  end.

Lemma is_deriv_n_at_0 k P T l : hd vzero (hodo_n k T P) = l -> is_deriv_n k (curve P T) 0 l.
Proof. intros <-. rewrite <- (curve_at_0 _ T). apply curve_is_deriv_n. Qed.

Lemma is_deriv_n_at_T k P T l : T <> 0 -> last (hodo_n k T P) vzero = l -> is_deriv_n k (curve P T) T l.
Proof. intros HT <-. rewrite <- (curve_at_T _ T) by assumption. apply curve_is_deriv_n. Qed.

Ltac vec_field := apply v3_eq; cbn [vx vy vz vadd vsub vopp vscal vdivs vzero]; field; auto.

Lemma boundary_ok pData T x cv :
  In (flag_of pData) com_flags -> com_curve pData T x = Ok cv ->
  bc_T cv = T /\ 0 < T /\ meets_boundary pData T (cv_fun cv).
Proof.
  intros Hin H. destruct (com_curve_inv _ _ _ _ Hin H) as (pi & pts & Hs & _ & HT & -> & Hcap).
  split; [reflexivity|]. split; [assumption|].
  assert (HT0 : T <> 0) by lra.
  unfold meets_boundary, cv_fun. cbn [bc_pts bc_T].
  destruct Hs as [pi E Hc a b c d Ep|pi E Hc a b c d Ep|pi E Hc a b c d e Ep|pi E Hc a b c d Ep
    |pi E Hc a b c d e Ep|pi E Hc a b c d e f Ep|pi E Hc a b c d e f h Ep];
  rewrite E; subst pi;
  [ unfold c0_dc0_c1_computeConstantWaypoints in Hc
  | unfold c0_dc0_dc1_computeConstantWaypoints in Hc;
    destruct (Req_EM_T (vnorm (dc1 pData)) 0); [|discriminate Hc]
  | unfold c0_dc0_dc1_c1_computeConstantWaypoints in Hc
  | unfold c0_dc0_ddc0_computeConstantWaypoints in Hc
  | unfold c0_dc0_ddc0_c1_computeConstantWaypoints in Hc
  | unfold c0_dc0_ddc0_dc1_c1_computeConstantWaypoints in Hc
  | unfold c0_dc0_ddc0_ddc1_dc1_c1_computeConstantWaypoints in Hc ];
  cbv zeta in Hc; injection Hc; intros; subst;
  repeat split; intros Hf; try (exfalso; vm_compute in Hf; discriminate Hf); clear Hf;
  first [ rewrite curve_at_0; reflexivity
        | rewrite curve_at_T by assumption; reflexivity
        | apply is_deriv_n_at_0; hodo_vals; vec_field
        | apply is_deriv_n_at_T; [assumption|]; hodo_vals; try rewrite (Hcap E); vec_field ].
Qed.
