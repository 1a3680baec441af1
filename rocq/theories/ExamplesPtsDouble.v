(** Concrete inputs for the theorems of PropertiesPtsDouble.v. *)
From Flocq Require Import Core BinarySingleNaN.
From Coq Require Import List Lia Lra.
From Verif Require Import Vec SpecBezier ModelData ModelWaypoints ModelWaypointsJerk ModelDispatch ModelEff SpecCom SpecEff Double ModelPtsDouble SpecDouble SpecPtsDouble
  ProofDouble ProofPtsDouble6 ProofPtsDouble9 PropertiesPtsDouble.
Import ListNotations.
Open Scope R_scope.

(** one tenth, as a double *)
Definition dtenth : f64 := fdiv (of_Z 1) (of_Z 10).
(** a step of one metre with a moving start, whose velocity is not a sum of few powers of two *)
Definition stride (flag : Z) : fdata := FD flag (FV (of_Z 1) f0 (of_Z 1)) (FV dtenth f0 dtenth) (FV f0 dtenth f0) fv_zero (FV (of_Z 2) f0 f0) fv_zero fv_zero fv_zero.
Lemma stride_mild f : mild_data (stride f).
Proof. repeat apply conj; apply mild3_le; vm_compute; reflexivity. Qed.

Lemma small_err l B : reach 1 l <= B -> B <= 4 -> pt_err 1 l <= / 2 ^ 47.
Proof.
  intros H HB. unfold pt_err, u53, eta. assert (E : (2 ^ 53)%Z = (64 * 2 ^ 47)%Z) by reflexivity. rewrite E, mult_IZR.
  change (IZR (2 ^ 47)) with (IZR 140737488355328). assert (P47 : 2 ^ 47 = 140737488355328) by (cbn [pow]; lra). rewrite P47.
  assert (HE : / 2 ^ 1075 <= / 2 ^ 60) by (apply Rinv_le_contravar; [apply pow_lt; lra|apply Rle_pow; [lra|lia]]).
  assert (P60 : 2 ^ 60 = 1152921504606846976) by (cbn [pow]; lra). rewrite P60 in HE.
  generalize dependent (/ 2 ^ 1075). intros. cbn [pow].
  apply Rle_trans with (8 * / (64 * 140737488355328) * 4 + 8 * / 1152921504606846976 * 4); [|lra].
  apply Rplus_le_compat; [apply Rmult_le_compat_l; lra|lra].
Qed.
Lemma tenth_abs : Rabs (B2R dtenth) <= 1.
Proof.
  assert (L : Bleb f0 dtenth = true) by (vm_compute; reflexivity). assert (U : Bleb dtenth (of_Z 1) = true) by (vm_compute; reflexivity).
  rewrite Bleb_correct in L, U by reflexivity. rewrite one_R in U. change (B2R f0) with 0 in L.
  assert (0 <= B2R dtenth) by (destruct (Rle_bool_spec 0 (B2R dtenth)); [assumption|discriminate L]).
  assert (B2R dtenth <= 1) by (destruct (Rle_bool_spec (B2R dtenth) 1); [assumption|discriminate U]).
  rewrite Rabs_pos_eq; assumption.
Qed.

(** the curve of the stride is within 2^-47 m of the exact one *)
Example ex_C86_com : forall x, exists cf ce, com_curve_f (stride F_acc_dc1_c1) (of_Z 1) x = Ok cf /\ com_curve (pb_of (stride F_acc_dc1_c1)) 1 x = Ok ce /\
  forall u, 0 <= u <= 1 -> apart (fun _ => / 2 ^ 47) (cv_fun cf u) (cv_fun ce u).
Proof.
  intros x. destruct T1_ok as [F1 [B1 B2]].
  destruct (C86_com _ _ (of_Z 1) (pb_of_denotes (stride F_acc_dc1_c1)) (stride_mild _) F1 B1 B2 x) as (cf & ce & E1 & E2 & _ & H & _); [cbn; tauto|intros X; discriminate X|].
  rewrite one_R in E2, H. exists cf, ce. split; [exact E1|]. split; [exact E2|]. intros u Hu ax Hax. eapply Rle_trans; [apply (H u Hu ax Hax)|].
  unfold curve_err. pose proof tenth_abs as HT.
  assert (V1 : B2R (of_Z 1) = 1) by apply one_R. assert (V2 : B2R (of_Z 2) = 2) by (apply of_Z_val; lia). assert (V0 : B2R f0 = 0) by reflexivity.
  assert (A0 : Rabs 0 = 0) by apply Rabs_R0. assert (A1 : Rabs 1 = 1) by (apply Rabs_pos_eq; lra). assert (A2 : Rabs 2 = 2) by (apply Rabs_pos_eq; lra).
  apply Rmax_lub; (apply (small_err _ 4); [|lra]); unfold start_state, end_state, when; change (flag_of (pb_of (stride F_acc_dc1_c1))) with F_acc_dc1_c1;
    repeat match goal with |- context [fl_has ?a ?b] => let v := eval vm_compute in (fl_has a b) in change (fl_has a b) with v end; cbv iota; cbn [app map pb_of c0 dc0 ddc0 c1 dc1 stride fd_c0 fd_dc0 fd_ddc0 fd_c1 fd_dc1];
    destruct Hax as [->|[->| ->]]; unfold fv_R, fv_zero; cbn [vx vy vz fx fy fz reach]; rewrite ?V0, ?V1, ?V2, ?A0, ?A1, ?A2; lra.
Qed.

(** thirteen control points with five free ones; three free ones *)
Example ex_C86_points : exists pf, points_f (stride F_x5) (of_Z 1) = Ok pf /\ length pf = 13%nat /\ Forall finite3 pf.
Proof.
  destruct T1_ok as [F1 [B1 B2]].
  destruct (C86_points _ _ (of_Z 1) (pb_of_denotes (stride F_x5)) (stride_mild _) F1 B1 B2) as (pf & pi & E & E' & F & L & _); [cbn; tauto|intros X; discriminate X|].
  exists pf. split; [exact E|]. split; [|exact F]. rewrite map_length in L. rewrite L. injection E' as <-. reflexivity.
Qed.
Example ex_C86_effector : exists cf, eff_curve_f (stride F_x3) (of_Z 1) [vzero; vzero; V3 1 0 1] = Ok cf /\ cv_fun cf 0 = V3 1 0 1.
Proof.
  destruct T1_ok as [F1 [B1 B2]].
  destruct (C86_effector _ _ (of_Z 1) (pb_of_denotes (stride F_x3)) (stride_mild _) F1 B1 B2 [vzero; vzero; V3 1 0 1]) as (cf & ce & E & _ & _ & _ & H & _); [cbn; tauto|reflexivity|].
  exists cf. split; [exact E|]. rewrite H by reflexivity. unfold pb_of, fv_R. cbn [c0 stride fd_c0 fx fy fz]. rewrite one_R. reflexivity.
Qed.
(** the guard: one tenth is refused, rest is accepted *)
Example ex_C86_guard : points_f (FD F_capture fv_zero fv_zero fv_zero fv_zero fv_zero (FV dtenth f0 f0) fv_zero fv_zero) (of_Z 1) = Throw /\
  exists pf, points_f (stride F_capture) (of_Z 1) = Ok pf.
Proof.
  split.
  - change (c0_dc0_dc1_points (FD F_capture fv_zero fv_zero fv_zero fv_zero fv_zero (FV dtenth f0 f0) fv_zero fv_zero) (of_Z 1) = Throw).
    unfold c0_dc0_dc1_points. assert (G : Beqb (fv_norm (FV dtenth f0 f0)) f0 = false) by (vm_compute; reflexivity). cbn [fd_dc1]. rewrite G. reflexivity.
  - destruct (C86_guard (stride F_capture) (of_Z 1) eq_refl) as [G H]; [apply (stride_mild F_capture)|]. apply H. intros X. apply G in X.
    destruct X as (ax & [->|[->| ->]] & Y); cbn [stride fd_dc1] in Y; unfold fv_R, fv_zero in Y; cbn [fx fy fz vx vy vz] in Y; change (B2R f0) with 0 in Y; pose proof eta_pos; lra.
Qed.
