(** Two inputs for which the rounded plan does not meet a constraint exactly. *)
From Flocq Require Import Core BinarySingleNaN.
From Coq Require Import List Lia Lra Psatz.
From Verif Require Import Vec SpecBezier ModelData ModelWaypoints ModelWaypointsJerk ModelDispatch ModelEff SpecCom SpecEff Double ModelPtsDouble SpecDouble SpecPtsDouble
  ProofDouble ProofCurve ProofWaypoints ProofPtsDouble5 ProofPtsDouble6 ProofPtsDouble8.
Import ListNotations.
Open Scope R_scope.

(** the exact problem with the data [d] *)
Definition pb_of (d : fdata) : problem :=
  Problem [] (fv_R (fd_c0 d)) (fv_R (fd_dc0 d)) (fv_R (fd_ddc0 d)) (fv_R (fd_j0 d)) (fv_R (fd_c1 d)) (fv_R (fd_dc1 d)) (fv_R (fd_ddc1 d)) (fv_R (fd_j1 d))
    vzero false (Constraints (fd_flag d) false 10 0) 1 1.
Lemma pb_of_denotes d : denotes d (pb_of d).
Proof. repeat split. Qed.

Lemma mild_le (x : f64) : is_finite x = true -> Bleb (fopp (of_Z 8)) x = true -> Bleb x (of_Z 8) = true -> mild x.
Proof.
  intros F L U. split; [exact F|]. destruct (of_Z_val 8 ltac:(lia)) as [F8 V8].
  rewrite Bleb_correct in L; [|unfold fopp; now rewrite is_finite_Bopp|exact F]. rewrite Bleb_correct in U by assumption.
  unfold fopp in L. rewrite B2R_Bopp, V8 in L. rewrite V8 in U.
  assert (L' : - (8) <= B2R x) by (destruct (Rle_bool_spec (- (8)) (B2R x)); [assumption|discriminate L]).
  assert (U' : B2R x <= 8) by (destruct (Rle_bool_spec (B2R x) 8); [assumption|discriminate U]).
  apply Rle_trans with 8; [apply Rabs_le; lra|]. replace 8 with (2 ^ 3) by (cbn [pow]; lra). apply Rle_pow; [lra|lia].
Qed.
Lemma mild3_le v : (is_finite (fx v) && Bleb (fopp (of_Z 8)) (fx v) && Bleb (fx v) (of_Z 8) &&
  (is_finite (fy v) && Bleb (fopp (of_Z 8)) (fy v) && Bleb (fy v) (of_Z 8)) && (is_finite (fz v) && Bleb (fopp (of_Z 8)) (fz v) && Bleb (fz v) (of_Z 8)))%bool = true -> mild3 v.
Proof. rewrite !Bool.andb_true_iff. intros H. repeat split; try apply mild_le; tauto. Qed.

(** 2^-60 *)
Definition p60 : f64 := @B754_finite 53 1024 false 4503599627370496 (-112) eq_refl.
Definition slow : fdata := FD F_dc1_c1 (FV (of_Z 1) f0 f0) (FV p60 f0 f0) fv_zero fv_zero (FV (of_Z 2) f0 f0) fv_zero fv_zero fv_zero.
Definition creep : fdata := FD F_capture (FV (of_Z 1) f0 f0) (FV (of_Z 1) f0 f0) fv_zero fv_zero (FV (of_Z 2) f0 f0) (FV h538 f0 f0) fv_zero fv_zero.
Lemma pos_R (x : f64) m e H : x = B754_finite false m e H -> 0 < B2R x.
Proof. intros ->. unfold B2R. apply F2R_gt_0. reflexivity. Qed.
Lemma one_R : B2R (of_Z 1) = 1.
Proof. apply of_Z_val. lia. Qed.
Lemma slow_mild : mild_data slow.
Proof. repeat apply conj; apply mild3_le; vm_compute; reflexivity. Qed.
Lemma creep_mild : mild_data creep.
Proof. repeat apply conj; apply mild3_le; vm_compute; reflexivity. Qed.
Lemma T1_ok : is_finite (of_Z 1) = true /\ 0 < B2R (of_Z 1) <= 2 ^ 200.
Proof. split; [reflexivity|]. rewrite one_R. split; [lra|apply pow_R1_Rle; lra]. Qed.

Lemma slow_p1 : fv_add (fv_div (fv_mul (fd_dc0 slow) (of_Z 1)) (of_Z 4)) (fd_c0 slow) = fd_c0 slow.
Proof. unfold fv_add, fv_div, fv_mul, slow; cbn [fx fy fz fd_dc0 fd_c0]. f_equal; apply B2SF_inj; vm_compute; reflexivity. Qed.

Lemma c86_velocity_refuted : exists d pData T, denotes d pData /\ mild_data d /\ is_finite T = true /\ 0 < B2R T <= 2 ^ 200 /\
  flag_of pData = F_dc1_c1 /\ vx (dc0 pData) > 0 /\
  forall x, exists cf, com_curve_f d T x = Ok cf /\ is_deriv_n 1 (cv_fun cf) 0 vzero.
Proof.
  exists slow, (pb_of slow), (of_Z 1). split; [apply pb_of_denotes|]. split; [apply slow_mild|]. destruct T1_ok as [F1 B1].
  split; [exact F1|]. split; [exact B1|]. split; [reflexivity|]. split; [exact (pos_R p60 _ _ _ eq_refl)|].
  intros x. eexists. split.
  - unfold com_curve_f. change (points_f slow (of_Z 1)) with (c0_dc0_dc1_c1_points slow (of_Z 1)). unfold c0_dc0_dc1_c1_points. cbv zeta. rewrite slow_p1. cbn [bind map].
    change (fd_flag slow) with F_dc1_c1. rewrite bez_dc1_c1. apply mk_bezier_ok. apply B1.
  - unfold cv_fun. cbn [bc_pts bc_T]. apply is_deriv_n_at_0. hodo_vals. apply v3_eq; cbn [vx vy vz vadd vsub vscal vzero]; ring.
Qed.

Lemma c86_guard_refuted : exists d pData T, denotes d pData /\ mild_data d /\ is_finite T = true /\ 0 < B2R T <= 2 ^ 200 /\
  flag_of pData = F_capture /\ vx (dc1 pData) > 0 /\ computeConstantWaypoints pData (B2R T) = Throw /\
  forall x, exists cf, com_curve_f d T x = Ok cf /\ is_deriv_n 1 (cv_fun cf) (B2R T) vzero.
Proof.
  exists creep, (pb_of creep), (of_Z 1). split; [apply pb_of_denotes|]. split; [apply creep_mild|]. destruct T1_ok as [F1 B1].
  split; [exact F1|]. split; [exact B1|]. split; [reflexivity|].
  assert (P : vx (dc1 (pb_of creep)) > 0) by exact (pos_R h538 _ _ _ eq_refl).
  split; [exact P|]. split; [apply capture_throw; [reflexivity|]; intros X; rewrite X in P; cbn [vx vzero] in P; lra|].
  intros x. eexists. split.
  - unfold com_curve_f. change (points_f creep (of_Z 1)) with (c0_dc0_dc1_points creep (of_Z 1)). unfold c0_dc0_dc1_points.
    assert (G : Beqb (fv_norm (fd_dc1 creep)) f0 = true) by (vm_compute; reflexivity). rewrite G. cbn [negb bind map].
    change (fd_flag creep) with F_capture. rewrite bez_capture. apply mk_bezier_ok. apply B1.
  - unfold cv_fun. cbn [bc_pts bc_T]. apply is_deriv_n_at_T; [lra|]. hodo_vals. apply v3_eq; cbn [vx vy vz vadd vsub vscal vzero]; ring.
Qed.
