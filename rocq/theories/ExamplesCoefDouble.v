(** Concrete inputs for the theorems of PropertiesCoefDouble.v. *)
From Flocq Require Import Core BinarySingleNaN.
From Coq Require Import List Lia Lra.
From Verif Require Import Vec SpecBezier ModelData ModelWaypoints ModelDispatch SpecCom Double ModelDouble ModelPtsDouble ModelCoefDouble SpecDouble SpecDouble2 SpecPtsDouble SpecCoefDouble
  ProofWaypoints ProofDouble ProofPtsDouble6 ProofPtsDouble9 ExamplesPtsDouble PropertiesCoefDouble.
Import ListNotations.
Open Scope R_scope.

(** The stride in one second: three samples, the second at one tenth of a second; free point at (1, 0, 1). *)
Definition stride_times : list (f64 * Z) := [(f0, 0%Z); (dtenth, 0%Z); (of_Z 1, 1%Z)].
Lemma stride_times_ok : times_ok stride_times.
Proof.
  assert (L : Bleb f0 dtenth = true) by (vm_compute; reflexivity). rewrite Bleb_correct in L by reflexivity. change (B2R f0) with 0 in L.
  assert (P : 0 <= B2R dtenth) by (destruct (Rle_bool_spec 0 (B2R dtenth)); [assumption|discriminate L]).
  repeat apply Forall_cons; cbn [fst]; [split; [reflexivity|change (B2R f0) with 0; lra]|split; [vm_compute; reflexivity|exact P]|split; [vm_compute; reflexivity|rewrite one_R; lra]|constructor].
Qed.
Lemma stride_extent ax : axis ax -> 0 <= extent 1 (pb_of (stride F_acc_dc1_c1)) (V3 1 0 1) ax <= 5.
Proof.
  intros Hax. unfold extent. pose proof tenth_abs as HT.
  assert (V1 : B2R (of_Z 1) = 1) by apply one_R. assert (V2 : B2R (of_Z 2) = 2) by (apply of_Z_val; lia). assert (V0 : B2R f0 = 0) by reflexivity.
  assert (A0 : Rabs 0 = 0) by apply Rabs_R0. assert (A1 : Rabs 1 = 1) by (apply Rabs_pos_eq; lra). assert (A2 : Rabs 2 = 2) by (apply Rabs_pos_eq; lra).
  assert (HP : 0 <= Rabs (B2R dtenth)) by apply Rabs_pos.
  assert (X : 0 <= Rabs (ax (V3 1 0 1)) <= 1) by (destruct Hax as [->|[->| ->]]; cbn [vx vy vz]; rewrite ?A0, ?A1; lra).
  assert (S0 : 0 <= reach 1 (map ax (start_state (pb_of (stride F_acc_dc1_c1)))) <= 4 /\ reach 1 (map ax (end_state (pb_of (stride F_acc_dc1_c1)))) <= 4).
  { unfold start_state, end_state, when; change (flag_of (pb_of (stride F_acc_dc1_c1))) with F_acc_dc1_c1;
    repeat match goal with |- context [fl_has ?a ?b] => let v := eval vm_compute in (fl_has a b) in change (fl_has a b) with v end; cbv iota; cbn [app map pb_of c0 dc0 ddc0 c1 dc1 stride fd_c0 fd_dc0 fd_ddc0 fd_c1 fd_dc1];
    destruct Hax as [->|[->| ->]]; unfold fv_R, fv_zero; cbn [vx vy vz fx fy fz reach]; rewrite ?V0, ?V1, ?V2, ?A0, ?A1, ?A2; repeat split; lra. }
  destruct S0 as [[S1 S2] S3]. pose proof (Rmax_l (reach 1 (map ax (start_state (pb_of (stride F_acc_dc1_c1))))) (reach 1 (map ax (end_state (pb_of (stride F_acc_dc1_c1)))))).
  split; [lra|]. replace 5 with (4 + 1) by lra. apply Rplus_le_compat; [apply Rmax_lub; lra|apply X].
Qed.
Lemma Forall2_weaken {A B} (P Q : A -> B -> Prop) l m : (forall a b, P a b -> Q a b) -> Forall2 P l m -> Forall2 Q l m.
Proof. intros H F. induction F; constructor; auto. Qed.
Lemma tiny_eta : 0 < eta <= / 2 ^ 100.
Proof. unfold eta. split; [apply Rinv_0_lt_compat, pow_lt; lra|apply Rinv_le_contravar; [apply pow_lt; lra|apply Rle_pow; [lra|lia]]]. Qed.
Lemma stride_pos S : 0 <= S <= 5 -> pos_err 5 1 S <= / 2 ^ 37.
Proof.
  intros H. unfold pos_err, u53. pose proof tiny_eta as E. change (2 * 5 + 3)%nat with 13%nat. change (IZR (2 ^ 53)) with (IZR 9007199254740992).
  generalize dependent eta. intros e E. assert (P : / 2 ^ 100 <= / 2 ^ 90) by (apply Rinv_le_contravar; [apply pow_lt; lra|apply Rle_pow; [lra|lia]]).
  assert (P2 : / 2 ^ 90 = / 2 ^ 40 * / 2 ^ 50) by (rewrite <- Rinv_mult, <- pow_add; reflexivity).
  assert (P40 : 0 < 2 ^ 40) by (apply pow_lt; lra). assert (X : 2 ^ 40 * e <= / 2 ^ 50).
  { apply Rle_trans with (2 ^ 40 * / 2 ^ 90); [apply Rmult_le_compat_l; lra|]. rewrite P2, <- Rmult_assoc, Rinv_r by lra. lra. }
  assert (X0 : 0 <= 2 ^ 40 * e) by (apply Rmult_le_pos; lra). generalize dependent (2 ^ 40 * e). intros z Z1 Z0.
  assert (Q : 2 ^ 13 = 8192) by (cbn [pow]; lra). assert (Q37 : 2 ^ 37 = 137438953472) by (cbn [pow]; lra). assert (Q50 : 2 ^ 50 = 1125899906842624) by (cbn [pow]; lra). rewrite Q, Q37. rewrite Q50 in Z1.
  assert (Y : z * ((1 + 1) ^ 2 + S) <= / 1125899906842624 * 9) by (apply Rmult_le_compat; [exact Z0|cbn [pow]; lra|exact Z1|cbn [pow]; lra]).
  assert (W : 8192 * / 9007199254740992 * S <= 8192 * / 9007199254740992 * 5) by (apply Rmult_le_compat_l; lra). lra.
Qed.
Lemma stride_acc S : 0 <= S <= 5 -> acc_err 5 1 S <= / 2 ^ 34.
Proof.
  intros H. unfold acc_err, u53. pose proof tiny_eta as E. change (3 * 5 + 1)%nat with 16%nat. change (IZR (2 ^ 53)) with (IZR 9007199254740992).
  generalize dependent eta. intros e E. assert (P : / 2 ^ 100 <= / 2 ^ 90) by (apply Rinv_le_contravar; [apply pow_lt; lra|apply Rle_pow; [lra|lia]]).
  assert (P2 : / 2 ^ 90 = / 2 ^ 40 * / 2 ^ 50) by (rewrite <- Rinv_mult, <- pow_add; reflexivity).
  assert (P40 : 0 < 2 ^ 40) by (apply pow_lt; lra). assert (X : 2 ^ 40 * e <= / 2 ^ 50).
  { apply Rle_trans with (2 ^ 40 * / 2 ^ 90); [apply Rmult_le_compat_l; lra|]. rewrite P2, <- Rmult_assoc, Rinv_r by lra. lra. }
  assert (X0 : 0 <= 2 ^ 40 * e) by (apply Rmult_le_pos; lra). generalize dependent (2 ^ 40 * e). intros z Z1 Z0.
  assert (Q : 2 ^ 16 = 65536) by (cbn [pow]; lra). assert (Q37 : 2 ^ 34 = 17179869184) by (cbn [pow]; lra). assert (Q50 : 2 ^ 50 = 1125899906842624) by (cbn [pow]; lra). rewrite Q, Q37. rewrite Q50 in Z1.
  replace (/ 1 ^ 2) with 1 by (cbn [pow]; field). replace (S / 1 ^ 2) with S by (cbn [pow]; field).
  assert (Y : z * ((1 + 1) * ((1 + 1) ^ 2 + S)) <= / 1125899906842624 * 18) by (apply Rmult_le_compat; [exact Z0|cbn [pow]; lra|exact Z1|cbn [pow]; lra]).
  assert (W : 65536 * / 9007199254740992 * S <= 65536 * / 9007199254740992 * 5) by (apply Rmult_le_compat_l; lra). lra.
Qed.
Lemma stride_degree x cv : com_curve (pb_of (stride F_acc_dc1_c1)) 1 x = Ok cv -> degree cv = 5%nat.
Proof.
  intros E. destruct (com_curve_inv (pb_of (stride F_acc_dc1_c1)) 1 x cv) as (pi & pts & Sh & _ & _ & -> & _); [cbn; tauto|exact E|]. unfold degree. cbn [bc_pts].
  inversion Sh; try discriminate; reflexivity.
Qed.

(** the three sampled positions are within 2^-37 m of the curve *)
Example ex_C87_positions : exists ev cs, evaluates (of_Z 1) ev /\ computeDiscretizedWaypoints_f (stride F_acc_dc1_c1) (of_Z 1) stride_times = Ok cs /\
  Forall2 (fun tp c => exists cv, com_curve (pb_of (stride F_acc_dc1_c1)) 1 (V3 1 0 1) = Ok cv /\ apart (fun _ => / 2 ^ 37) (at_free c (V3 1 0 1)) (cv_fun cv (ev (fst tp)))) stride_times cs.
Proof.
  destruct T1_ok as [F1 [B1 B2]].
  destruct (C87_positions _ _ (of_Z 1) (pb_of_denotes (stride F_acc_dc1_c1)) (stride_mild _) F1 B1 B2) as (ev & He & H); [cbn; tauto|intros X; discriminate X|].
  destruct (H _ stride_times_ok) as (cs & E & F). exists ev, cs. split; [exact He|]. split; [exact E|]. eapply Forall2_weaken; [|exact F]. intros tp c [_ G].
  destruct (G (V3 1 0 1)) as (cv & Ec & Ga). rewrite one_R in Ec, Ga. exists cv. split; [exact Ec|]. intros ax Hax. eapply Rle_trans; [apply (Ga ax Hax)|].
  rewrite (stride_degree _ _ Ec). apply stride_pos, stride_extent, Hax.
Qed.
(** the three sampled accelerations within 2^-34 m/s^2 *)
Example ex_C87_accelerations : exists ev cs, evaluates (of_Z 1) ev /\ computeDiscretizedAccelerationWaypoints_f (stride F_acc_dc1_c1) (of_Z 1) stride_times = Ok cs /\
  Forall2 (fun tp c => exists cv v, com_curve (pb_of (stride F_acc_dc1_c1)) 1 (V3 1 0 1) = Ok cv /\ is_deriv_n 2 (cv_fun cv) (ev (fst tp)) v /\ apart (fun _ => / 2 ^ 34) (at_free c (V3 1 0 1)) v) stride_times cs.
Proof.
  destruct T1_ok as [F1 [B1 B2]].
  destruct (C87_accelerations _ _ (of_Z 1) (pb_of_denotes (stride F_acc_dc1_c1)) (stride_mild _) F1 B1 B2) as (ev & He & H); [cbn; tauto|intros X; discriminate X| |].
  { rewrite one_R. rewrite <- Rinv_1. apply Rinv_le_contravar; [lra|apply pow_R1_Rle; lra]. }
  destruct (H _ stride_times_ok) as (cs & E & F). exists ev, cs. split; [exact He|]. split; [exact E|]. eapply Forall2_weaken; [|exact F]. intros tp c [_ G].
  destruct (G (V3 1 0 1)) as (cv & Ec & v & Dv & Ga). rewrite one_R in Ec, Ga. exists cv, v. split; [exact Ec|]. split; [exact Dv|]. intros ax Hax. eapply Rle_trans; [apply (Ga ax Hax)|].
  rewrite (stride_degree _ _ Ec). apply stride_acc, stride_extent, Hax.
Qed.
