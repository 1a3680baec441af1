(** Concrete inputs for the theorems of PropertiesRowsDouble.v. *)
From Flocq Require Import Core BinarySingleNaN.
From Coq Require Import List Lia Lra Permutation.
From Verif Require Import Vec SpecBezier ModelData ModelWaypoints ModelDispatch SpecCom Double ModelDouble ModelPtsDouble ModelCoefDouble ModelRowsDouble
  SpecDouble SpecDouble2 SpecPtsDouble SpecCoefDouble SpecRowsDouble
  ProofWaypoints ProofDouble ProofPtsDouble ProofPtsDouble6 ProofPtsDouble9 ExamplesPtsDouble ExamplesCoefDouble PropertiesRowsDouble.
Import ListNotations.
Open Scope R_scope.

(** two orders of summation: from left to right, and the product first, then subtracted from [k] *)
Definition sub_left (k : f64) (K b : fvec) : f64 :=
  fadd (fadd (fadd k (fopp (fmul (fx K) (fx b)))) (fopp (fmul (fy K) (fy b)))) (fopp (fmul (fz K) (fz b))).
Definition sub_gemv (k : f64) (K b : fvec) : f64 :=
  fadd k (fopp (fadd (fadd (fadd f0 (fmul (fx K) (fx b))) (fmul (fy K) (fy b))) (fmul (fz K) (fz b)))).
Lemma sub_left_ok : subtracts sub_left.
Proof.
  intros k K b. unfold sub_left. set (p := fopp (fmul (fx K) (fx b))). set (q := fopp (fmul (fy K) (fy b))). set (r := fopp (fmul (fz K) (fz b))).
  apply (sum_two [k; p; q] [r]); [|apply sum_one]. apply (sum_two [k; p] [q]); [|apply sum_one]. apply (sum_two [k] [p]); apply sum_one.
Qed.
Lemma sub_gemv_ok : subtracts sub_gemv.
Proof.
  intros k K b. unfold sub_gemv. set (p := fmul (fx K) (fx b)). set (q := fmul (fy K) (fy b)). set (r := fmul (fz K) (fz b)).
  apply (sum_two [k] [fopp p; fopp q; fopp r]); [apply sum_one|]. apply sum_opp. cbn [map]. assert (O : forall y : f64, fopp (fopp y) = y) by (intros; apply Bopp_involutive). rewrite !O.
  apply (sum_two [p; q] [r]); [|apply sum_one]. apply (sum_two [p] [q]); [|apply sum_one]. apply sum_zero, sum_one.
Qed.

(** two phases: in the first the x coordinate is at most 2, in the second at least -1 *)
Definition box1 : fcontact := FC [FV (of_Z 1) f0 f0] [of_Z 2].
Definition box2 : fcontact := FC [FV (of_Z (-1)) f0 f0] [of_Z 1].
Definition stride_blocks : list (list f64) := [[f0; dtenth]; [of_Z 1]].
Lemma mild_Z n : (Z.abs n <= 2)%Z -> mild (of_Z n).
Proof.
  intros H. destruct (of_Z_val n) as [F V]; [lia|]. split; [exact F|]. rewrite V. rewrite <- abs_IZR. apply Rle_trans with 2; [apply IZR_le, H|]. rewrite <- (pow_1 2) at 1. apply Rle_pow; [lra|lia].
Qed.
Lemma mild_0 : mild f0.
Proof. split; [reflexivity|]. change (B2R f0) with 0. rewrite Rabs_R0. apply pow_le. lra. Qed.
Lemma boxes_mild : Forall mild_contact [box1; box2].
Proof.
  assert (G : forall n, (Z.abs n <= 2)%Z -> mild3 (FV (of_Z n) f0 f0)) by (intros n Hn; exact (conj (mild_Z n Hn) (conj mild_0 mild_0))).
  apply Forall_cons; [|apply Forall_cons; [|apply Forall_nil]]; (split; [apply Forall_cons; [apply G; lia|apply Forall_nil]|split; [apply Forall_cons; [apply mild_Z; lia|apply Forall_nil]|cbn; lia]]).
Qed.
Lemma stride_blocks_ok : Forall (fun b => b <> [] /\ Forall (fun t => is_finite t = true /\ 0 <= B2R t) b) stride_blocks.
Proof.
  pose proof stride_times_ok as H. inversion H as [|? ? H1 H']; subst. inversion H' as [|? ? H2 H'']; subst. inversion H'' as [|? ? H3 _]; subst. cbn [fst] in *.
  constructor; [split; [discriminate|constructor; [exact H1|constructor; [exact H2|constructor]]]|constructor; [split; [discriminate|constructor; [exact H3|constructor]]|constructor]].
Qed.
Lemma box_err cv K k : com_curve (pb_of (stride F_acc_dc1_c1)) 1 (V3 1 0 1) = Ok cv -> Rabs (vx K) = 1 -> vy K = 0 -> vz K = 0 -> Rabs k <= 2 ->
  kin_err (degree cv) 1 (pb_of (stride F_acc_dc1_c1)) (V3 1 0 1) K k <= / 2 ^ 35.
Proof.
  intros E Kx Ky Kz Hk. rewrite (stride_degree _ _ E). unfold kin_err. cbv zeta. rewrite Kx, Ky, Kz. cbn [vx vy vz]. rewrite Rabs_R0, (Rabs_pos_eq 1) by lra.
  pose proof (stride_pos _ (stride_extent vx (or_introl eq_refl))) as P. pose proof tiny_eta as Et. unfold u53. change (IZR (2 ^ 53)) with (IZR 9007199254740992).
  assert (Q35 : / 2 ^ 35 = 4 * / 2 ^ 37). { assert (P35 : 0 < 2 ^ 35) by (apply pow_lt; lra). replace (2 ^ 37) with (4 * 2 ^ 35) by (change 37%nat with (2 + 35)%nat; rewrite pow_add; cbn [Nat.add]; f_equal; ring). field; lra. }
  assert (Q37 : / 2 ^ 100 <= / 2 ^ 40) by (apply Rinv_le_contravar; [apply pow_lt; lra|apply Rle_pow; [lra|lia]]).
  assert (R40 : 2 ^ 40 = 1099511627776) by (cbn [pow]; lra). assert (R37 : 2 ^ 37 = 137438953472) by (cbn [pow]; lra). rewrite Q35. rewrite R37 in *. rewrite R40 in Q37.
  set (e := pos_err 5 1 (extent 1 (pb_of (stride F_acc_dc1_c1)) (V3 1 0 1) vx)) in *. pose proof (Rabs_pos k). lra.
Qed.

(** A free point at (1, 0, 1): if the rows hold, the sampled curve is in the boxes up to 2^-35 m. *)
Example ex_C88_kinematics : exists ev rows cv, evaluates (of_Z 1) ev /\
  assignKinematicConstraints_f sub_gemv (stride F_acc_dc1_c1) [box1; box2] (of_Z 1) (tagged_f 0 stride_blocks) = Ok rows /\ Forall finite_row rows /\
  com_curve (pb_of (stride F_acc_dc1_c1)) 1 (V3 1 0 1) = Ok cv /\
  (Forall (fun r => holds 0 r (V3 1 0 1)) rows ->
     vx (cv_fun cv (ev f0)) <= 2 + / 2 ^ 35 /\ vx (cv_fun cv (ev dtenth)) <= 2 + / 2 ^ 35 /\ - 1 - / 2 ^ 35 <= vx (cv_fun cv (ev dtenth)) /\ - 1 - / 2 ^ 35 <= vx (cv_fun cv (ev (of_Z 1)))).
Proof.
  destruct T1_ok as [F1 [B1 B2]].
  destruct (C88_kinematics _ _ (of_Z 1) (pb_of_denotes (stride F_acc_dc1_c1)) (stride_mild _) F1 B1 B2) as (ev & He & H); [cbn; tauto|intros X; discriminate X|].
  destruct (H sub_gemv [box1; box2] stride_blocks sub_gemv_ok boxes_mild eq_refl ltac:(discriminate) stride_blocks_ok) as (rows & E & F & G).
  destruct (G (V3 1 0 1)) as (cv & Ec & G1 & _). rewrite one_R in Ec, G1. exists ev, rows, cv. split; [exact He|]. split; [exact E|]. split; [exact F|]. split; [exact Ec|]. intros Hr.
  pose proof (G1 0 Hr) as G2.
  assert (V1 : B2R (of_Z 1) = 1) by apply one_R. assert (V2 : B2R (of_Z 2) = 2) by (apply of_Z_val; lia). assert (V3 : B2R (of_Z (-1)) = -1) by (apply of_Z_val; lia).
  assert (A1 : forall t, in_force stride_blocks 0 t -> vx (cv_fun cv (ev t)) <= 2 + / 2 ^ 35).
  { intros t Ht. pose proof (G2 0%nat box1 t _ (of_Z 2) eq_refl Ht (ex_intro _ 0%nat (conj eq_refl eq_refl))) as B. unfold vdot, fv_R in B. cbn [fx fy fz vx vy vz] in B. rewrite V1, V2 in B. change (B2R f0) with 0 in B.
    pose proof (box_err cv (Vec.V3 1 0 0) 2 Ec) as Be. cbn [vx vy vz] in Be. rewrite (Rabs_pos_eq 1), (Rabs_pos_eq 2) in Be by lra. specialize (Be eq_refl eq_refl eq_refl ltac:(lra)). lra. }
  assert (A2 : forall t, in_force stride_blocks 1 t -> - 1 - / 2 ^ 35 <= vx (cv_fun cv (ev t))).
  { intros t Ht. pose proof (G2 1%nat box2 t _ (of_Z 1) eq_refl Ht (ex_intro _ 0%nat (conj eq_refl eq_refl))) as B. unfold vdot, fv_R in B. cbn [fx fy fz vx vy vz] in B. rewrite V1, V3 in B. change (B2R f0) with 0 in B.
    pose proof (box_err cv (Vec.V3 (-1) 0 0) 1 Ec) as Be. cbn [vx vy vz] in Be. rewrite (Rabs_left (-1)), (Rabs_pos_eq 1) in Be by lra. specialize (Be ltac:(lra) eq_refl eq_refl ltac:(lra)). lra. }
  repeat split; [apply A1|apply A1|apply A2|apply A2].
  - left. exists [f0; dtenth]. split; [reflexivity|now left].
  - left. exists [f0; dtenth]. split; [reflexivity|right; now left].
  - right. exists 0%nat, [f0], [of_Z 1]. repeat split.
  - left. exists [of_Z 1]. split; [reflexivity|now left].
Qed.
(** With a bound of 2 m/s^2: the sampled accelerations are at most 2 + 2^-32 m/s^2 per axis if the rows hold. *)
Example ex_C88_accelerations : exists ev rows cv, evaluates (of_Z 1) ev /\
  assignAccelerationConstraints_f (stride F_acc_dc1_c1) (of_Z 2) (of_Z 1) stride_times = Ok rows /\ length rows = 18%nat /\
  com_curve (pb_of (stride F_acc_dc1_c1)) 1 (V3 1 0 1) = Ok cv /\
  (Forall (fun r => holds 0 r (V3 1 0 1)) rows -> exists v, is_deriv_n 2 (cv_fun cv) (ev dtenth) v /\ Rabs (vx v) <= 2 + / 2 ^ 32).
Proof.
  destruct T1_ok as [F1 [B1 B2]].
  destruct (C88_accelerations _ _ (of_Z 1) (pb_of_denotes (stride F_acc_dc1_c1)) (stride_mild _) F1 B1 B2) as (ev & He & H); [cbn; tauto|intros X; discriminate X| |].
  { rewrite one_R. rewrite <- Rinv_1. apply Rinv_le_contravar; [lra|apply pow_R1_Rle; lra]. }
  destruct (H (of_Z 2) stride_times (mild_Z 2 ltac:(lia)) stride_times_ok) as (rows & E & L & F & G). rewrite one_R in G.
  destruct ex_C87_positions as (ev0 & cs & _ & _ & Fc). inversion Fc as [|tp c l m (cv & Ec & _) _]; subst. exists ev, rows, cv. split; [exact He|]. split; [exact E|]. split; [exact L|]. split; [exact Ec|].
  intros Hr. destruct (G (V3 1 0 1) cv Ec) as [G1 _]. destruct (G1 0 Hr (dtenth, 0%Z)) as (v & Dv & Bv); [right; now left|]. exists v. split; [exact Dv|]. specialize (Bv vx (or_introl eq_refl)).
  assert (V2 : B2R (of_Z 2) = 2) by (apply of_Z_val; lia). rewrite V2 in Bv. unfold accel_err in Bv. rewrite (stride_degree _ _ Ec), (Rabs_pos_eq 2) in Bv by lra.
  pose proof (stride_acc _ (stride_extent vx (or_introl eq_refl))) as P. unfold u53 in Bv. change (IZR (2 ^ 53)) with (IZR 9007199254740992) in Bv.
  assert (Q : 2 ^ 34 = 17179869184) by (cbn [pow]; lra). assert (Q' : 2 ^ 32 = 4294967296) by (cbn [pow]; lra). rewrite Q in P. rewrite Q'.
  set (e := acc_err 5 1 (extent 1 (pb_of (stride F_acc_dc1_c1)) (V3 1 0 1) vx)) in *. lra.
Qed.
