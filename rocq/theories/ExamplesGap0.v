(** Concrete inputs for the theorems of PropertiesGap0.v. *)
From Verif Require Import Vec SpecBezier ModelData ModelDispatch ModelCont ModelSolver ModelTraj Model0Step
  SpecCom SpecWp SpecCtr SpecSolver SpecTraj Spec0Step SpecEnd3 SpecGap SpecGap0 Proof0Step3 ProofGap0 PropertiesGap0 ExamplesTraj Examples0Step.
Open Scope R_scope.

(** The walking point of Examples0Step.v with angular momentum, sampled four times a second. *)
Example ex_C82 : exists r, solve0step false (guess (z_vec true z_x z_xL)) no_lp z_pb [1] (1 / 4) = Ok r /\ r0_success r = true /\
  forall t acc, 0 <= t <= 1 -> is_deriv_n 2 (cv_fun (r0_c r)) t acc ->
    cone0_near (2 * gap_wrench 10 3 1 1 (1 / INR 4) + gap_momentum 1 1 (1 / INR 4)) up_ph
      (giwL 2 (V3 0 0 (-10)) (cv_fun (r0_c r) t) acc (dL_fun (r0_dL r) t)).
Proof.
  destruct (guess0 false no_lp z_pb [1] z_ct up_ph 1 (1 / 4) z_x z_xL z_pb_posed) as (r & E & HP).
  { right; exists 4%nat; exact steps4. } { apply up_ok. } { exact z_pb_geom. }
  destruct (C82_gap false (guess (z_vec true z_x z_xL)) no_lp z_pb [1] z_ct up_ph 1 (1 / 4) z_pb_posed r 4%nat (guess_sound _) steps4) as (x & xL & HP' & HS);
    [lia|exact E|apply HP|].
  exists r. split; [exact E|]. split; [apply HP|].
  assert (EX : x = z_x /\ xL = z_xL).
  { destruct HP as (_ & R1 & _). destruct HP' as (_ & R2 & _). rewrite R1 in R2. cbn [useAngularMomentum z_pb up_pb z_vec l3 app z_x z_xL vx vy vz] in R2.
    injection R2 as E1 E2 E3 E4 E5 E6. destruct x as [x1 x2 x3]. destruct xL as [y1 y2 y3]. cbn [vx vy vz] in *. subst. split; reflexivity. }
  destruct EX as [-> ->].
  assert (W : forall B a b c, -B <= a <= B -> -B <= b <= B -> -B <= c <= B -> within B (V3 a b c)).
  { intros B a b c A1 A2 A3. unfold within; cbn [vx vy vz]. split; [|split]; apply Rabs_le; lra. }
  assert (K : 0 <= 1 /\ within 1 (vadd vzero (vscal (1 / 3) (V3 1 0 0)))) by (split; [lra|]; unfold vadd, vscal, vzero; cbn [vx vy vz]; apply W; lra).
  apply (HS 10 1 1); cbn [up_ph cp_gravity z_pb up_pb c0 dc0 l0]; unfold z_x, z_xL, vzero in *; [apply W; lra|apply W; lra|apply K|apply W; lra|apply K|].
  intros _. split; apply W; lra.
Qed.
