(** Concrete inputs for the theorems of Properties0Step.v. *)
From Verif Require Import Vec SpecBezier ModelData ModelDispatch ModelCont ModelSolver ModelTraj Model0Step
  SpecCom SpecWp SpecCtr SpecSolver SpecTraj Spec0Step Proof0Step Proof0Step2 Proof0Step3 Properties0Step ExamplesTraj.
Open Scope R_scope.

(** A walking point at velocity (1,0,0) with some angular momentum, stopped at
    (2/3,0,0). *)
Definition z_ct : contact := up_ct [V3 1 0 0; V3 0 1 0] [1; 1] [V3 0 0 1] [2].
Definition z_pb : problem := up_pb true z_ct (V3 1 0 0) (V3 0 0 1).
Definition z_x : vec3 := V3 (2 / 3) 0 0.
Definition z_xL : vec3 := V3 0 0 (3 / 4).
Lemma z_pb_posed : z_posed z_pb [1] z_ct up_ph 1.
Proof. apply up_posed. cbn; lia. Qed.
Lemma z_pb_geom : z_geom true z_ct z_x z_xL.
Proof.
  intros j Hj. cbn in Hj. destruct j as [|[|[|j]]]; [| | |lia]; cbn -[Rplus Rmult Rdiv]; unfold vdot; cbn -[Rplus Rmult Rdiv]; lra.
Qed.
Lemma steps4 : z_steps 1 (1 / 4) 4.
Proof. split; [lra|]. split; [|cbn; lia]. cbn. lra. Qed.

Example ex_C25_C27 : exists r x xL, solve0step false (guess (z_vec true z_x z_xL)) no_lp z_pb [1] 0 = Ok r /\ r0_success r = true /\
  z_plan z_pb 1 r x xL /\ r0_x r = [2 / 3; 0; 0; 0; 0; 3 / 4] /\
  (forall t acc, 0 <= t <= 1 -> is_deriv_n 2 (cv_fun (r0_c r)) t acc ->
    cone0 up_ph (giwL 2 (V3 0 0 (-10)) (cv_fun (r0_c r) t) acc (dL_fun (r0_dL r) t))) /\
  integral3 (dL_fun (r0_dL r)) 0 1 (vopp (V3 0 0 1)).
Proof.
  destruct (guess0 false no_lp z_pb [1] z_ct up_ph 1 0 z_x z_xL z_pb_posed) as (r & E & HP).
  { left; left; lra. } { apply up_ok. } { exact z_pb_geom. }
  destruct (C25_plan false (guess (z_vec true z_x z_xL)) no_lp z_pb [1] z_ct up_ph 1 0 z_pb_posed r (guess_sound _)) as (x & xL & HP' & _ & _ & _ & _ & HS & _);
    [left; lra|exact E|apply HP|].
  exists r, x, xL. split; [exact E|]. split; [apply HP|]. split; [exact HP'|]. split; [apply HP|]. split; [exact HS|].
  apply (C27_momentum z_pb [1] z_ct up_ph 1 z_pb_posed r x xL HP' eq_refl).
Qed.
Example ex_C26 : exists r x xL, solve0step false (guess (z_vec true z_x z_xL)) no_lp z_pb [1] (1 / 4) = Ok r /\ r0_success r = true /\
  z_plan z_pb 1 r x xL /\
  (forall i acc, (i <= 4)%nat -> let t := INR i * (1 / INR 4) in is_deriv_n 2 (cv_fun (r0_c r)) t acc ->
    cone0 up_ph (giwL 2 (V3 0 0 (-10)) (cv_fun (r0_c r) t) acc (dL_fun (r0_dL r) t))).
Proof.
  destruct (guess0 false no_lp z_pb [1] z_ct up_ph 1 (1 / 4) z_x z_xL z_pb_posed) as (r & E & HP).
  { right; exists 4%nat; exact steps4. } { apply up_ok. } { exact z_pb_geom. }
  destruct (C26_plan false (guess (z_vec true z_x z_xL)) no_lp z_pb [1] z_ct up_ph 1 (1 / 4) z_pb_posed r 4%nat (guess_sound _) steps4) as (x & xL & HP' & _ & _ & _ & _ & HS & _);
    [lia|exact E|apply HP|].
  exists r, x, xL. split; [exact E|]. split; [apply HP|]. split; [exact HP'|exact HS].
Qed.
(** the hypotheses of C25_exact, C26_exact, C27_optimal and C28_ignored *)
Example ex_C26_exact : exists Ab, compute6dControlPointInequalities z_ct vzero (V3 1 0 0) (V3 0 0 1) true 1 (1 / 4) = Ok Ab /\
  length Ab = 8%nat /\ satX (z_ineqs true Ab) (z_vec true z_x z_xL).
Proof.
  destruct (C26_exact true z_ct up_ph vzero (V3 1 0 0) (V3 0 0 1) 1 (proj1 (proj2 (proj2 (proj2 z_pb_posed)))) eq_refl Rlt_0_1 (1 / 4) 4 steps4) as (Ab & E & L & HS); [lia|].
  exists Ab. split; [exact E|]. split; [exact L|]. apply HS. split; [|exact z_pb_geom]. intros i _. apply up_stable.
Qed.
Example ex_C28 : solve0step false (guess (z_vec true z_x z_xL)) no_lp (up_pb true (with_ang z_ct [V3 0 1 0] [-5]) (V3 1 0 0) (V3 0 0 1)) [1] 0
  = solve0step false (guess (z_vec true z_x z_xL)) no_lp z_pb [1] 0.
Proof. exact (C28_ignored false _ no_lp z_pb [1] 0 z_ct [V3 0 1 0] [-5] eq_refl eq_refl). Qed.
Example ex_C27_criterion : exists v, z_criterion z_pb 1 z_x z_xL v.
Proof. eexists. apply z_criterion_iff; [lra|reflexivity]. Qed.
