(** Cases that meet the hypotheses of the theorems of PropertiesGap.v. *)
From Verif Require Import Vec SpecBezier SpecTime ModelData ModelDispatch ModelUtils ModelRows ModelCom ModelCont ModelSolver ModelTraj SpecCom SpecWp SpecCtr SpecCont SpecSolver SpecTraj SpecGap
  ProofSolves ProofEnd12 ProofGap3 PropertiesTraj PropertiesGap ExamplesCom ExamplesTraj ExamplesSolves ExamplesDec.
Open Scope R_scope.

Lemma bounded (P : list vec3) : exists M, 0 <= M /\ Forall (within M) P.
Proof.
  destruct (some_bound P) as [B H]. exists (Rmax 0 B). split; [apply Rmax_l|]. eapply Forall_impl; [|exact H].
  intros v (A1 & A2 & A3). pose proof (Rmax_r 0 B). split; [|split]; lra.
Qed.
Lemma g_in : within 10 (V3 0 0 (-981/100)).
Proof. apply ex_C15. Qed.

(** The tolerances for a curve of degree 4 and duration 1 with coordinates of at most 1. *)
Example ex_gap : gap_pos 4 1 1 (1 / 10) = 6 / 100 /\ gap_acc 4 1 1 (1 / 10) = 48 / 100.
Proof. split; [unfold gap_pos, rate|unfold gap_acc, rate]; cbn [pred INR]; field. Qed.

(** C81_fixed: the problem of C81_refuted, half way between the first two samples. *)
Example ex_C81_fixed : exists r M, computeCOMTrajFixedSize true false (guess (l3 gp_x)) no_lp gp_pb [1] 3 = Ok r /\ rc_success r = true /\
  0 <= M /\ Forall (within M) (bc_pts (rc_c r)) /\
  contact_near gp_pb (gap_pos (pred (length (bc_pts (rc_c r)))) (total [1]) M (1 / INR 3))
    (gap_wrench 10 (pred (length (bc_pts (rc_c r)))) (total [1]) M (1 / INR 3)) gp_ct (cv_fun (rc_c r)) (1/6).
Proof.
  destruct (gp_plan true false) as (r & E & S). destruct (bounded (bc_pts (rc_c r))) as (M & M0 & HM). exists r, M.
  split; [exact E|]. split; [exact S|]. split; [exact M0|]. split; [exact HM|].
  apply (C81_fixed true false (guess (l3 gp_x)) no_lp (guess_sound _) no_lp_sound gp_pb [1] 3 gp_g 10 r M gp_wp ltac:(lia) gp_same g_in ltac:(cbn; tauto) E S M0 HM 0 gp_ct 1 (1/6) eq_refl eq_refl).
  split; [cbn; lia|]. unfold phase_start, phase_end. cbn [firstn total]. lra.
Qed.
(** C81_step: standing still, steps of 2/5. *)
Example ex_C81_step : exists r M, computeCOMTraj true false (guess (l3 st_x)) no_lp (st_pb ACCELERATION) [1; 1/2] (2/5) SOLVER_QUADPROG = Ok r /\ rc_success r = true /\
  0 <= M /\ Forall (within M) (bc_pts (rc_c r)) /\
  accel_near (st_pb ACCELERATION) (gap_acc (pred (length (bc_pts (rc_c r)))) (total [1; 1/2]) M (2/5)) (cv_fun (rc_c r)) (11/10).
Proof.
  destruct (guess_step true false (2/5) ltac:(lra)) as (r & E & S). destruct (bounded (bc_pts (rc_c r))) as (M & M0 & HM). exists r, M.
  split; [exact E|]. split; [exact S|]. split; [exact M0|]. split; [exact HM|].
  apply (C81_step true false (guess (l3 st_x)) no_lp (guess_sound _) no_lp_sound (st_pb ACCELERATION) [1; 1/2] (2/5) SOLVER_QUADPROG (V3 0 0 (-981/100)) 10 r M (st_wp _) ltac:(lra) (st_same _)
    g_in ltac:(cbn; tauto) E S M0 HM 1 ex_c1 (11/10) eq_refl).
  split; [cbn; lia|]. unfold phase_start, phase_end. cbn [firstn total]. lra.
Qed.
(** The decimal flags. *)
Example ex_C81_decimal : exists r M, computeCOMTraj true false exact_solver no_lp (dc_pb DISTANCE_TRAVELED) [1; 1/2] (1/5) SOLVER_QUADPROG = Ok r /\ rc_success r = true /\
  0 <= M /\ Forall (within M) (bc_pts (rc_c r)) /\
  forall c, nth_error (contacts (dc_pb DISTANCE_TRAVELED)) 1 = Some c ->
  contact_near (dc_pb DISTANCE_TRAVELED) (gap_pos (pred (length (bc_pts (rc_c r)))) (total [1; 1/2]) M (1/5))
    (3 * (err_force M (total [1; 1/2]) + err_moment 10 M (total [1; 1/2])) + gap_wrench 10 (pred (length (bc_pts (rc_c r)))) (total [1; 1/2]) M (1/5))
    c (cv_fun (rc_c r)) (11/10).
Proof.
  destruct (proj1 ex_C51_decimal) as (r & E & S). destruct (bounded (bc_pts (rc_c r))) as (M & M0 & HM). exists r, M.
  split; [exact E|]. split; [exact S|]. split; [exact M0|]. split; [exact HM|]. intros c Hc.
  apply (C81_step_decimal true false exact_solver no_lp exact_sound no_lp_sound (dc_pb DISTANCE_TRAVELED) [1; 1/2] (1/5) SOLVER_QUADPROG dg 10 r M (dc_wp _) ltac:(lra) (dc_same _)
    dg_within (dc_flag _) E S M0 HM 1 c (11/10) Hc).
  split; [cbn; lia|]. unfold phase_start, phase_end. cbn [firstn total]. lra.
Qed.
Example ex_C81_fixed_decimal : exists r M p, (1 <= p)%nat /\ computeCOMTrajFixedSize true false exact_solver no_lp (dc_pb DISTANCE_TRAVELED) [1; 1/2] p = Ok r /\ rc_success r = true /\
  0 <= M /\ Forall (within M) (bc_pts (rc_c r)) /\ well_posed (dc_pb DISTANCE_TRAVELED) [1; 1/2] /\ in_phase [1; 1/2] 1 (11/10).
Proof.
  destruct (proj1 (proj2 ex_C51_decimal)) as (r & E & S). destruct (bounded (bc_pts (rc_c r))) as (M & M0 & HM). exists r, M. eexists.
  split; [|split; [exact E|]; split; [exact S|]; split; [exact M0|]; split; [exact HM|]; split; [apply dc_wp|]].
  - lia.
  - split; [cbn; lia|]. unfold phase_start, phase_end. cbn [firstn total]. lra.
Qed.
