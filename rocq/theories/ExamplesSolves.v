(** A back end that solves every strictly convex problem ([qp_solves], hypothesis of
    C27_optimal, C36_plan and C51) and is sound ([qp_sound]), and the theorems applied
    to it. *)
From Coq Require Import List Lia Lra.
From Verif Require Import Vec SpecBezier SpecTime ModelData ModelDispatch ModelUtils ModelCont ModelSolver ModelTraj Model0Step ModelEff
  SpecCom SpecWp SpecCtr SpecSolver SpecTraj Spec0Step SpecEff Proof0Step3 ProofSolves ProofCurve ProofWaypoints2 ProofCom ProofCom2 ProofCom3 ProofTraj ProofTraj2 ProofTraj3 Properties0Step PropertiesCom PropertiesTraj PropertiesEff
  ExamplesTraj Examples0Step ExamplesEff ExamplesEnd4.
Import ListNotations.
Open Scope R_scope.

Example ex_qp_solves : qp_sound exact_solver /\ qp_solves exact_solver.
Proof. split; [exact exact_sound|exact exact_solves]. Qed.
Print Assumptions ex_qp_solves.

Example ex_C27_optimal : exists r x xL, solve0step false exact_solver no_lp z_pb [1] 0 = Ok r /\ z_plan z_pb 1 r x xL /\
  forall v v', z_criterion z_pb 1 x xL v' -> z_criterion z_pb 1 z_x z_xL v -> v' <= v.
Proof.
  destruct (C27_optimal false exact_solver no_lp z_pb [1] z_ct up_ph 1 0 z_pb_posed z_x z_xL exact_solves) as (r & x & xL & E & HP & _ & _ & HO).
  { left; left; lra. } { apply up_ok. } { exact z_pb_geom. }
  exists r, x, xL. split; [exact E|]. split; [exact HP|]. intros v v' A B. apply (HO z_x z_xL v v'); try assumption; [apply up_ok|exact z_pb_geom].
Qed.
Example ex_C51_distance : (exists r, computeCOMTraj true false exact_solver no_lp (st_pb DISTANCE_TRAVELED) [1; 1/2] (1/5) SOLVER_QUADPROG = Ok r /\ rc_success r = true) /\
  (exists r, computeCOMTrajFixedSize true false exact_solver no_lp (st_pb DISTANCE_TRAVELED) [1; 1/2] 4 = Ok r /\ rc_success r = true).
Proof.
  split.
  - destruct (C51_distance_step true false exact_solver no_lp exact_solves (st_pb DISTANCE_TRAVELED) [1; 1/2] (V3 0 0 (-981/100)) (st_wp _) (st_same _) ltac:(cbn; tauto) (1/5) st_x st_cv ltac:(lra) eq_refl (st_curve _) (st_feasible _ _)) as (r & _ & E & S & _).
    exists r. split; assumption.
  - destruct (C51_distance_fixed true false exact_solver no_lp exact_solves (st_pb DISTANCE_TRAVELED) [1; 1/2] (V3 0 0 (-981/100)) (st_wp _) (st_same _) ltac:(cbn; tauto) 4%nat st_x st_cv ltac:(lia) eq_refl (st_curve _) (st_feasible _ _)) as (r & _ & E & S & _).
    exists r. split; assumption.
Qed.
Example ex_C51_acceleration : exists r, computeCOMTrajFixedSize true false exact_solver no_lp (st_pb ACCELERATION) [1; 1/2] 3 = Ok r /\ rc_success r = true.
Proof.
  destruct (C51_acceleration_fixed true false exact_solver no_lp exact_solves (st_pb ACCELERATION) [1; 1/2] (V3 0 0 (-981/100)) (st_wp _) (st_same _) ltac:(cbn; tauto) 3%nat st_x st_cv ltac:(lia) eq_refl
    (proj2 (proj2 ex_C22)) (st_curve _) (st_feasible _ _)) as (r & _ & _ & _ & E & S & _).
  exists r. split; assumption.
Qed.
(** two free points with different accelerations at time 0 *)
Lemma st_apart : exists y cvy ax ay, com_curve (st_pb ACCELERATION) (total [1; 1/2]) y = Ok cvy /\
  is_deriv_n 2 (cv_fun st_cv) 0 ax /\ is_deriv_n 2 (cv_fun cvy) 0 ay /\ ax <> ay.
Proof.
  set (y := V3 1 0 (4/5)). set (cvy := BCurve [st_x; st_x; y; st_x] (3/2)).
  destruct (com_acc cvy 0) as [ay Hay]. exists y, cvy, vzero, ay. split; [|split; [apply st_acc0|split; [exact Hay|]]].
  - rewrite st_total. cbv [com_curve]. cbn. unfold mk_bezier. destruct (Rle_dec (3/2) 0); [lra|].
    unfold cvy, st_x, y. repeat f_equal; apply v3_eq; cbn; field.
  - pose proof (curve_is_deriv_n 2 (bc_pts cvy) (3/2) 0) as Hd.
    rewrite (is_deriv_n_unique 2 _ _ _ _ _ (fun _ => eq_refl) Hay Hd).
    intros E. apply (f_equal vx) in E. cbv [cvy y bc_pts st_x hodo_n hodo vdiffs length pred map curve bez3 bezl bez sumf bern binom nth vx vy vz vscal vsub vzero Nat.add Nat.sub INR pow] in E. lra.
Qed.
Lemma push_incl fuel : forall t stop dt i arr arr', while_push fuel t stop dt i arr = Some arr' -> incl arr arr'.
Proof.
  induction fuel as [|f IH]; intros t stop dt i arr arr' E; [discriminate|]. cbn in E. destruct (Rlt_dec t stop); [|injection E as <-; apply incl_refl].
  apply IH in E. intros z Hz. apply E, in_or_app. left. exact Hz.
Qed.
Lemma outer_incl fuel dt Ts : forall i c arr arr', step_outer fuel Ts dt i c arr = Some arr' -> incl arr arr'.
Proof.
  induction Ts as [|d Ts IH]; intros i c arr arr' E; cbn in E; [injection E as <-; apply incl_refl|]. destruct (while_push _ _ _ _ _ _) as [a|] eqn:W; [|discriminate].
  apply IH in E. apply push_incl in W. intros z Hz. apply E, in_or_app. left. apply W. exact Hz.
Qed.
Lemma starts_at_0 ta : computeDiscretizedTime [1; 1/2] (1/5) = Ok ta -> In (0, 0%Z) ta.
Proof.
  unfold computeDiscretizedTime, computeDiscretizedTime_fuel, enough. destruct (step_outer _ _ _ _ _ _) as [a|] eqn:E; [|discriminate]. intros F. injection F as <-.
  cbn [step_outer while_push] in E. destruct (Rlt_dec 0 (0 + 1)); [|lra]. destruct (while_push _ _ _ _ _ _) as [b|] eqn:W; [|discriminate].
  assert (Hb : In (0, 0%Z) b) by (apply (push_incl _ _ _ _ _ _ _ W); cbn; tauto).
  change (step_outer (S (Z.to_nat (up (maxR [1; 1 / 2] / (1 / 5))))) [1 / 2] (1 / 5) (0 + 1)%Z (0 + 1) (b ++ [(0 + 1, 0%Z)]) = Some a) in E.
  apply (outer_incl _ _ _ _ _ _ _ E). apply in_or_app. left. exact Hb.
Qed.
Example ex_C51_acceleration_step : exists r, computeCOMTraj true false exact_solver no_lp (st_pb ACCELERATION) [1; 1/2] (1/5) SOLVER_QUADPROG = Ok r /\ rc_success r = true.
Proof.
  destruct (C15_meaning_step (st_pb ACCELERATION) [1; 1/2] (1/5) (V3 0 0 (-981/100)) (st_wp _) ltac:(lra) (st_same _) ltac:(cbn; tauto)) as (ta & _ & Et & _).
  assert (HA : acc_depends (st_pb ACCELERATION) [1; 1/2] ta).
  { destruct st_apart as (y0 & cv0 & a0 & a1 & H1 & H2 & H3 & H4). exists (0, 0%Z), st_x, y0, st_cv, cv0, a0, a1.
    split; [exact (starts_at_0 ta Et)|]. split; [apply st_curve|]. repeat (split; [assumption|]). assumption. }
  destruct (C51_acceleration_step true false exact_solver no_lp exact_solves (st_pb ACCELERATION) [1; 1/2] (V3 0 0 (-981/100)) (st_wp _) (st_same _) ltac:(cbn; tauto) (1/5) st_x st_cv ta ltac:(lra) eq_refl
    Et HA (st_curve _) (st_feasible _ _)) as (r & _ & _ & _ & E & S & _).
  exists r. split; assumption.
Qed.
Example ex_C36_plan : exists r xs, solveEndEffector false exact_solver no_lp (repeat 0) jk_pb jk_path 1 (1 / 2) = Ok r /\ rc_success r = true /\
  length xs = 1%nat /\ eff_curve jk_pb 1 xs = Ok (rc_c r).
Proof.
  destruct (C36_plan jk_pb jk_path (fun _ => vzero) 1 jk_in Rlt_0_1 (fun _ _ => eq_refl)) as (a & b & _ & _ & H).
  destruct jk_sat as (pi & M & Hc & HM & HS).
  destruct (H false exact_solver no_lp (repeat 0) (1 / 2) pi M jk_xs exact_solves (fun n => repeat_length 0 n) ltac:(lra) Hc HM eq_refl HS) as (r & xs & E & S & L & _ & C & _).
  exists r, xs. repeat (split; [assumption|]). assumption.
Qed.
