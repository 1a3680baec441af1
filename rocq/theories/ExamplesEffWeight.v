(** Concrete inputs for the theorems of PropertiesEffWeight.v. *)
From Coq Require Import List Reals Lia Lra.
From Verif Require Import Vec SpecBezier ModelData ModelDispatch ModelSolver ModelTraj ModelEff SpecCom SpecSolver SpecTraj Spec0Step SpecEff
  ProofSolves ProofEff2 PropertiesEff PropertiesEffWeight ExamplesTraj ExamplesEff ExamplesEffBest.
Import ListNotations.
Open Scope R_scope.

(** The step of ExamplesEff.v with weights 1/4 and 3/4. *)
Example ex_C110 : exists r r', solveEndEffector false exact_solver no_lp (repeat 0) x3_pb st3_path 1 (1 / 4) = Ok r /\ rc_success r = true /\
  solveEndEffector false exact_solver no_lp (repeat 0) x3_pb st3_path 1 (3 / 4) = Ok r' /\ rc_success r' = true /\
  path_gap 50 x3_pb 1 (rc_c r') (fun i => V3 (INR i * (1 / (INR 50 - 1))) 0 0) <= path_gap 50 x3_pb 1 (rc_c r) (fun i => V3 (INR i * (1 / (INR 50 - 1))) 0 0) /\
  forall B i j, Forall (within B) (bc_pts (rc_c r)) -> Forall (within B) (bc_pts (rc_c r')) -> speed_integral (rc_c r) 1 i -> speed_integral (rc_c r') 1 j ->
    i <= j + 6 * velocity_eps F_x3 * (B * B) / ((2 * 10 - 1) * 1).
Proof.
  destruct (st3_plan (1 / 4) ltac:(lra)) as (r & E & S).
  destruct (C110_found x3_pb st3_path (fun s => V3 s 0 0) 1 st3_in Rlt_0_1 (fun _ _ => eq_refl) (1 / 4) (3 / 4) false exact_solver no_lp (repeat 0) r false exact_solver no_lp (repeat 0)
    ltac:(lra) ltac:(lra) exact_solves exact_sound exact_solves (fun n => repeat_length 0 n) (fun n => repeat_length 0 n) E S) as (r' & E' & S').
  exists r, r'. do 4 (split; [assumption|]). split.
  - exact (C110_path x3_pb st3_path (fun s => V3 s 0 0) 1 st3_in Rlt_0_1 (fun _ _ => eq_refl) (1 / 4) (3 / 4) false exact_solver no_lp (repeat 0) r false exact_solver no_lp (repeat 0) r'
      ltac:(lra) ltac:(lra) ltac:(lra) exact_solves exact_sound exact_solves exact_sound (fun n => repeat_length 0 n) (fun n => repeat_length 0 n) E S E' S').
  - intros B i j FB FB' Hi Hj.
    exact (C110_speed x3_pb st3_path (fun s => V3 s 0 0) 1 st3_in Rlt_0_1 (fun _ _ => eq_refl) (1 / 4) (3 / 4) false exact_solver no_lp (repeat 0) r false exact_solver no_lp (repeat 0) r' B i j
      ltac:(lra) ltac:(lra) ltac:(lra) exact_solves exact_sound exact_solves exact_sound (fun n => repeat_length 0 n) (fun n => repeat_length 0 n) E S E' S' FB FB' Hi Hj).
Qed.

(** Weight -3 for the step of ExamplesEff.v. *)
Example ex_C110_negative : exists r, solveEndEffector false exact_solver no_lp (repeat 0) x3_pb st3_path 1 0 = Ok r /\ rc_success r = true /\
  solveEndEffector false exact_solver no_lp (repeat 0) x3_pb st3_path 1 (-3) = Ok r.
Proof.
  destruct (st3_plan 0 ltac:(lra)) as (r & E & S). exists r. split; [exact E|]. split; [exact S|].
  exact (C110_negative x3_pb st3_path 1 (-3) _ _ _ _ r _ _ _ _ st3_in ltac:(lra) ltac:(lra) exact_solves exact_sound exact_solves (fun k => repeat_length 0 k) (fun k => repeat_length 0 k) E S).
Qed.
