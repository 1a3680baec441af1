(** Concrete inputs for the theorems of PropertiesEffMove.v. *)
From Coq Require Import List Reals Lia Lra.
From Verif Require Import Vec SpecBezier ModelData ModelDispatch ModelSolver ModelTraj ModelEff SpecCom SpecSolver SpecTraj Spec0Step SpecEff SpecEffMove
  ProofCurve ProofSolves ProofEff2 PropertiesEff PropertiesEffMove ExamplesTraj ExamplesEff ExamplesEffBest ExamplesEnd4.
Import ListNotations.
Open Scope R_scope.

(** The step of ExamplesEnd4.v along a line, and the same step a hundred kilometres away and one kilometre up. *)
Definition line_path (s : R) : outcome vec3 := Ok (V3 s 0 0).
Lemma jk_plan : exists r, solveEndEffector false exact_solver no_lp (repeat 0) jk_pb line_path 1 1 = Ok r /\ rc_success r = true.
Proof.
  destruct jk_sat as (pi & M & Hc & HM & HS).
  destruct (C36_plan jk_pb line_path (fun s => V3 s 0 0) 1 jk_in Rlt_0_1 (fun _ _ => eq_refl)) as (a & b & _ & _ & HP).
  destruct (HP false exact_solver no_lp (repeat 0) 1 pi M jk_xs exact_solves (fun n => repeat_length 0 n) ltac:(lra) Hc HM eq_refl HS) as (r & _ & E & S & _).
  exists r. split; assumption.
Qed.
Definition away_pb : problem :=
  Problem [] (V3 100000 0 1000) vzero vzero vzero (V3 100001 0 1000) vzero vzero vzero vzero false (Constraints F_jerk false 0 0) 0 0.
Example ex_C109_one : exists r r', solveEndEffector false exact_solver no_lp (repeat 0) jk_pb line_path 1 1 = Ok r /\ rc_success r = true /\
  solveEndEffector false exact_solver no_lp (repeat 0) away_pb (fun s => Ok (V3 (s + 100000) 0 1000)) 1 1 = Ok r' /\ rc_success r' = true /\
  forall t, cv_fun (rc_c r') t = vadd (cv_fun (rc_c r) t) (V3 100000 0 1000).
Proof.
  destruct jk_plan as (r & E & S).
  destruct (C109_one (V3 100000 0 1000) jk_pb away_pb 1 eq_refl ltac:(repeat split; apply v3_eq; cbn; ring) Rlt_0_1
    line_path (fun s => Ok (V3 (s + 100000) 0 1000)) (fun s => V3 s 0 0) (fun _ _ => eq_refl)
    ltac:(intros s _; cbv beta; f_equal; apply v3_eq; cbn; ring) false exact_solver no_lp (repeat 0) r false exact_solver no_lp (repeat 0)
    exact_solves exact_sound exact_solves (fun n => repeat_length 0 n) (fun n => repeat_length 0 n) E S) as (r' & E' & S' & HC).
  exists r, r'. auto.
Qed.
(** The step of ExamplesEff.v has a plan, so its start is at most 1112 from the origin in every coordinate. *)
Example ex_C109_more : within (10000 * (1 / 10 + 1 * 1 / 90)) (c0 x3_pb).
Proof.
  destruct (st3_plan 1 ltac:(lra)) as (r & E & S).
  pose proof (C109_more false exact_solver no_lp (repeat 0) x3_pb st3_path 1 1 r exact_sound (fun n => repeat_length 0 n) (or_introl eq_refl) Rlt_0_1 ltac:(lra) E S) as W.
  unfold eff_degree in W. simpl Z.eqb in W. cbv iota zeta in W. replace (10 * (10 - 1)) with 90 in W by ring.
  replace (c0 x3_pb) with (vadd (vadd (c0 x3_pb) (vscal (2 * 1 / 10) (dc0 x3_pb))) (vscal (1 * 1 / 90) (ddc0 x3_pb))); [exact W|].
  apply v3_eq; cbn; ring.
Qed.
