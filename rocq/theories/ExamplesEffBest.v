(** Concrete inputs for the theorems of PropertiesEffBest.v. *)
From Coq Require Import List Reals ZArith Lia Lra.
From Verif Require Import Vec SpecBezier ModelData ModelDispatch ModelSolver ModelTraj ModelEff SpecCom SpecSolver SpecTraj Spec0Step SpecEff
  ProofSolves ProofEff2 PropertiesEff PropertiesEffBest ExamplesTraj ExamplesEff ExamplesMix.
Import ListNotations.
Open Scope R_scope.

(** The step of three free points of ExamplesEff.v. *)
Lemma st3_plan wd : 0 <= wd <= 1 -> exists r, solveEndEffector false exact_solver no_lp (repeat 0) x3_pb st3_path 1 wd = Ok r /\ rc_success r = true.
Proof.
  intros Hw. destruct st3_sat as (pi & M & Hc & HM & HS).
  destruct (C36_plan x3_pb st3_path (fun s => V3 s 0 0) 1 st3_in Rlt_0_1 (fun _ _ => eq_refl)) as (a & b & _ & _ & HP).
  destruct (HP false exact_solver no_lp (repeat 0) wd pi M st3_xs exact_solves (fun n => repeat_length 0 n) Hw Hc HM eq_refl HS) as (r & _ & E & S & _).
  exists r. split; assumption.
Qed.
(** Another solver and other memory. *)
Example ex_C105_back_ends : exists r, solveEndEffector false exact_solver no_lp (repeat 0) x3_pb st3_path 1 (1 / 2) = Ok r /\ rc_success r = true /\
  solveEndEffector true other_solver no_lp (repeat 7) x3_pb st3_path 1 (1 / 2) = Ok r.
Proof.
  destruct (st3_plan (1 / 2) ltac:(lra)) as (r & E & S). exists r. split; [exact E|]. split; [exact S|].
  exact (C105_back_ends x3_pb st3_path (fun s => V3 s 0 0) 1 (1 / 2) st3_in Rlt_0_1 (fun _ _ => eq_refl) ltac:(lra) _ _ _ _ r _ _ _ _
    exact_solves exact_sound other_solves (fun n => repeat_length 0 n) (fun n => repeat_length 7 n) E S).
Qed.
(** A path that leaves the line between the first two samples, and one that fails everywhere. *)
Definition bump_path (s : R) : outcome vec3 := Ok (V3 s 0 (if Req_EM_T s (1 / 100) then 1 else 0)).
Example ex_C105_path : exists r, solveEndEffector false exact_solver no_lp (repeat 0) x3_pb st3_path 1 (1 / 2) = Ok r /\ rc_success r = true /\
  solveEndEffector false exact_solver no_lp (repeat 0) x3_pb bump_path 1 (1 / 2) = Ok r /\ bump_path (1 / 100) <> st3_path (1 / 100).
Proof.
  destruct (st3_plan (1 / 2) ltac:(lra)) as (r & E & S). exists r. split; [exact E|]. split; [exact S|]. split.
  - rewrite <- E. apply C105_path. intros _ k _. unfold bump_path, st3_path.
    destruct (Req_EM_T (INR k * (1 / (INR 50 - 1))) (1 / 100)) as [Z|]; [exfalso|reflexivity].
    replace (INR 50) with 50 in Z by (rewrite INR_IZR_INZ; reflexivity).
    rewrite INR_IZR_INZ in Z. assert (Z1 : IZR (100 * Z.of_nat k) = IZR 49) by (rewrite mult_IZR; lra). apply eq_IZR in Z1. lia.
  - unfold bump_path, st3_path. destruct (Req_EM_T (1 / 100) (1 / 100)) as [_|N]; [|congruence]. intros Z. injection Z. lra.
Qed.
Example ex_C105_unused : exists r, solveEndEffector false exact_solver no_lp (repeat 0) x3_pb (fun _ => UB) 1 0 = Ok r /\ rc_success r = true.
Proof.
  destruct (st3_plan 0 ltac:(lra)) as (r & E & S). exists r. split; [|exact S]. rewrite <- E. apply C105_path. intros Z. lra.
Qed.
