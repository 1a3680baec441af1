(** Concrete inputs for the theorems of PropertiesEffAxis.v. *)
From Coq Require Import Lia Lra.
From Verif Require Import Vec SpecBezier ModelData ModelDispatch ModelCont ModelSolver ModelTraj ModelEff
  SpecCom SpecWp SpecSolver SpecTraj Spec0Step SpecEff SpecEffAxis ProofCurve ProofWaypoints ProofSolver ProofTraj ProofTraj2 ProofSolves Proof0Step2
  ProofEff ProofEff2 ProofEff3 ProofEff4 ProofEff5 ProofEff7 ProofEff14 ProofEff15 PropertiesEff PropertiesEffAxis ExamplesTraj ExamplesEff ExamplesEffBest.
Open Scope R_scope.

(** A step to the side, from (0,0,0) to (0,1,0), beside the step forward of ExamplesEff.v. *)
Definition side_pb : problem :=
  Problem [] vzero vzero vzero vzero (V3 0 1 0) vzero vzero vzero vzero false (Constraints F_x3 false 0 0) 0 0.
Definition side_xs : list vec3 := [V3 0 (1 / 4) (1 / 2); V3 0 (1 / 2) (1 / 2); V3 0 (3 / 4) (1 / 2)].
Definition side_pts : list vec3 := [vzero; vzero; vzero; vzero] ++ side_xs ++ [V3 0 1 0; V3 0 1 0; V3 0 1 0; V3 0 1 0].
Definition side_path (s : R) : outcome vec3 := Ok (V3 0 s 0).
Lemma side_in : In (flag_of side_pb) effector_flags.
Proof. cbn; tauto. Qed.
Lemma side_shape : exists pi, eff_shape side_pb 1 side_xs pi side_pts /\ computeConstantWaypoints side_pb 1 = Ok pi.
Proof.
  destruct (eff_shape_total side_pb 1 side_xs side_in eq_refl) as (pi & pts & Hc & Hs).
  exists pi. split; [|exact Hc]. replace side_pts with pts; [exact Hs|].
  inversion Hs as [? ? ? ? ? ? ? ? ? ? ? E Hcc Hp|? ? ? ? ? ? ? ? ? ? ? ? ? ? ? E Hcc Hp|? ? ? ? ? ? ? ? ? ? ? ? ? ? E Hcc Hp]; subst.
  injection Hcc; intros; subst; clear. unfold side_pts, side_xs. cbn [app].
  repeat (apply f_equal2; [try reflexivity; apply v3_eq; unfold vzero; ecbn; field|]). reflexivity.
Qed.
Lemma side_sat : exists pi M, computeConstantWaypoints side_pb 1 = Ok pi /\ computeEndEffectorConstraints side_pb 1 pi = Ok M /\
  satX M (flat side_xs).
Proof.
  destruct side_shape as (pi & Hs & Hc).
  destruct (eff_constraints side_pb 1 _ pi _ R1_neq_R0 Hs) as (wa & wv & wj & M & Ha & Hv & Hj & Hb & HM & HC).
  exists pi, M. split; [exact Hc|]. split; [exact HM|].
  destruct (C34_exact side_pb wa wv eff_bounds eff_bounds wj eff_bounds Hb) as (M' & HC' & _ & _ & HX). rewrite HC in HC'. injection HC' as <-.
  apply (HX side_xs); [reflexivity|].
  assert (G : forall ws P, at_free side_xs ws = P -> Forall (fun v => le3 (vopp eff_bounds) v /\ le3 v eff_bounds) P ->
    Forall (bounded (vopp eff_bounds) eff_bounds side_xs) ws).
  { intros ws P <- F. unfold at_free in F. rewrite Forall_map in F. eapply Forall_impl; [|exact F]. cbv beta. intros w F1 _. exact F1. }
  destruct (vel_points side_pb 1 _ _ _ R1_neq_R0 Hs) as (wv' & Hv' & Pv). rewrite Hv in Hv'. injection Hv' as <-.
  destruct (jerk_points side_pb 1 _ _ _ R1_neq_R0 Hs) as (wj' & Hj' & Pj). rewrite Hj in Hj'. injection Hj' as <-.
  destruct (acc_points side_pb 1 _ _ _ R1_neq_R0 Hs) as (wa' & Ha' & Pa). rewrite Ha in Ha'. injection Ha' as <-.
  split; [|split; [|split]].
  - apply (G _ _ Pa). unfold acc_errs. simpl Z.eqb. cbv iota. unfold side_pts, side_xs. cbn [app]. hodo_vals. cbn [repeat_at shift_at firstn skipn app nth].
    repeat apply Forall_cons; try apply Forall_nil; unfold le3, eff_bounds, vzero; vcbn; lra.
  - apply (G _ _ Pv). unfold side_pts, side_xs. cbn [app]. hodo_vals.
    repeat apply Forall_cons; try apply Forall_nil; unfold le3, eff_bounds, vzero; vcbn; lra.
  - apply (G _ _ Pj). unfold side_pts, side_xs. cbn [app]. hodo_vals.
    repeat apply Forall_cons; try apply Forall_nil; unfold le3, eff_bounds, vzero; vcbn; lra.
  - unfold side_xs. cbn [side_pb c0 c1 vzero vz]. rewrite Rmin_left by lra. repeat apply Forall_cons; try apply Forall_nil; cbn [vz]; lra.
Qed.
Lemma side_plan : exists r, solveEndEffector false exact_solver no_lp (repeat 0) side_pb side_path 1 (1 / 2) = Ok r /\ rc_success r = true.
Proof.
  destruct side_sat as (pi & M & Hc & HM & HS).
  destruct (C36_plan side_pb side_path (fun s => V3 0 s 0) 1 side_in Rlt_0_1 (fun _ _ => eq_refl)) as (a & b & _ & _ & HP).
  destruct (HP false exact_solver no_lp (repeat 0) (1 / 2) pi M side_xs exact_solves (fun n => repeat_length 0 n) ltac:(lra) Hc HM eq_refl HS) as (r & _ & E & S & _).
  exists r. split; assumption.
Qed.
(** The step forward and the step to the side rise in the same way. *)
Example ex_C107_axis : exists r r', solveEndEffector false exact_solver no_lp (repeat 0) x3_pb st3_path 1 (1 / 2) = Ok r /\ rc_success r = true /\
  solveEndEffector false exact_solver no_lp (repeat 0) side_pb side_path 1 (1 / 2) = Ok r' /\ rc_success r' = true /\
  (forall t, vz (cv_fun (rc_c r) t) = vz (cv_fun (rc_c r') t)).
Proof.
  destruct (st3_plan (1 / 2) ltac:(lra)) as (r & E & S). destruct side_plan as (r' & E' & S').
  exists r, r'. do 4 (split; [assumption|]).
  apply (C107_axis vz x3_pb side_pb st3_path side_path (fun s => V3 s 0 0) (fun s => V3 0 s 0) 1 (1 / 2)) with (wg := false) (quadprog := exact_solver) (glpk := no_lp) (init := repeat 0)
    (wg' := false) (quadprog' := exact_solver) (glpk' := no_lp) (init' := repeat 0);
    try reflexivity; try assumption; try (cbn; tauto); try lra; try exact exact_solves; try exact exact_sound; intros; try reflexivity; apply repeat_length.
Qed.
(** Put together they are a diagonal step. *)
Definition diagonal_pb : problem :=
  Problem [] vzero vzero vzero vzero (V3 1 1 0) vzero vzero vzero vzero false (Constraints F_x3 false 0 0) 0 0.
Example ex_C107_combine : exists r rp rq, solveEndEffector false exact_solver no_lp (repeat 0) diagonal_pb (fun s => Ok (V3 s s 0)) 1 (1 / 2) = Ok r /\
  rc_success r = true /\ solveEndEffector false exact_solver no_lp (repeat 0) x3_pb st3_path 1 (1 / 2) = Ok rp /\
  solveEndEffector false exact_solver no_lp (repeat 0) side_pb side_path 1 (1 / 2) = Ok rq /\
  forall t, combines (cv_fun (rc_c r) t) (cv_fun (rc_c rp) t) (cv_fun (rc_c rq) t) (cv_fun (rc_c rp) t).
Proof.
  destruct (st3_plan (1 / 2) ltac:(lra)) as (rp & E & S). destruct side_plan as (rq & E' & S').
  destruct (C107_combine diagonal_pb x3_pb side_pb x3_pb (fun s => Ok (V3 s s 0)) st3_path side_path st3_path
    (fun s => V3 s s 0) (fun s => V3 s 0 0) (fun s => V3 0 s 0) (fun s => V3 s 0 0) 1 (1 / 2)) with
    (wg := false) (quadprog := exact_solver) (glpk := no_lp) (init := repeat 0) (rp := rp) (rq := rq) (ro := rp) as (r & ER & SR & HC);
    try reflexivity; try assumption; try (cbn; tauto); try lra; try exact exact_solves; try exact exact_sound; try (intros; apply repeat_length).
  { repeat split; reflexivity. } { intros s _. repeat split; reflexivity. }
  exists r, rp, rq. auto.
Qed.
