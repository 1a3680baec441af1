(** Concrete inputs for the theorem of PropertiesEffTurn.v. *)
From Coq Require Import Lia Lra.
From Verif Require Import Vec SpecBezier ModelData ModelDispatch ModelCont ModelSolver ModelTraj ModelEff
  SpecCom SpecWp SpecSolver SpecTraj Spec0Step SpecEff SpecEffTurn ProofCurve ProofWaypoints ProofSolver ProofTraj ProofTraj2 ProofSolves Proof0Step2
  ProofEff ProofEff2 PropertiesEffTurn ExamplesTraj ExamplesEff ExamplesEffBest ExamplesEffAxis.
Open Scope R_scope.

(** The step to the side of ExamplesEffAxis.v is the step forward of ExamplesEff.v turned by a quarter. *)
Example ex_C108_turn : exists r r', solveEndEffector false exact_solver no_lp (repeat 0) x3_pb st3_path 1 (1 / 2) = Ok r /\ rc_success r = true /\
  solveEndEffector false exact_solver no_lp (repeat 0) side_pb side_path 1 (1 / 2) = Ok r' /\ rc_success r' = true /\
  forall t, cv_fun (rc_c r') t = quarter_turn (cv_fun (rc_c r) t).
Proof.
  destruct (st3_plan (1 / 2) ltac:(lra)) as (r & E & S).
  destruct (C108_turn quarter_turn x3_pb side_pb st3_path side_path (fun s => V3 s 0 0) 1 (1 / 2)) with
    (wg := false) (quadprog := exact_solver) (glpk := no_lp) (init := repeat 0) (r := r)
    (wg' := false) (quadprog' := exact_solver) (glpk' := no_lp) (init' := repeat 0) as (r' & E' & S' & HC);
    try assumption; try (cbn; tauto); try lra; try exact exact_solves; try exact exact_sound; try (intros; apply repeat_length).
  - repeat split; apply v3_eq; cbn; ring.
  - intros s _. unfold side_path, quarter_turn. cbn [vx vy vz]. f_equal. apply v3_eq; cbn [vx vy vz]; ring.
  - exists r, r'. auto.
Qed.
(** A step backward is the reflected step forward. *)
Definition back_pb : problem :=
  Problem [] vzero vzero vzero vzero (V3 (-1) 0 0) vzero vzero vzero vzero false (Constraints F_x3 false 0 0) 0 0.
Example ex_C108_reflection : exists r r', solveEndEffector false exact_solver no_lp (repeat 0) x3_pb st3_path 1 (1 / 2) = Ok r /\ rc_success r = true /\
  solveEndEffector false exact_solver no_lp (repeat 0) back_pb (fun s => Ok (V3 (- s) 0 0)) 1 (1 / 2) = Ok r' /\ rc_success r' = true /\
  forall t, cv_fun (rc_c r') t = reflection (cv_fun (rc_c r) t).
Proof.
  destruct (st3_plan (1 / 2) ltac:(lra)) as (r & E & S).
  destruct (C108_turn reflection x3_pb back_pb st3_path (fun s => Ok (V3 (- s) 0 0)) (fun s => V3 s 0 0) 1 (1 / 2)) with
    (wg := false) (quadprog := exact_solver) (glpk := no_lp) (init := repeat 0) (r := r)
    (wg' := false) (quadprog' := exact_solver) (glpk' := no_lp) (init' := repeat 0) as (r' & E' & S' & HC);
    try assumption; try (cbn; tauto); try lra; try exact exact_solves; try exact exact_sound; try (intros; apply repeat_length).
  - repeat split; apply v3_eq; cbn; ring.
  - exists r, r'. auto.
Qed.
