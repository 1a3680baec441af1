(** Concrete inputs for the theorems of Properties0Move.v. *)
From Coq Require Import List Reals Lra Lia ZArith.
From Verif Require Import Vec SpecBezier ModelData ModelDispatch ModelCont ModelSolver ModelTraj Model0Step
  SpecCom SpecCtr SpecTraj SpecMove Spec0Step Spec0Best Spec0Move ProofSolves Proof0Step2 Proof0Step3 Proof0Best Properties0Move ProofMove2
  ExamplesTraj Examples0Step Examples0Best ExamplesMove.
Import ListNotations.
Open Scope R_scope.

(** A plan with angular momentum, and the same in a turned world. *)
Example ex_C102_turn : exists r r', solve0step false exact_solver no_lp z_pb [1] (1/4) = Ok r /\ r0_success r = true /\
  solve0step false exact_solver no_lp (move ax_Q vzero z_pb) [1] (1/4) = Ok r' /\ r0_success r' = true.
Proof.
  destruct (z_found z_pb [1] z_ct up_ph 1 z_pb_posed (1/4) z_x z_xL false exact_solver no_lp exact_solves zs4 (zf _)) as (x & xL & r & _ & E & HP & _).
  destruct (C102_plan ax_Q vzero ax_rotation z_pb [1] z_ct up_ph 1 z_pb_posed (or_introl eq_refl) (1/4) r false exact_solver no_lp exact_solves exact_sound zs4 E (proj1 HP))
    as (r' & x' & xL' & E' & _ & HP' & _).
  exists r, r'. split; [exact E|]. split; [apply HP|]. split; [exact E'|apply HP'].
Qed.
(** Without angular momentum the world can also be shifted. *)
Definition zm_ct : contact := up_ct [V3 1 0 0; V3 0 1 0] [1; 1] [V3 0 0 1] [2].
Definition zm_pb : problem := up_pb false zm_ct (V3 1 0 0) vzero.
Lemma zm_posed : z_posed zm_pb [1] zm_ct up_ph 1.
Proof. apply up_posed. cbn; lia. Qed.
Lemma zm_feasible dt : z_feasible zm_pb zm_ct up_ph 1 dt z_x vzero.
Proof.
  split; [apply up_ok|]. intros [|[|i]] K k HK Hk; [| |destruct i; discriminate HK]; injection HK as <-; injection Hk as <-; unfold vdot; cbn; lra.
Qed.
Example ex_C102_shift : exists r r', solve0step false exact_solver no_lp zm_pb [1] (1/4) = Ok r /\ r0_success r = true /\
  solve0step false exact_solver no_lp (move ax_Q (V3 3 4 5) zm_pb) [1] (1/4) = Ok r' /\
  forall t, cv_fun (r0_c r') t = place ax_Q (V3 3 4 5) (cv_fun (r0_c r) t).
Proof.
  destruct (z_found zm_pb [1] zm_ct up_ph 1 zm_posed (1/4) z_x vzero false exact_solver no_lp exact_solves zs4 (zm_feasible _)) as (x & xL & r & _ & E & HP & _).
  destruct (C102_plan ax_Q (V3 3 4 5) ax_rotation zm_pb [1] zm_ct up_ph 1 zm_posed (or_intror (or_introl eq_refl)) (1/4) r false exact_solver no_lp exact_solves exact_sound zs4 E (proj1 HP))
    as (r' & x' & xL' & E' & _ & HP' & _ & M & _).
  exists r, r'. split; [exact E|]. split; [apply HP|]. split; [exact E'|exact M].
Qed.
