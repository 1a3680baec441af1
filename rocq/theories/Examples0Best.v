(** Concrete inputs for the theorems of Properties0Best.v: the problem of Examples0Step.v. *)
From Coq Require Import List Reals Lra Lia ZArith.
From Verif Require Import Vec SpecBezier ModelData ModelDispatch ModelCont ModelSolver ModelTraj Model0Step
  SpecCom SpecCtr SpecTraj Spec0Step SpecMix Spec0Best ProofSolves Proof0Step2 Proof0Step3 Proof0Best Proof0Best2 Properties0Best
  ExamplesTraj ExamplesMix Examples0Step.
Import ListNotations.
Open Scope R_scope.

(** A plan at every instant, one with four steps, one with two; the same from two back ends. *)
Lemma zs0 : z_sampling 1 0. Proof. left; left; lra. Qed.
Lemma zs4 : z_sampling 1 (1/4). Proof. right. exists 4%nat. exact steps4. Qed.
Lemma steps2 : z_steps 1 (1/2) 2.
Proof. split; [lra|]. split; [|cbn; lia]. cbn. lra. Qed.
Lemma zs2 : z_sampling 1 (1/2). Proof. right. exists 2%nat. exact steps2. Qed.
Lemma zf dt : z_feasible z_pb z_ct up_ph 1 dt z_x z_xL.
Proof. split; [apply up_ok|exact z_pb_geom]. Qed.
Example ex_C100 : exists r x xL, solve0step false exact_solver no_lp z_pb [1] (1/4) = Ok r /\ solve0step true other_solver no_lp z_pb [1] (1/4) = Ok r /\
  z_plan z_pb 1 r x xL /\ z_least z_pb z_ct up_ph 1 (1/4) x xL.
Proof.
  destruct (z_found z_pb [1] z_ct up_ph 1 z_pb_posed (1/4) z_x z_xL false exact_solver no_lp exact_solves zs4 (zf _)) as (x & xL & r & _ & E & HP & L).
  exists r, x, xL. split; [exact E|]. split; [|split; assumption].
  refine (proj1 (C100_back_ends z_pb [1] z_ct up_ph 1 z_pb_posed (1/4) r false true exact_solver other_solver no_lp no_lp exact_solves exact_sound other_solves other_sound zs4 (proj1 HP)) E).
Qed.
Example ex_C101_refines : z_refines 1 0 (1/4) /\ z_refines 1 (1/4) (1/2).
Proof. split; [left; left; lra|]. right. exists 2%nat, 2%nat. split; [exact steps2|]. split; [lia|]. split; [lia|]. exact steps4. Qed.
Example ex_C101 : exists r r', solve0step false exact_solver no_lp z_pb [1] (1/4) = Ok r /\ r0_success r = true /\
  solve0step false exact_solver no_lp z_pb [1] (1/2) = Ok r' /\ r0_success r' = true.
Proof.
  destruct (z_found z_pb [1] z_ct up_ph 1 z_pb_posed (1/4) z_x z_xL false exact_solver no_lp exact_solves zs4 (zf _)) as (x & xL & r & _ & E & HP & _).
  destruct (C101_refined z_pb [1] z_ct up_ph 1 z_pb_posed (1/4) (1/2) r false exact_solver no_lp exact_solves exact_sound zs4 zs2 (proj2 ex_C101_refines) E (proj1 HP))
    as (_ & _ & r' & x' & xL' & _ & _ & _ & _ & E' & HP' & _).
  exists r, r'. split; [exact E|]. split; [apply HP|]. split; [exact E'|apply HP'].
Qed.
(** two feasible choices, and one in between *)
Example ex_C101_mix : z_feasible z_pb z_ct up_ph 1 0 (mixed (1/3) z_x (V3 0 1 0)) (mixed (1/3) z_xL vzero).
Proof.
  apply (C101_mix z_pb [1] z_ct up_ph 1 z_pb_posed 0 (1/3) z_x z_xL (V3 0 1 0) vzero zs0); [lra|apply zf|].
  split; [apply up_ok|]. intros j Hj. cbn in Hj. destruct j as [|[|[|j]]]; [| | |lia]; cbn -[Rplus Rmult Rdiv]; unfold vdot; cbn -[Rplus Rmult Rdiv]; lra.
Qed.
