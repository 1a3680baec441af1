(** The step of ExamplesEff.v moved by two kilometres. *)
From Coq Require Import List Lia Lra.
From Verif Require Import Vec SpecBezier ModelData ModelDispatch ModelSolver ModelTraj ModelEff
  SpecCom SpecSolver SpecTraj Spec0Step SpecEff SpecEffMove ProofCurve ProofSolves ProofEff2 ProofEffMove2 ExamplesTraj ExamplesEff ExamplesEffBest.
Import ListNotations.
Open Scope R_scope.

Definition far_pb : problem :=
  Problem [] (V3 2000 0 0) vzero vzero vzero (V3 2001 0 0) vzero vzero vzero vzero false (Constraints F_x3 false 0 0) 0 0.
Lemma c109_refuted : exists p q v path, flag_of p = F_x3 /\ moved_by v p q /\
  (exists quadprog glpk init r, qp_solves quadprog /\ qp_sound quadprog /\ solveEndEffector false quadprog glpk init p path 1 1 = Ok r /\ rc_success r = true) /\
  forall wg quadprog glpk init path' wd r, qp_sound quadprog -> (forall k, length (init k) = k) ->
    solveEndEffector wg quadprog glpk init q path' 1 wd = Ok r -> rc_success r = false.
Proof.
  exists x3_pb, far_pb, (V3 2000 0 0), st3_path. split; [reflexivity|]. split; [repeat split; apply v3_eq; cbn; ring|]. split.
  - destruct (st3_plan 1 ltac:(lra)) as (r & E & S). exists exact_solver, no_lp, (repeat 0), r.
    split; [exact exact_solves|]. split; [exact exact_sound|]. split; assumption.
  - intros wg quadprog glpk init path' wd r QS HI E. destruct (rc_success r) eqn:S; [exfalso|reflexivity].
    pose proof (c109_more wg quadprog glpk init far_pb path' 1 wd r QS HI (or_introl eq_refl) Rlt_0_1 ltac:(lra) E S) as (W & _).
    unfold eff_degree in W. simpl Z.eqb in W. cbv iota in W. cbn [far_pb c0 dc0 ddc0 vadd vscal vzero vx] in W.
    assert (A := Rle_abs (2000 + 2 * 1 / 10 * 0 + 1 * 1 / (10 * (10 - 1)) * 0)). lra.
Qed.
