(** Concrete inputs for the theorems of PropertiesCut.v. *)
From Coq Require Import List Reals Lra Lia.
From Verif Require Import Vec SpecBezier SpecTime ModelData ModelDispatch ModelUtils ModelCont ModelSolver ModelTraj
  SpecCom SpecCtr SpecTraj SpecEnd SpecBest SpecCut ProofSolves PropertiesCut ExamplesCom ExamplesTraj ExamplesSolves ExamplesBest.
Import ListNotations.
Open Scope R_scope.

(** the first of two phases cut at the third sample *)
Example ex_C95 : exists r, call true false exact_solver no_lp (st_pb DISTANCE_TRAVELED) [1; 1/2] (Every (1/5)) = Ok r /\ rc_success r = true /\
  call true false exact_solver no_lp (cut 0 (st_pb DISTANCE_TRAVELED)) [2/5; 1 - 2/5; 1/2] (Every (1/5)) = Ok r /\
  length (contacts (cut 0 (st_pb DISTANCE_TRAVELED))) = 3%nat.
Proof.
  destruct (proj1 ex_C51_distance) as (r & E & S). exists r. split; [exact E|]. split; [exact S|]. split; [|reflexivity].
  refine (proj1 (C95_cut (st_pb DISTANCE_TRAVELED) [1; 1/2] 0 1 (2/5) 2 (1/5) (st_plannable _) eq_refl ltac:(lra) ltac:(cbn; lra) ltac:(lra) eq_refl
    true false exact_solver no_lp exact_solves exact_sound no_lp_sound r S) E).
Qed.
