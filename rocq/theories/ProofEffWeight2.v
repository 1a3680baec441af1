(** The first half of [trade] of ProofEffWeight.v. *)
From Coq Require Import List Reals.
From Verif Require Import Vec SpecBezier ModelData ModelDispatch ModelSolver ModelTraj ModelEff SpecCom SpecSolver SpecTraj Spec0Step SpecEff ProofEffWeight.
Import ListNotations.
Open Scope R_scope.

Lemma c110_path : forall p path (f : R -> vec3) T,
  In (flag_of p) effector_flags -> 0 < T -> (forall s, 0 <= s <= 1 -> path s = Ok (f s)) ->
  forall w w' wg quadprog glpk init r wg' quadprog' glpk' init' r', 0 <= w -> w < w' -> w' <= 1 ->
  qp_solves quadprog -> qp_sound quadprog -> qp_solves quadprog' -> qp_sound quadprog' -> (forall k, length (init k) = k) -> (forall k, length (init' k) = k) ->
  solveEndEffector wg quadprog glpk init p path T w = Ok r -> rc_success r = true ->
  solveEndEffector wg' quadprog' glpk' init' p path T w' = Ok r' -> rc_success r' = true ->
  path_gap 50 p T (rc_c r') (fun i => f (INR i * (1 / (INR 50 - 1)))) <= path_gap 50 p T (rc_c r) (fun i => f (INR i * (1 / (INR 50 - 1)))).
Proof.
  intros p path f T Hin HT Hp w w' wg quadprog glpk init r wg' quadprog' glpk' init' r' W0 WW W1 Q1 Q2 Q3 Q4 I1 I2 E S E' S'.
  exact (proj1 (trade p path f T Hin HT Hp w w' wg quadprog glpk init r wg' quadprog' glpk' init' r' W0 WW W1 Q1 Q2 Q3 Q4 I1 I2 E S E' S')).
Qed.
