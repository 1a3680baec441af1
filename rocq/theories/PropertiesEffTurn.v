(** Property theorem C108: solveEndEffector and quarter turns about the vertical axis, and reflections.
    Vocabulary: SpecEffTurn.v, SpecEff.v, SpecTraj.v. *)
From Coq Require Import List Reals.
From Verif Require Import Vec SpecBezier ModelData ModelDispatch ModelSolver ModelTraj ModelEff SpecCom SpecSolver SpecTraj Spec0Step SpecEff SpecEffTurn ProofEffTurn2.
Import ListNotations.
Open Scope R_scope.

(** C108: if a problem has a plan, the problem and path transformed by a quarter turn (or by the reflection) have a
    plan, which is the transformed curve at every time. *)
Theorem C108_turn : forall (g : vec3 -> vec3) p q path path' (f : R -> vec3) T wd, In g [quarter_turn; reflection] ->
  In (flag_of p) effector_flags -> transformed g p q -> 0 < T -> 0 <= wd <= 1 ->
  (forall s, 0 <= s <= 1 -> path s = Ok (f s)) -> (forall s, 0 <= s <= 1 -> path' s = Ok (g (f s))) ->
  forall wg quadprog glpk init r wg' quadprog' glpk' init',
  qp_solves quadprog -> qp_sound quadprog -> qp_solves quadprog' ->
  (forall k, length (init k) = k) -> (forall k, length (init' k) = k) ->
  solveEndEffector wg quadprog glpk init p path T wd = Ok r -> rc_success r = true ->
  exists r', solveEndEffector wg' quadprog' glpk' init' q path' T wd = Ok r' /\ rc_success r' = true /\
    forall t, cv_fun (rc_c r') t = g (cv_fun (rc_c r) t).
Proof. exact c108. Qed.
Print Assumptions C108_turn.
