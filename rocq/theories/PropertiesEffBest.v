(** Property theorems C105: a plan of solveEndEffector is determined by the problem, whatever the solver, the
    uninitialised memory and the path between its samples.  Vocabulary: SpecEff.v, SpecTraj.v. *)
From Coq Require Import List Reals.
From Verif Require Import Vec SpecBezier ModelData ModelDispatch ModelSolver ModelTraj ModelEff SpecCom SpecSolver SpecTraj Spec0Step SpecEff ProofEffBest.
Import ListNotations.
Open Scope R_scope.

(** C105: two back ends that solve strictly convex problems, with any LP solver behind them and any content of
    the uninitialised start vector, return the same plan, down to every field of the result. *)
Theorem C105_back_ends : forall pData path (p : R -> vec3) T wd,
  In (flag_of pData) effector_flags -> 0 < T -> (forall s, 0 <= s <= 1 -> path s = Ok (p s)) -> 0 <= wd <= 1 ->
  forall wg quadprog glpk init r wg' quadprog' glpk' init',
  qp_solves quadprog -> qp_sound quadprog -> qp_solves quadprog' ->
  (forall k, length (init k) = k) -> (forall k, length (init' k) = k) ->
  solveEndEffector wg quadprog glpk init pData path T wd = Ok r -> rc_success r = true ->
  solveEndEffector wg' quadprog' glpk' init' pData path T wd = Ok r.
Proof. exact c105_back_ends. Qed.
Print Assumptions C105_back_ends.
(** The path counts only at 50 equally spaced points, and if its weight is not positive not at all, not even if it
    fails. *)
Theorem C105_path : forall pData (path path' : R -> outcome vec3) T wd wg quadprog glpk init,
  (0 < wd -> forall k, (k < 50)%nat -> path (INR k * (1 / (INR 50 - 1))) = path' (INR k * (1 / (INR 50 - 1)))) ->
  solveEndEffector wg quadprog glpk init pData path T wd = solveEndEffector wg quadprog glpk init pData path' T wd.
Proof. exact c105_path. Qed.
Print Assumptions C105_path.
