(** Property theorems C110: what the weight of the path does in solveEndEffector.
    Vocabulary: SpecEff.v, SpecTraj.v. *)
From Coq Require Import List Reals.
From Verif Require Import Vec SpecBezier ModelData ModelDispatch ModelSolver ModelTraj ModelEff SpecCom SpecSolver SpecTraj Spec0Step SpecEff ProofEffWeight ProofEffWeight2 ProofEffWeight3.
Import ListNotations.
Open Scope R_scope.

(** C110: whether there is a plan does not depend on the weight. *)
Theorem C110_found : forall p path (f : R -> vec3) T,
  In (flag_of p) effector_flags -> 0 < T -> (forall s, 0 <= s <= 1 -> path s = Ok (f s)) ->
  forall w w' wg quadprog glpk init r wg' quadprog' glpk' init', 0 <= w <= 1 -> 0 <= w' <= 1 ->
  qp_solves quadprog -> qp_sound quadprog -> qp_solves quadprog' -> (forall k, length (init k) = k) -> (forall k, length (init' k) = k) ->
  solveEndEffector wg quadprog glpk init p path T w = Ok r -> rc_success r = true ->
  exists r', solveEndEffector wg' quadprog' glpk' init' p path T w' = Ok r' /\ rc_success r' = true.
Proof. exact c110_found. Qed.
Print Assumptions C110_found.

(** A larger weight never takes the plan away from the path ... *)
Theorem C110_path : forall p path (f : R -> vec3) T,
  In (flag_of p) effector_flags -> 0 < T -> (forall s, 0 <= s <= 1 -> path s = Ok (f s)) ->
  forall w w' wg quadprog glpk init r wg' quadprog' glpk' init' r', 0 <= w -> w < w' -> w' <= 1 ->
  qp_solves quadprog -> qp_sound quadprog -> qp_solves quadprog' -> qp_sound quadprog' -> (forall k, length (init k) = k) -> (forall k, length (init' k) = k) ->
  solveEndEffector wg quadprog glpk init p path T w = Ok r -> rc_success r = true ->
  solveEndEffector wg' quadprog' glpk' init' p path T w' = Ok r' -> rc_success r' = true ->
  path_gap 50 p T (rc_c r') (fun i => f (INR i * (1 / (INR 50 - 1)))) <= path_gap 50 p T (rc_c r) (fun i => f (INR i * (1 / (INR 50 - 1)))).
Proof. exact c110_path. Qed.
Print Assumptions C110_path.

(** ... and never makes it smoother, up to the error of the decimal constants of the velocity cost. *)
Theorem C110_speed : forall p path (f : R -> vec3) T,
  In (flag_of p) effector_flags -> 0 < T -> (forall s, 0 <= s <= 1 -> path s = Ok (f s)) ->
  forall w w' wg quadprog glpk init r wg' quadprog' glpk' init' r' B i j, 0 <= w -> w < w' -> w' <= 1 ->
  qp_solves quadprog -> qp_sound quadprog -> qp_solves quadprog' -> qp_sound quadprog' -> (forall k, length (init k) = k) -> (forall k, length (init' k) = k) ->
  solveEndEffector wg quadprog glpk init p path T w = Ok r -> rc_success r = true ->
  solveEndEffector wg' quadprog' glpk' init' p path T w' = Ok r' -> rc_success r' = true ->
  Forall (within B) (bc_pts (rc_c r)) -> Forall (within B) (bc_pts (rc_c r')) -> speed_integral (rc_c r) T i -> speed_integral (rc_c r') T j ->
  i <= j + 6 * velocity_eps (flag_of p) * (B * B) / ((2 * eff_degree (flag_of p) - 1) * T).
Proof. exact c110_speed. Qed.
Print Assumptions C110_speed.

(** C110: a negative weight gives the plan of weight 0. *)
Theorem C110_negative : forall p path T w wg quadprog glpk init r wg' quadprog' glpk' init',
  In (flag_of p) effector_flags -> 0 < T -> w <= 0 ->
  qp_solves quadprog -> qp_sound quadprog -> qp_solves quadprog' -> (forall k, length (init k) = k) -> (forall k, length (init' k) = k) ->
  solveEndEffector wg quadprog glpk init p path T 0 = Ok r -> rc_success r = true ->
  solveEndEffector wg' quadprog' glpk' init' p path T w = Ok r.
Proof. exact c110_negative. Qed.
Print Assumptions C110_negative.
