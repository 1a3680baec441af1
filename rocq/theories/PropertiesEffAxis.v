(** Property theorems C107: solveEndEffector plans the three coordinates independently of each other.
    Vocabulary: SpecEffAxis.v, SpecEff.v, SpecTraj.v. *)
From Coq Require Import List Reals.
From Verif Require Import Vec SpecBezier ModelData ModelDispatch ModelSolver ModelTraj ModelEff SpecCom SpecSolver SpecTraj Spec0Step SpecEff SpecEffAxis ProofEffAxis4.
Import ListNotations.
Open Scope R_scope.

(** C107: [ax] is a coordinate; the two problems agree along it (start and end state, path) and may differ along
    the others and in everything else.  Then their plans agree along it at every time. *)
Theorem C107_axis : forall (ax : vec3 -> R) p q path path' (f f' : R -> vec3) T wd, In ax [vx; vy; vz] ->
  In (flag_of p) effector_flags -> flag_of q = flag_of p ->
  ax (c0 p) = ax (c0 q) -> ax (dc0 p) = ax (dc0 q) -> ax (ddc0 p) = ax (ddc0 q) -> ax (j0 p) = ax (j0 q) ->
  ax (c1 p) = ax (c1 q) -> ax (dc1 p) = ax (dc1 q) -> ax (ddc1 p) = ax (ddc1 q) -> ax (j1 p) = ax (j1 q) ->
  0 < T -> 0 <= wd <= 1 ->
  (forall s, 0 <= s <= 1 -> path s = Ok (f s)) -> (forall s, 0 <= s <= 1 -> path' s = Ok (f' s)) ->
  (forall s, 0 <= s <= 1 -> ax (f s) = ax (f' s)) ->
  forall wg quadprog glpk init r wg' quadprog' glpk' init' r',
  qp_solves quadprog -> qp_sound quadprog -> qp_solves quadprog' -> qp_sound quadprog' ->
  (forall k, length (init k) = k) -> (forall k, length (init' k) = k) ->
  solveEndEffector wg quadprog glpk init p path T wd = Ok r -> rc_success r = true ->
  solveEndEffector wg' quadprog' glpk' init' q path' T wd = Ok r' -> rc_success r' = true ->
  forall t, ax (cv_fun (rc_c r) t) = ax (cv_fun (rc_c r') t).
Proof. exact c107. Qed.
Print Assumptions C107_axis.

(** Conversely plans of single coordinates make a plan: [m] and its path take the first coordinate from [p], the
    second from [q], the third from [o]; if these have plans, so has [m], and its curve combines theirs. *)
Theorem C107_combine : forall m p q o path pathp pathq patho (f fp fq fo : R -> vec3) T wd,
  In (flag_of m) effector_flags -> flag_of p = flag_of m -> flag_of q = flag_of m -> flag_of o = flag_of m -> combined m p q o ->
  0 < T -> 0 <= wd <= 1 ->
  (forall s, 0 <= s <= 1 -> path s = Ok (f s) /\ pathp s = Ok (fp s) /\ pathq s = Ok (fq s) /\ patho s = Ok (fo s) /\ combines (f s) (fp s) (fq s) (fo s)) ->
  forall wg quadprog glpk init rp rq ro, qp_solves quadprog -> qp_sound quadprog -> (forall k, length (init k) = k) ->
  solveEndEffector wg quadprog glpk init p pathp T wd = Ok rp -> rc_success rp = true ->
  solveEndEffector wg quadprog glpk init q pathq T wd = Ok rq -> rc_success rq = true ->
  solveEndEffector wg quadprog glpk init o patho T wd = Ok ro -> rc_success ro = true ->
  exists r, solveEndEffector wg quadprog glpk init m path T wd = Ok r /\ rc_success r = true /\
    forall t, combines (cv_fun (rc_c r) t) (cv_fun (rc_c rp) t) (cv_fun (rc_c rq) t) (cv_fun (rc_c ro) t).
Proof. exact c107_combine. Qed.
Print Assumptions C107_combine.
