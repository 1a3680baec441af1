(** Property theorems C109: solveEndEffector and translations.
    Vocabulary: SpecEffMove.v, SpecEff.v, SpecTraj.v. *)
From Coq Require Import List Reals.
From Verif Require Import Vec SpecBezier ModelData ModelDispatch ModelSolver ModelTraj ModelEff SpecCom SpecSolver SpecTraj Spec0Step SpecEff SpecEffMove
  ProofEffMove ProofEffMove2 ProofEffMove3 ProofEffMove4.
Import ListNotations.
Open Scope R_scope.

(** C109: one free point, weight one: if a problem has a plan, the problem and path moved by [v] have a plan, which
    is the moved curve at every time. *)
Theorem C109_one : forall v p q T, flag_of p = F_jerk -> moved_by v p q -> 0 < T ->
  forall path path' (f : R -> vec3),
  (forall s, 0 <= s <= 1 -> path s = Ok (f s)) -> (forall s, 0 <= s <= 1 -> path' s = Ok (vadd (f s) v)) ->
  forall wg quadprog glpk init r wg' quadprog' glpk' init',
  qp_solves quadprog -> qp_sound quadprog -> qp_solves quadprog' ->
  (forall k, length (init k) = k) -> (forall k, length (init' k) = k) ->
  solveEndEffector wg quadprog glpk init p path T 1 = Ok r -> rc_success r = true ->
  exists r', solveEndEffector wg' quadprog' glpk' init' q path' T 1 = Ok r' /\ rc_success r' = true /\
    forall t, cv_fun (rc_c r') t = vadd (cv_fun (rc_c r) t) v.
Proof. exact c109_one. Qed.
Print Assumptions C109_one.

(** With three or five free points there is a plan only near the origin of the coordinates: the third control
    point of the curve lies in a box around the origin, whatever the path. *)
Theorem C109_more : forall wg quadprog glpk init p path T wd r, qp_sound quadprog -> (forall k, length (init k) = k) ->
  flag_of p = F_x3 \/ flag_of p = F_x5 -> 0 < T -> T <= 1000000 ->
  solveEndEffector wg quadprog glpk init p path T wd = Ok r -> rc_success r = true ->
  let n := eff_degree (flag_of p) in
  within (10000 * (T / n + T * T / (n * (n - 1)))) (vadd (vadd (c0 p) (vscal (2 * T / n) (dc0 p))) (vscal (T * T / (n * (n - 1))) (ddc0 p))).
Proof. exact c109_more. Qed.
Print Assumptions C109_more.
(** So a problem with a plan may have none after a translation. *)
Theorem C109_more_refuted : exists p q v path, flag_of p = F_x3 /\ moved_by v p q /\
  (exists quadprog glpk init r, qp_solves quadprog /\ qp_sound quadprog /\ solveEndEffector false quadprog glpk init p path 1 1 = Ok r /\ rc_success r = true) /\
  forall wg quadprog glpk init path' wd r, qp_sound quadprog -> (forall k, length (init k) = k) ->
    solveEndEffector wg quadprog glpk init q path' 1 wd = Ok r -> rc_success r = false.
Proof. exact c109_refuted. Qed.
Print Assumptions C109_more_refuted.

(** With one free point and weight zero (the path is not used) the plan does not move exactly with its problem. *)
Theorem C109_smooth_refuted : exists p q v path, flag_of p = F_jerk /\ moved_by v p q /\
  forall wg quadprog glpk init wg' quadprog' glpk' init', qp_solves quadprog -> qp_solves quadprog' ->
  (forall k, length (init k) = k) -> (forall k, length (init' k) = k) ->
  exists r r' t, solveEndEffector wg quadprog glpk init p path 1 0 = Ok r /\ rc_success r = true /\
    solveEndEffector wg' quadprog' glpk' init' q path 1 0 = Ok r' /\ rc_success r' = true /\
    cv_fun (rc_c r') t <> vadd (cv_fun (rc_c r) t) v.
Proof. exact c109_smooth_refuted. Qed.
Print Assumptions C109_smooth_refuted.
