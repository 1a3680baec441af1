(** Property theorems C55 - C58: the solver object.  Vocabulary: SpecQp.v, SpecQpObj.v.
    [mem] is whatever uninitialised memory contains; a call runs for [k] steps. *)
From Verif Require Import Vec ModelData ModelSolver ModelQp ModelQpObj SpecQp SpecQpObj ProofQpObj2 ProofQpObj5 ProofQpObj6 ProofQpObj7.
Import ListNotations.
Open Scope R_scope.

(** C55: an answer does not depend on the earlier calls. *)
Theorem C55_dense : forall (mem mem' : qst) (s s' : solver) (p : eqp) (k : nat),
  used s -> used s' -> getMaxIter s = getMaxIter s' ->
  same_report (solve_quadprog_dense mem s p k) (solve_quadprog_dense mem' s' p k).
Proof. exact c55_dense. Qed.
Print Assumptions C55_dense.

Theorem C55_sparse : forall (mem mem' : qst) (s s' : solver) (p : eqp) (k : nat),
  used s -> used s' -> getMaxIter s = getMaxIter s' ->
  same_report (solve_quadprog_sparse mem s p k) (solve_quadprog_sparse mem' s' p k).
Proof. exact c55_sparse. Qed.
Print Assumptions C55_sparse.

(** The limit stays until setMaxIter accepts another one. *)
Theorem C55_limit : forall (mem : qst) (s : solver),
  getMaxIter (new_solver mem) = 1000%nat /\
  (forall n E I, getMaxIter (reset mem n E I s) = getMaxIter s) /\
  (forall p status x s', gives (solve_quadprog_dense mem s p) status x s' -> getMaxIter s' = getMaxIter s) /\
  (forall p status x s', gives (solve_quadprog_sparse mem s p) status x s' -> getMaxIter s' = getMaxIter s) /\
  (forall k, (0 <= k)%Z -> fst (setMaxIter k s) = true /\ getMaxIter (snd (setMaxIter k s)) = Z.to_nat k) /\
  (forall k, (k < 0)%Z -> setMaxIter k s = (false, s)).
Proof. exact c55_limit. Qed.
Print Assumptions C55_limit.

(** The number of active constraints is an old one after REDUNDANT_EQUALITIES. *)
Theorem C55_size_refuted : forall mem : qst, exists s s' x x' r r',
  used s /\ used s' /\ getMaxIter s = getMaxIter s' /\
  gives (solve_quadprog_dense mem s (eqp_of void)) st_REDUNDANT x r /\ gives (solve_quadprog_dense mem s' (eqp_of void)) st_REDUNDANT x' r' /\
  getActiveSetSize r <> getActiveSetSize r'.
Proof. exact c55_stale_refuted. Qed.
Print Assumptions C55_size_refuted.

(** C56: the reported active set and multipliers. *)
Theorem C56_certificate : forall (mem : qst) (s : solver) (p : eqp) (status : Z) (x : rvec) (s' : solver),
  used s -> convex p -> well_scaled p -> (e_E p <= e_n p)%nat ->
  gives (solve_quadprog_dense mem s p) status x s' -> status = st_OPTIMAL \/ status = st_MAX_ITER ->
  eqs_hold p x /\ getObjValue s' = objective p x /\
  certificate p x (getActiveSetSize s') (getActiveSet s') (getLagrangeMultipliers s').
Proof. exact (fun mem s p status x s' U => c56_certificate mem s p status x s' (used_given s U)). Qed.
Print Assumptions C56_certificate.

Theorem C56_sufficient : forall (p : eqp) (x : rvec) (m : nat) (A : nat -> Z) (u y : rvec),
  symmetric p -> certificate p x m A u -> eqs_hold p x -> eqs_hold p y ->
  (forall k, (e_E p <= k < m)%nat -> 0 <= slack p y (Z.to_nat (A k))) ->
  objective p x + 1 / 2 * dot (e_n p) (fun i => y i - x i) (hmul p (fun i => y i - x i)) <= objective p y.
Proof. exact c56_sufficient. Qed.
Print Assumptions C56_sufficient.

(** C57: a caller that supplies the factor of the inverse Hessian gets the solution for
    the opposite linear cost ... *)
Theorem C57_opposite : forall (mem : qst) (s : solver) (p : eqp) (J : rmat),
  fits s p -> inverse_factor p J -> convex p -> well_scaled p -> (e_E p <= e_n p)%nat ->
  forall (status : Z) (x : rvec) (s' : solver),
  gives (solve_quadprog_dense mem (give_inverse J s) p) status x s' -> status = st_OPTIMAL \/ status = st_MAX_ITER ->
  eqs_hold p x /\ (forall y, feasible p y -> objective (flipped p) x <= objective (flipped p) y) /\
  (forall w, (forall i, (i < e_n p)%nat -> hmul p w i = e_g p i) -> getObjValue s' = objective (flipped p) x + dot (e_n p) (e_g p) w) /\
  (status = st_OPTIMAL -> violation p x <= Rmax 0 (INR (e_I p) * eps52 * trace (e_n p) (e_H p) * trace (e_n p) J * 100) /\
     (violation p x = 0 -> forall y, feasible p y -> objective (flipped p) y <= objective (flipped p) x -> forall k, (k < e_n p)%nat -> y k = x k)) /\
  inverse_factor p (q_J (v_st s')).
Proof. exact c57_opposite. Qed.
Print Assumptions C57_opposite.

(** ... provided the sizes did not change; if they did, the matrix is replaced by zero and
    the answer is x = 0. *)
Theorem C57_forgotten : forall (mem : qst) (s : solver) (p : eqp) (J : rmat),
  ~ fits s p -> (1 < getMaxIter s)%nat ->
  (e_E p = 0%nat ->
   exists x s', gives (solve_quadprog_dense mem (give_inverse J s) p) (if Rle_dec (violation p (fun _ => 0)) 0 then st_OPTIMAL else st_UNBOUNDED) x s' /\
     forall i, x i = 0) /\
  ((0 < e_E p)%nat -> (0 < e_n p)%nat ->
   exists x s', gives (solve_quadprog_dense mem (give_inverse J s) p) st_REDUNDANT x s' /\ forall i, x i = 0).
Proof. exact c57_forgotten. Qed.
Print Assumptions C57_forgotten.

(** 1/2 x^2 + x: the answer is 1 or 0, the minimiser is -1. *)
Theorem C57_refuted : forall mem : qst, let p := eqp_of line in
  convex p /\ inverse_factor p eye /\
  (let s := reset mem 1 0 0 (new_solver mem) in
   fits s p /\ exists x s', gives (solve_quadprog_dense mem (give_inverse eye s) p) st_OPTIMAL x s' /\ x 0%nat = 1 /\ getObjValue s' <> objective p x /\
     exists y, feasible p y /\ objective p y < objective p x) /\
  (exists x s', gives (solve_quadprog_dense mem (give_inverse eye (new_solver mem)) p) st_OPTIMAL x s' /\ x 0%nat = 0).
Proof. exact c57_refuted. Qed.
Print Assumptions C57_refuted.

(** C58: solve_quadprog_sparse returns the point that is nearest to the unconstrained
    minimiser [x0], in the Euclidean distance. *)
Theorem C58_projection : forall (mem : qst) (s : solver) (p : eqp) (x0 : rvec),
  used s -> convex p -> well_scaled (nearest p x0) -> (e_E p <= e_n p)%nat ->
  (forall i, (i < e_n p)%nat -> hmul p x0 i + e_g p i = 0) ->
  forall (status : Z) (x : rvec) (s' : solver),
  gives (solve_quadprog_sparse mem s p) status x s' -> status = st_OPTIMAL \/ status = st_MAX_ITER ->
  eqs_hold p x /\ getObjValue s' = 1 / 2 * dot (e_n p) (e_g p) x0 + 1 / 2 * dist2 (e_n p) x x0 /\
  (status = st_OPTIMAL -> violation p x <= INR (e_I p) * eps52 * trace (e_n p) (e_H p) * INR (e_n p) * 100) /\
  forall y, eqs_hold p y -> (forall j, (j < e_I p)%nat -> slack p x j = 0 -> 0 <= slack p y j) ->
    dist2 (e_n p) x x0 + dist2 (e_n p) y x <= dist2 (e_n p) y x0.
Proof. exact (fun mem s p x0 U => c58_projection mem s p x0 (used_given s U)). Qed.
Print Assumptions C58_projection.

Theorem C58_decides : forall (mem : qst) (s : solver) (p : eqp) (x0 : rvec),
  used s -> convex p -> well_scaled (nearest p x0) -> (e_E p <= e_n p)%nat ->
  (forall i, (i < e_n p)%nat -> hmul p x0 i + e_g p i = 0) ->
  exists status x s', gives (solve_quadprog_sparse mem s p) status x s' /\
    (status = st_OPTIMAL \/ (status = st_MAX_ITER /\ (getMaxIter s <= subsets (e_I p) (e_n p - e_E p))%nat) \/
     (status = st_UNBOUNDED /\ forall y, ~ feasible p y) \/ (status = st_REDUNDANT /\ eqs_dependent p)).
Proof. exact c58_decides. Qed.
Print Assumptions C58_decides.

(** For a multiple of the identity this is the minimiser, otherwise in general not. *)
Theorem C58_scalar : forall (mem : qst) (s : solver) (p : eqp) (x0 : rvec),
  used s -> convex p -> well_scaled (nearest p x0) -> (e_E p <= e_n p)%nat ->
  (forall i, (i < e_n p)%nat -> hmul p x0 i + e_g p i = 0) ->
  forall (h : R) (x : rvec) (s' : solver),
  0 < h -> (forall i j, (i < e_n p)%nat -> (j < e_n p)%nat -> e_H p i j = h * eye i j) ->
  gives (solve_quadprog_sparse mem s p) st_OPTIMAL x s' -> forall y, feasible p y -> objective p x <= objective p y.
Proof. exact (fun mem s p x0 U => c58_scalar mem s p x0 (used_given s U)). Qed.
Print Assumptions C58_scalar.

Theorem C58_refuted : forall mem : qst, let p := eqp_of skew in
  convex p /\ exists x s', gives (solve_quadprog_sparse mem (new_solver mem) p) st_OPTIMAL x s' /\ feasible p x /\ getObjValue s' <> objective p x /\
    exists y, feasible p y /\ objective p y < objective p x.
Proof. exact skew_wrong. Qed.
Print Assumptions C58_refuted.
