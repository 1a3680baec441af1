(** Specification vocabulary for the solver object. *)
From Verif Require Import Vec SpecBezier ModelData ModelSolver ModelQp ModelQpObj SpecQp.
Import ListNotations.
Open Scope R_scope.

(** A call ends with a status, a point and a state of the solver. *)
Definition gives (c : nat -> outcome (option (Z * rvec * solver))) (status : Z) (x : rvec) (s : solver) : Prop :=
  exists k, c k = Ok (Some (status, x, s)).

(** The solvers that can be obtained without touching m_J and is_inverse_provided_. *)
Inductive used : solver -> Prop :=
| used_new mem : used (new_solver mem)
| used_reset mem n E I s : used s -> used (reset mem n E I s)
| used_limit k s : used s -> used (snd (setMaxIter k s))
| used_dense mem p status x s s' : used s -> gives (solve_quadprog_dense mem s p) status x s' -> used s'
| used_sparse mem p status x s s' : used s -> gives (solve_quadprog_sparse mem s p) status x s' -> used s'.

(** Two calls have the same effect, as far as a caller can see.  The active set and the
    multipliers have getActiveSetSize() entries; that number means nothing after
    EIQUADPROG_FAST_REDUNDANT_EQUALITIES. *)
Definition same_report (r r' : outcome (option (Z * rvec * solver))) : Prop :=
  match r, r' with
  | Ok (Some (status, x, s)), Ok (Some (status', x', s')) =>
      status = status' /\ x = x' /\ getObjValue s = getObjValue s' /\ getIteratios s = getIteratios s' /\
      (status <> st_REDUNDANT -> getActiveSetSize s = getActiveSetSize s' /\
         forall k, (k < getActiveSetSize s)%nat ->
           getActiveSet s k = getActiveSet s' k /\ getLagrangeMultipliers s k = getLagrangeMultipliers s' k)
  | Ok None, Ok None => True
  | Throw, Throw => True
  | UB, UB => True
  | _, _ => False
  end.

(** [A] names [m] active constraints of [p] at [x], the equalities (negative) first, and
    the [u] are multipliers for them:  H x + g = sum u_k n_k. *)
Definition certificate (p : eqp) (x : rvec) (m : nat) (A : nat -> Z) (u : rvec) : Prop :=
  (e_E p <= m <= e_n p)%nat /\
  (forall k, (k < e_E p)%nat -> A k = (- Z.of_nat k - 1)%Z) /\
  (forall k, (e_E p <= k < m)%nat -> (0 <= A k < Z.of_nat (e_I p))%Z /\ slack p x (Z.to_nat (A k)) = 0 /\ 0 <= u k) /\
  (forall k k', (e_E p <= k < m)%nat -> (e_E p <= k' < m)%nat -> A k = A k' -> k = k') /\
  (forall i, (i < e_n p)%nat -> hmul p x i + e_g p i =
     sumf (e_E p) (fun k => u k * e_CE p k i) +
     sumf (m - e_E p) (fun k => u (e_E p + k)%nat * e_CI p (Z.to_nat (A (e_E p + k)%nat)) i)).

(** The problem with another cost. *)
Definition recost (p : eqp) (H : rmat) (g : rvec) : eqp :=
  EQP (e_n p) (e_E p) (e_I p) H g (e_CE p) (e_ce p) (e_CI p) (e_ci p) (e_max p).
Definition eye : rmat := fun i j => if Nat.eqb i j then 1 else 0.
(** the opposite linear cost *)
Definition flipped (p : eqp) : eqp := recost p (e_H p) (fun i => - e_g p i).
(** the cost 1/2 |x|^2 - c'x, least at the point nearest to [c] *)
Definition nearest (p : eqp) (c : rvec) : eqp := recost p eye (fun i => - c i).
Definition dist2 (n : nat) (x y : rvec) : R := sumf n (fun i => (x i - y i) * (x i - y i)).
(** J J' is the inverse of the Hessian. *)
Definition inverse_factor (p : eqp) (J : rmat) : Prop :=
  forall i j, (i < e_n p)%nat -> (j < e_n p)%nat ->
    sumf (e_n p) (fun k => e_H p i k * sumf (e_n p) (fun c => J k c * J j c)) = if Nat.eqb i j then 1 else 0.
(** The solver was last used or reset for problems of this size. *)
Definition fits (s : solver) (p : eqp) : Prop := v_n s = e_n p /\ v_E s = e_E p /\ v_I s = e_I p.

(** * Particular problems *)
(** 0 = 0 *)
Definition void : qp := two [[0; 0]] [0] [] [].
(** 1/2 x^2 + x, with the inverse 1: x = 1 is returned, not -1 *)
Definition line : qp := {| qp_H := [[1]]; qp_g := [1]; qp_CE := []; qp_ce0 := []; qp_CI := []; qp_ci0 := [] |}.
(** 1/2 (2 x0^2 + 2 x0 x1 + x1^2) subject to x0 >= 1: the minimum is at (1, -1), the
    answer is (1, 0). *)
Definition skew : qp := {| qp_H := [[2; 1]; [1; 1]]; qp_g := [0; 0]; qp_CE := []; qp_ce0 := []; qp_CI := [[1; 0]]; qp_ci0 := [-1] |}.
