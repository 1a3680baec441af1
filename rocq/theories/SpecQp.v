(** Specification vocabulary for the QP solver: what a problem and its solutions are. *)
From Verif Require Import Vec SpecBezier ModelData ModelSolver ModelQp.
Import ListNotations.
Open Scope R_scope.

(** H x *)
Definition hmul (q : eqp) (x : rvec) : rvec := fun i => dot (e_n q) (e_H q i) x.
(** 1/2 x'Hx + g'x *)
Definition objective (q : eqp) (x : rvec) : R := 1 / 2 * dot (e_n q) x (hmul q x) + dot (e_n q) (e_g q) x.
(** the constraints CE x + ce = 0 and CI x + ci >= 0 *)
Definition eq_gap (q : eqp) (x : rvec) (i : nat) : R := dot (e_n q) (e_CE q i) x + e_ce q i.
Definition slack (q : eqp) (x : rvec) (i : nat) : R := dot (e_n q) (e_CI q i) x + e_ci q i.
Definition eqs_hold (q : eqp) (x : rvec) : Prop := forall i, (i < e_E q)%nat -> eq_gap q x i = 0.
Definition ineqs_hold (q : eqp) (x : rvec) : Prop := forall i, (i < e_I q)%nat -> 0 <= slack q x i.
Definition feasible (q : eqp) (x : rvec) : Prop := eqs_hold q x /\ ineqs_hold q x.
(** by how much the inequalities are violated in total *)
Definition violation (q : eqp) (x : rvec) : R := sumf (e_I q) (fun i => Rmax 0 (- slack q x i)).

Definition symmetric (q : eqp) : Prop := forall i j, (i < e_n q)%nat -> (j < e_n q)%nat -> e_H q i j = e_H q j i.
Definition positive_definite (q : eqp) : Prop :=
  forall v, (exists i, (i < e_n q)%nat /\ v i <> 0) -> 0 < dot (e_n q) v (hmul q v).
Definition convex (q : eqp) : Prop := symmetric q /\ positive_definite q.

(** [z] is what remains of [v] once some of the rows are made orthogonal to it:
    H z = v - a combination of rows that are all orthogonal to z. *)
Definition direction (q : eqp) (v z : rvec) : Prop :=
  exists a b : rvec,
    (forall i, (i < e_n q)%nat -> hmul q z i =
       v i - sumf (e_E q) (fun k => a k * e_CE q k i) - sumf (e_I q) (fun k => b k * e_CI q k i)) /\
    (forall k, (k < e_E q)%nat -> a k <> 0 -> dot (e_n q) (e_CE q k) z = 0) /\
    (forall k, (k < e_I q)%nat -> b k <> 0 -> dot (e_n q) (e_CI q k) z = 0).
Definition is_row (q : eqp) (v : rvec) : Prop :=
  (exists i, (i < e_E q)%nat /\ v = e_CE q i) \/ (exists i, (i < e_I q)%nat /\ v = e_CI q i).
(** The data are on the scale of the solver's thresholds: what remains of a row is
    nothing, or above the machine epsilon, absolutely and relatively to the other
    rows. *)
Definition well_scaled (q : eqp) : Prop :=
  forall v z, is_row q v -> direction q v z ->
    (forall i, (i < e_n q)%nat -> z i = 0) \/
    (eps52 < dot (e_n q) z z /\ eps52 * eps52 < dot (e_n q) v z /\
     forall v' w, is_row q v' -> (forall i, (i < e_n q)%nat -> hmul q w i = v' i) ->
       eps52 * eps52 * dot (e_n q) v' w < dot (e_n q) v z).

(** The Hessian is at least lam times the identity, lam is above the machine
    epsilon and no row of a constraint is longer than 2^26 lam.  Nothing is asked of
    the angles between the rows. *)
Definition conditioned (q : eqp) (lam : R) : Prop :=
  eps52 < lam /\ (forall z, lam * dot (e_n q) z z <= dot (e_n q) z (hmul q z)) /\
  (forall v, is_row q v -> eps52 * dot (e_n q) v v < lam * lam).

(** The rows of the equalities are linearly dependent. *)
Definition eqs_dependent (q : eqp) : Prop :=
  exists c : rvec, (exists k, (k < e_E q)%nat /\ c k <> 0) /\
    forall i, (i < e_n q)%nat -> sumf (e_E q) (fun k => c k * e_CE q k i) = 0.

(** The tolerance of the solver's stopping test, for a Cholesky factor L of H. *)
Definition is_cholesky (q : eqp) (L : rmat) : Prop :=
  (forall i, (i < e_n q)%nat -> 0 < L i i) /\
  (forall i j, (i < j < e_n q)%nat -> L i j = 0) /\
  (forall i j, (i < e_n q)%nat -> (j < e_n q)%nat -> e_H q i j = sumf (e_n q) (fun k => L i k * L j k)).
(** the trace of the inverse of a triangular matrix *)
Definition tolerance (q : eqp) (L : rmat) : R :=
  INR (e_I q) * eps52 * trace (e_n q) (e_H q) * sumf (e_n q) (fun i => / L i i) * 100.

(** The execution of the solver ends with a status and a state after some number
    of steps. *)
Definition returns (q : eqp) (mem : qst) (status : Z) (st : qst) : Prop :=
  exists k, execution q mem k = Ok (Done status st).
Definition undefined (q : eqp) (mem : qst) : Prop := exists k, execution q mem k = UB.

(** Problems without linear cost: two variables and the identity as Hessian, or
    one variable and the Hessian h. *)
Definition two (CE : list (list R)) (ce : list R) (CI : list (list R)) (ci : list R) : qp :=
  {| qp_H := [[1; 0]; [0; 1]]; qp_g := [0; 0]; qp_CE := CE; qp_ce0 := ce; qp_CI := CI; qp_ci0 := ci |}.
Definition one (h : R) (CE : list (list R)) (ce : list R) (CI : list (list R)) (ci : list R) : qp :=
  {| qp_H := [[h]]; qp_g := [0]; qp_CE := CE; qp_ce0 := ce; qp_CI := CI; qp_ci0 := ci |}.

(** the number of sets of at most [k] of [m] things *)
Fixpoint subsets (m k : nat) : nat :=
  match m, k with
  | O, _ | S _, O => 1
  | S m', S k' => subsets m' k + subsets m' k'
  end.
