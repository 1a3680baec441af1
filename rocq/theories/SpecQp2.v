(** Specification vocabulary for the QP solver on problems with equalities. *)
From Verif Require Import Vec SpecBezier ModelData ModelSolver ModelQp SpecQp.
Open Scope R_scope.

(** The Hessian is at least lam times the identity and lam is above the machine
    epsilon; no row v of a constraint has a weight v'H^-1 v of 2^52 lam or more. *)
Definition weighted (q : eqp) (lam : R) : Prop :=
  eps52 < lam /\ (forall z, lam * dot (e_n q) z z <= dot (e_n q) z (hmul q z)) /\
  (forall v w, is_row q v -> (forall i, (i < e_n q)%nat -> hmul q w i = v i) -> eps52 * dot (e_n q) v w < lam).
(** What remains of the row of an equality once the rows of the equalities before it
    are made orthogonal to it is above the machine epsilon. *)
Definition eqs_apart (q : eqp) : Prop :=
  forall k z (a : rvec), (k < e_E q)%nat ->
    (forall i, (i < e_n q)%nat -> hmul q z i = e_CE q k i - sumf k (fun j => a j * e_CE q j i)) ->
    (forall j, (j < k)%nat -> dot (e_n q) (e_CE q j) z = 0) ->
    eps52 < dot (e_n q) z z.
(** The rows of the equalities are far from dependent: a combination of them is at
    least s times as long as its coefficients. *)
Definition eqs_spread (q : eqp) (s : R) : Prop :=
  forall a : rvec, s * s * sumf (e_E q) (fun j => a j * a j) <=
    dot (e_n q) (fun i => sumf (e_E q) (fun j => a j * e_CE q j i)) (fun i => sumf (e_E q) (fun j => a j * e_CE q j i)).
