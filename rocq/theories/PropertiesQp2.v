(** Property theorems C72: the QP solver on problems with equalities.  Vocabulary:
    SpecQp.v, SpecQp2.v, SpecEnd3.v (accuracy).  [mem] is whatever the solver's vectors
    contain beforehand. *)
From Verif Require Import Vec SpecBezier ModelData ModelSolver ModelQp SpecQp SpecQp2 SpecEnd3 ProofQp18.
Open Scope R_scope.

(** C72: nothing is asked of the inequalities but a bound on the length of their rows. *)
Theorem C72_answers : forall (q : eqp) (mem : qst) (lam : R),
  symmetric q -> weighted q lam -> eqs_apart q ->
  exists status st, returns q mem status st /\ (status = st_OPTIMAL \/ status = st_MAX_ITER \/ status = st_UNBOUNDED) /\
    (status <> st_UNBOUNDED -> eqs_hold q (q_x st)) /\
    (status = st_OPTIMAL -> violation q (q_x st) <= accuracy (e_n q) (e_I q) (trace (e_n q) (e_H q)) lam).
Proof. exact c72_answers. Qed.
Print Assumptions C72_answers.

Theorem C72_safe : forall (q : eqp) (mem : qst) (lam : R),
  symmetric q -> weighted q lam -> eqs_apart q -> ~ undefined q mem.
Proof. exact c72_safe. Qed.
Print Assumptions C72_safe.

(** For a Hessian of norm at most Lam it is enough that the rows of the equalities
    are far from dependent. *)
Theorem C72_spread : forall (q : eqp) (mem : qst) (lam Lam s : R),
  symmetric q -> weighted q lam ->
  (forall z, dot (e_n q) (hmul q z) (hmul q z) <= Lam * Lam * dot (e_n q) z z) ->
  eqs_spread q s -> eps52 * (Lam * Lam) < s * s ->
  exists status st, returns q mem status st /\ (status = st_OPTIMAL \/ status = st_MAX_ITER \/ status = st_UNBOUNDED) /\
    (status <> st_UNBOUNDED -> eqs_hold q (q_x st)) /\
    (status = st_OPTIMAL -> violation q (q_x st) <= accuracy (e_n q) (e_I q) (trace (e_n q) (e_H q)) lam).
Proof. exact c72_spread. Qed.
Print Assumptions C72_spread.
