(** Property theorems C37 - C39: what is handed to the solvers.  Vocabulary:
    SpecSolver.v.  [quadprog] and [glpk] are arbitrary back ends. *)
From Verif Require Import Vec ModelSolver SpecWp SpecSolver ProofSolver ProofSolver2.
Open Scope R_scope.

(** C37: the QP [q] handed over has the solution set of the arguments, and the
    result is the back end's. *)
Theorem C37_quadprog : forall A b D d H g init minB,
  mx_wf A -> length b = length (mx_rows A) -> (minB = [] \/ length minB = mx_cols A) ->
  exists q, qp_H q = H /\ qp_g q = g /\
    (forall x, length x = mx_cols A -> (qp_feasible q x <-> leM A b x /\ eqM D d x /\ above minB x)) /\
    forall with_glpk quadprog glpk,
      solve with_glpk quadprog glpk A b D d H g init minB [] SOLVER_QUADPROG =
        (r <- quadprog q init ;; let '(status, x, obj) := r in
         Ok (if Z.eqb status EIQUADPROG_FAST_OPTIMAL then ResultData true obj x else ResultData false (-1) x)).
Proof. exact c37_ok. Qed.
Print Assumptions C37_quadprog.

Theorem C37_unknown_solver : forall with_glpk quadprog glpk A b D d H g init minB maxB s,
  s <> SOLVER_QUADPROG -> (with_glpk = true -> s <> SOLVER_GLPK) ->
  solve with_glpk quadprog glpk A b D d H g init minB maxB s = Throw.
Proof. exact c37_unknown. Qed.
Print Assumptions C37_unknown_solver.

(** C38: upper bounds overflow the matrix, whatever the sizes.  (Without upper
    bounds: C37_quadprog.) *)
Theorem C38_upper_bounds : forall with_glpk quadprog glpk A b D d H g init minB maxB,
  mx_wf A -> (minB = [] \/ length minB = mx_cols A) -> maxB <> [] ->
  solve with_glpk quadprog glpk A b D d H g init minB maxB SOLVER_QUADPROG = UB.
Proof. exact c38_ok. Qed.
Print Assumptions C38_upper_bounds.

(** C39 *)
Theorem C39_glpk : forall A b D d H g init minB maxB,
  mx_wf A -> mx_wf D -> mx_cols A = length init -> mx_cols D = length init ->
  length b = length (mx_rows A) -> length d = length (mx_rows D) ->
  (minB = [] \/ length minB = length init) -> (maxB = [] \/ length maxB = length init) -> length g = length init ->
  init <> [] -> (1 <= length (mx_rows A) + length (mx_rows D))%nat ->
  ((Z.of_nat (nonzeros A + nonzeros D) <= 20000)%Z -> exists p,
     (forall x, length x = length init ->
       (lp_feasible p x <-> leM A b x /\ eqM D d x /\ lp_above minB x /\ lp_below maxB x) /\
       lp_objective p x = rdot g x) /\
     forall quadprog glpk, solve true quadprog glpk A b D d H g init minB maxB SOLVER_GLPK =
       (r <- glpk p ;; let '(status, obj, x) := r in
        Ok (if Z.eqb status GLP_OPT then ResultData true obj x else ResultData false (-1) init))) /\
  ((20000 < Z.of_nat (nonzeros A + nonzeros D))%Z ->
     forall quadprog glpk, solve true quadprog glpk A b D d H g init minB maxB SOLVER_GLPK = UB).
Proof. exact c39_ok. Qed.
Print Assumptions C39_glpk.
