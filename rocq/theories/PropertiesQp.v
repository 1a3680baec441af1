(** Property theorems C40 - C42: the dual active-set QP solver.  Vocabulary:
    SpecQp.v.  [mem] is whatever the solver's vectors contain beforehand. *)
From Verif Require Import Vec ModelData ModelSolver ModelQp SpecQp ProofQp7 ProofQp8 ProofQp9 ProofQp10 ProofQp11 ProofQp12 ProofQp14 ProofQp15.
Import ListNotations.
Open Scope R_scope.

(** C40: what the statuses mean. *)
Theorem C40_optimal : forall (q : eqp) (mem st : qst),
  convex q -> well_scaled q -> (e_E q <= e_n q)%nat ->
  returns q mem st_OPTIMAL st ->
  eqs_hold q (q_x st) /\ q_f st = objective q (q_x st) /\
  (exists L, is_cholesky q L /\ violation q (q_x st) <= tolerance q L) /\
  forall y, eqs_hold q y -> (forall j, (j < e_I q)%nat -> slack q (q_x st) j = 0 -> 0 <= slack q y j) ->
    objective q (q_x st) <= objective q y /\
    (objective q y <= objective q (q_x st) -> forall k, (k < e_n q)%nat -> y k = q_x st k).
Proof. exact (fun q mem st HC HW HE => c40_optimal q mem HC HW HE st). Qed.
Print Assumptions C40_optimal.

Theorem C40_minimiser : forall (q : eqp) (mem st : qst),
  convex q -> well_scaled q -> (e_E q <= e_n q)%nat ->
  returns q mem st_OPTIMAL st -> violation q (q_x st) = 0 ->
  feasible q (q_x st) /\ forall y, feasible q y -> objective q (q_x st) <= objective q y /\
    (objective q y <= objective q (q_x st) -> forall k, (k < e_n q)%nat -> y k = q_x st k).
Proof. exact (fun q mem st HC HW HE => c40_minimiser q mem HC HW HE st). Qed.
Print Assumptions C40_minimiser.

Theorem C40_lower_bound : forall (q : eqp) (mem st : qst) (status : Z),
  convex q -> well_scaled q -> (e_E q <= e_n q)%nat ->
  returns q mem status st -> status = st_OPTIMAL \/ status = st_MAX_ITER ->
  eqs_hold q (q_x st) /\ q_f st = objective q (q_x st) /\
  forall y, feasible q y -> objective q (q_x st) <= objective q y.
Proof. exact (fun q mem st status HC HW HE => c40_bound q mem HC HW HE st status). Qed.
Print Assumptions C40_lower_bound.

Theorem C40_infeasible : forall (q : eqp) (mem st : qst),
  convex q -> well_scaled q -> (e_E q <= e_n q)%nat ->
  returns q mem st_UNBOUNDED st -> forall y, ~ feasible q y.
Proof. exact (fun q mem st HC HW HE => c40_unbounded q mem HC HW HE st). Qed.
Print Assumptions C40_infeasible.

Theorem C40_redundant : forall (q : eqp) (mem st : qst),
  convex q -> well_scaled q -> (e_E q <= e_n q)%nat ->
  returns q mem st_REDUNDANT st -> eqs_dependent q.
Proof. exact (fun q mem st HC HW HE => c40_redundant q mem HC HW HE st). Qed.
Print Assumptions C40_redundant.

Theorem C40_feasible_problem : forall (q : eqp) (mem st : qst) (status : Z),
  convex q -> well_scaled q -> (e_E q <= e_n q)%nat ->
  returns q mem status st -> ~ eqs_dependent q -> (exists y, feasible q y) ->
  status = st_OPTIMAL \/ status = st_MAX_ITER.
Proof. exact (fun q mem st status HC HW HE => c40_solves q mem HC HW HE st status). Qed.
Print Assumptions C40_feasible_problem.

(** Without inequalities the solver finds the minimiser. *)
Theorem C40_equalities : forall (q : eqp) (mem : qst),
  convex q -> well_scaled q -> (e_E q <= e_n q)%nat ->
  (1 < e_max q)%nat -> e_I q = 0%nat -> ~ eqs_dependent q ->
  exists st, returns q mem st_OPTIMAL st /\ eqs_hold q (q_x st) /\ q_f st = objective q (q_x st) /\
    forall y, eqs_hold q y -> objective q (q_x st) <= objective q y /\
      (objective q y <= objective q (q_x st) -> forall k, (k < e_n q)%nat -> y k = q_x st k).
Proof. exact c40_equalities. Qed.
Print Assumptions C40_equalities.

(** Without the condition on the scale, answers are wrong: with the Hessian h = k^2
    large enough, the equality x = 1 is ignored and x >= 1 is called infeasible. *)
Theorem C40_equality_refuted : forall (k : R) (mem : qst),
  1 <= eps52 * (k * k * (k * k)) -> 100 * eps52 * k < 1 -> 0 < k ->
  let q := eqp_of (one (k * k) [[1]] [-1] [] []) in
  convex q /\ feasible q (fun _ => 1) /\
  exists st, returns q mem st_OPTIMAL st /\ ~ eqs_hold q (q_x st).
Proof. exact c40_equality_refuted. Qed.
Print Assumptions C40_equality_refuted.

Theorem C40_infeasible_refuted : forall (k : R) (mem : qst),
  1 <= eps52 * (k * k * (k * k)) -> 100 * eps52 * k < 1 -> 0 < k ->
  let q := eqp_of (one (k * k) [] [] [[1]] [-1]) in
  convex q /\ feasible q (fun _ => 1) /\ exists st, returns q mem st_UNBOUNDED st.
Proof. exact c40_infeasible_refuted. Qed.
Print Assumptions C40_infeasible_refuted.

(** C41: termination, and an execution that never ends. *)
Theorem C41_terminates : forall (q : eqp) (mem : qst),
  convex q -> well_scaled q -> (e_E q <= e_n q)%nat ->
  exists status st, returns q mem status st /\
    (status = st_OPTIMAL \/ status = st_MAX_ITER \/ status = st_UNBOUNDED \/ status = st_REDUNDANT).
Proof. exact c40_ends. Qed.
Print Assumptions C41_terminates.

(** Without equalities, the bound on the Hessian and on the length of the rows is
    enough: no angle between rows has to be above a threshold. *)
Theorem C41_conditioned : forall (q : eqp) (mem : qst) (lam : R),
  symmetric q -> conditioned q lam -> e_E q = 0%nat ->
  exists status st, returns q mem status st /\ (status = st_OPTIMAL \/ status = st_MAX_ITER \/ status = st_UNBOUNDED) /\
    (status = st_OPTIMAL -> exists L, is_cholesky q L /\ violation q (q_x st) <= tolerance q L).
Proof. exact c41_conditioned. Qed.
Print Assumptions C41_conditioned.

Theorem C41_loop_refuted : forall (c : R) (mem : qst), 1 <= eps52 * c ->
  let q := eqp_of (two [] [] [[c; 0]; [0; 1]; [0; 0]] [- c; -1; 1]) in
  convex q /\ feasible q (fun _ => 1) /\
  (forall k, exists p st, execution q mem k = Ok (Next p st)) /\ ~ exists status st, returns q mem status st.
Proof. exact c41_loop_refuted. Qed.
Print Assumptions C41_loop_refuted.

(** C42: indices. *)
Theorem C42_safe : forall (q : eqp) (mem : qst),
  convex q -> well_scaled q -> (e_E q <= e_n q)%nat -> ~ undefined q mem.
Proof. exact c40_safe. Qed.
Print Assumptions C42_safe.

Theorem C42_conditioned : forall (q : eqp) (mem : qst) (lam : R),
  symmetric q -> conditioned q lam -> e_E q = 0%nat -> ~ undefined q mem.
Proof. exact c42_conditioned. Qed.
Print Assumptions C42_conditioned.

(** With an equality, giving up a constraint and going back to the choice of
    another (from l2a to l2) never succeeds ... *)
Theorem C42_no_way_back : forall (q : eqp) (mem : qst) (k : nat) (st st' : qst),
  (0 < e_E q)%nat -> execution q mem k = Ok (Next L2a st) -> execution q mem (S k) <> Ok (Next L2 st').
Proof. exact c42_no_return. Qed.
Print Assumptions C42_no_way_back.

(** ... and is undefined behaviour. *)
Theorem C42_restore_refuted : forall (c : R) (mem : qst), 1 <= eps52 * c ->
  let q := eqp_of (two [[c; 0]] [- c] [[0; 1]; [0; 0]] [-1; 1]) in
  convex q /\ feasible q (fun _ => 1) /\ (exists st, execution q mem 2 = Ok (Next L2a st)) /\ execution q mem 3 = UB.
Proof. exact c42_restore_refuted. Qed.
Print Assumptions C42_restore_refuted.

(** More equalities than variables: reported as redundant, or out of range. *)
Theorem C42_many_equalities : forall (q : eqp) (mem : qst) (k : nat), (e_n q < e_E q)%nat ->
  execution q mem k = UB \/ exists st, execution q mem k = Ok (Done st_REDUNDANT st).
Proof. exact c42_many. Qed.
Print Assumptions C42_many_equalities.

Theorem C42_repeated_equality_refuted : forall (mem : qst),
  let q := eqp_of (one 1 [[1]; [1]] [-1; -1] [] []) in
  convex q /\ feasible q (fun _ => 1) /\ undefined q mem.
Proof. exact c42_repeated_refuted. Qed.
Print Assumptions C42_repeated_equality_refuted.

(** C59: the limit on the iterations only matters for problems with many constraints.
    The count is that of the sets of at most n - E of the I inequalities, at most 2^I. *)
Theorem C59_limit : forall (q : eqp) (mem st : qst) (status : Z),
  convex q -> well_scaled q -> (e_E q <= e_n q)%nat ->
  (subsets (e_I q) (e_n q - e_E q) < e_max q)%nat ->
  returns q mem status st -> status <> st_MAX_ITER.
Proof. exact (fun q mem st status => c59_limit q mem status st). Qed.
Print Assumptions C59_limit.

Theorem C59_decides : forall (q : eqp) (mem : qst),
  convex q -> well_scaled q -> (e_E q <= e_n q)%nat ->
  (subsets (e_I q) (e_n q - e_E q) < e_max q)%nat -> ~ eqs_dependent q ->
  (exists st, returns q mem st_OPTIMAL st) \/ (exists st, returns q mem st_UNBOUNDED st /\ forall y, ~ feasible q y).
Proof. exact c59_decides. Qed.
Print Assumptions C59_decides.

Theorem C59_dependent : forall (q : eqp) (mem : qst),
  convex q -> well_scaled q -> (e_E q <= e_n q)%nat -> eqs_dependent q ->
  exists st, returns q mem st_REDUNDANT st.
Proof. exact c59_dependent. Qed.
Print Assumptions C59_dependent.

Theorem C59_subsets : forall m k : nat, (subsets m k <= 2 ^ m)%nat /\ (forall k', (m <= k')%nat -> subsets m k' = 2 ^ m)%nat /\
  (subsets 17 3 < 1000)%nat.
Proof. exact c59_subsets. Qed.
Print Assumptions C59_subsets.
