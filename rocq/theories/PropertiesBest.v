(** Property theorems C90, C91: the discretised planner returns the one best motion, so plans can be compared.
    Vocabulary: SpecBest.v, SpecEnd.v, SpecTraj.v. *)
From Coq Require Import List Reals.
From Verif Require Import Vec SpecBezier SpecTime ModelData ModelDispatch ModelUtils ModelCont ModelSolver ModelTraj
  SpecCom SpecCtr SpecTraj SpecEnd SpecBest ProofBest ProofBest2.
Open Scope R_scope.

(** C90: there is at most one best motion, *)
Theorem C90_unique : forall p Ts m ta x cv y cvy, plannable p Ts -> proper m -> cost_times Ts m ta -> cost_decides p Ts ta ->
  best p Ts m ta x cv -> best p Ts m ta y cvy -> x = y /\ cv = cvy.
Proof. exact (fun p Ts m ta x cv y cvy PL => best_unique true true (fun _ _ => UB) (fun _ => UB) p Ts PL m ta x cv y cvy). Qed.
Print Assumptions C90_unique.
(** the planner returns it when it exists, *)
Theorem C90_found : forall scaled wg quadprog glpk, qp_solves quadprog -> forall p Ts, plannable p Ts ->
  forall m ta x cv, proper m -> cost_times Ts m ta -> cost_decides p Ts ta -> best p Ts m ta x cv ->
  exists r, call scaled wg quadprog glpk p Ts m = Ok r /\ rc_success r = true /\ rc_x r = l3 x /\ rc_c r = cv.
Proof. exact c90_found. Qed.
Print Assumptions C90_found.
(** and it returns nothing else. *)
Theorem C90_returned : forall scaled wg quadprog glpk, qp_solves quadprog -> forall p Ts, plannable p Ts ->
  qp_sound quadprog -> lp_sound glpk ->
  forall m ta r, proper m -> cost_times Ts m ta -> cost_decides p Ts ta ->
  call scaled wg quadprog glpk p Ts m = Ok r -> rc_success r = true ->
  exists x, rc_x r = l3 x /\ best p Ts m ta x (rc_c r).
Proof. exact c90_returned. Qed.
Print Assumptions C90_returned.

(** C91: asking for less, or at fewer times, succeeds whenever asking for more does, at no greater cost; *)
Theorem C91_eases : forall scaled wg quadprog glpk, qp_solves quadprog -> qp_sound quadprog -> lp_sound glpk ->
  forall p q Ts, plannable p Ts -> plannable q Ts -> forall m n ta r, eases p q -> proper m -> proper n -> finer m n ->
  cost_times Ts n ta -> cost_decides q Ts ta ->
  call scaled wg quadprog glpk p Ts m = Ok r -> rc_success r = true ->
  exists r' x x' s s', call scaled wg quadprog glpk q Ts n = Ok r' /\ rc_success r' = true /\
    rc_x r = l3 x /\ rc_x r' = l3 x' /\
    plan_cost q ta x (cv_fun (rc_c r)) s /\ plan_cost q ta x' (cv_fun (rc_c r')) s' /\ s' <= s.
Proof. exact c91_eases. Qed.
Print Assumptions C91_eases.
(** and asking for the same in another way gives the same answer. *)
Theorem C91_same : forall scaled wg quadprog glpk, qp_solves quadprog -> qp_sound quadprog -> lp_sound glpk ->
  forall p q Ts m ta r, plannable p Ts -> plannable q Ts -> eases p q -> eases q p -> proper m ->
  cost_times Ts m ta -> cost_decides p Ts ta -> rc_success r = true ->
  (call scaled wg quadprog glpk p Ts m = Ok r <-> call scaled wg quadprog glpk q Ts m = Ok r).
Proof. exact c91_same. Qed.
Print Assumptions C91_same.
