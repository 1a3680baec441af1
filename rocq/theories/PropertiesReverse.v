(** Property theorems C93: plans run backwards.  Vocabulary: SpecReverse.v, SpecBest.v. *)
From Coq Require Import List Reals.
From Verif Require Import Vec SpecBezier SpecTime ModelData ModelDispatch ModelUtils ModelCont ModelSolver ModelTraj
  SpecCom SpecCtr SpecTraj SpecEnd SpecBest SpecReverse ProofReverse ProofReverse2.
Import ListNotations.
Open Scope R_scope.

(** C93: with positions and velocities at both ends and a fixed number of points per phase, the plan of the problem run
    backwards is the plan run backwards.  (Both ways: reversing twice changes nothing.) *)
Theorem C93_plan : forall scaled wg quadprog glpk, qp_solves quadprog -> qp_sound quadprog -> lp_sound glpk -> forall p Ts n r,
  plannable p Ts -> flag_of p = F_dc1_c1 -> (1 <= n)%nat -> cost_decides p Ts (computeDiscretizedTimeFixed Ts n) ->
  computeCOMTrajFixedSize scaled wg quadprog glpk p Ts n = Ok r -> rc_success r = true ->
  exists r', computeCOMTrajFixedSize scaled wg quadprog glpk (reverse p) (rev Ts) n = Ok r' /\ rc_success r' = true /\
    rc_x r' = rc_x r /\ bc_T (rc_c r') = bc_T (rc_c r) /\ forall t, cv_fun (rc_c r') t = cv_fun (rc_c r) (total Ts - t).
Proof. exact c93_plan. Qed.
Print Assumptions C93_plan.
Theorem C93_twice : forall p, reverse (reverse p) = p.
Proof. exact reverse_twice. Qed.
Print Assumptions C93_twice.
(** With a time step the samples are not symmetric, and a problem can be solvable in one direction only. *)
Theorem C93_step_refuted : exists p dt, plannable p [1] /\ flag_of p = F_dc1_c1 /\ 0 < dt /\
  forall scaled wg quadprog glpk, qp_solves quadprog -> qp_sound quadprog -> lp_sound glpk ->
    (exists r, call scaled wg quadprog glpk p [1] (Every dt) = Ok r /\ rc_success r = true) /\
    forall r, call scaled wg quadprog glpk (reverse p) (rev [1]) (Every dt) = Ok r -> rc_success r = false.
Proof. exact c93_step. Qed.
Print Assumptions C93_step_refuted.
