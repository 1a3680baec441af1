(** Property theorems C96: when the acceleration cost determines the plan.  Vocabulary: SpecTraj.v, SpecBest.v. *)
From Coq Require Import List Reals.
From Verif Require Import Vec SpecBezier SpecTime ModelData ModelDispatch ModelUtils ModelCont ModelSolver ModelTraj ModelQp
  SpecCom SpecCtr SpecTraj SpecEnd SpecBest ProofDepends ProofDepends2.
Import ListNotations.
Open Scope R_scope.

(** C96: for six of the seven flags the acceleration depends on the free point at some sample, however few there are; *)
Theorem C96_six : forall p Ts m ta, well_posed p Ts -> flag_of p <> F_acc_all -> proper m -> cost_times Ts m ta -> acc_depends p Ts ta.
Proof. exact c96_six. Qed.
Print Assumptions C96_six.
(** so where the stability constraint is exact (C90 to C94), every problem with one of the two costs has a best motion at most once. *)
Theorem C96_decides : forall p Ts m ta, plannable p Ts -> costFunction p = DISTANCE_TRAVELED \/ costFunction p = ACCELERATION ->
  proper m -> cost_times Ts m ta -> cost_decides p Ts ta.
Proof. exact c96_decides. Qed.
Print Assumptions C96_decides.
(** With all of positions, velocities and accelerations given at both ends, it does exactly if some sample s, as a
    fraction of the duration, is not a root of s (1 - s) (5 s^2 - 5 s + 1). *)
Theorem C96_seventh : forall p Ts ta, well_posed p Ts -> flag_of p = F_acc_all ->
  (acc_depends p Ts ta <-> exists tp, In tp ta /\ let s := fst tp / total Ts in s * (1 - s) * (5 * s * s - 5 * s + 1) <> 0).
Proof. exact c96_seventh. Qed.
Print Assumptions C96_seventh.
(** If it does not, all motions cost the same, and the planner with the bundled solver factorises a zero matrix without
    looking at the outcome, which the model treats as undefined, whatever the constraints. *)
Theorem C96_undefined : forall p Ts m ta, well_posed p Ts -> (exists g, same_gravity p g) -> flag_of p = F_acc_all -> costFunction p = ACCELERATION ->
  proper m -> cost_times Ts m ta -> ~ acc_depends p Ts ta ->
  (forall x y cvx cvy s s', com_curve p (total Ts) x = Ok cvx -> com_curve p (total Ts) y = Ok cvy ->
     plan_cost p ta x (cv_fun cvx) s -> plan_cost p ta y (cv_fun cvy) s' -> s = s') /\
  forall scaled wg mem glpk, call scaled wg (solve_quadprog mem) glpk p Ts m = UB.
Proof. exact c96_undefined. Qed.
Print Assumptions C96_undefined.
(** This happens for one phase sampled at its ends. *)
Theorem C96_ends_refuted : forall p d, well_posed p [d] -> (exists g, same_gravity p g) -> flag_of p = F_acc_all -> costFunction p = ACCELERATION ->
  forall scaled wg mem glpk, computeCOMTrajFixedSize scaled wg (solve_quadprog mem) glpk p [d] 1 = UB.
Proof. exact c96_ends. Qed.
Print Assumptions C96_ends_refuted.
