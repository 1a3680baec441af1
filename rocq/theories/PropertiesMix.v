(** Property theorems C98, C99: mixtures of plans; back ends.  Vocabulary: SpecMix.v, SpecBest.v, SpecTraj.v. *)
From Coq Require Import List Reals.
From Verif Require Import Vec SpecBezier SpecTime ModelData ModelDispatch ModelUtils ModelCont ModelSolver ModelTraj
  SpecCom SpecCtr SpecTraj SpecEnd SpecBest SpecMix ProofMix.
Import ListNotations.
Open Scope R_scope.

(** C98: the motion of a mixture of free points is the mixture of the motions; it meets the constraints at every time at
    which both do, and costs no more than the mixture of their costs; all seven flags. *)
Theorem C98_mix : forall p Ts x y l cvx cvy cvz, well_posed p Ts -> 0 <= l <= 1 ->
  com_curve p (total Ts) x = Ok cvx -> com_curve p (total Ts) y = Ok cvy -> com_curve p (total Ts) (mixed l x y) = Ok cvz ->
  (forall t, cv_fun cvz t = mixed l (cv_fun cvx t) (cv_fun cvy t)) /\
  (forall times, plan_feasible p times (cv_fun cvx) -> plan_feasible p times (cv_fun cvy) -> plan_feasible p times (cv_fun cvz)) /\
  forall ta sx sy sz, plan_cost p ta x (cv_fun cvx) sx -> plan_cost p ta y (cv_fun cvy) sy -> plan_cost p ta (mixed l x y) (cv_fun cvz) sz ->
    sz <= (1 - l) * sx + l * sy.
Proof. exact c98_mix. Qed.
Print Assumptions C98_mix.
(** So two plans of a problem, however they were sampled, can be blended. *)
Theorem C98_results : forall scaled wg quadprog glpk, qp_sound quadprog -> lp_sound glpk ->
  forall p Ts m n r r' l, plannable p Ts -> proper m -> proper n -> 0 <= l <= 1 ->
  call scaled wg quadprog glpk p Ts m = Ok r -> rc_success r = true -> call scaled wg quadprog glpk p Ts n = Ok r' -> rc_success r' = true ->
  exists x y cv, rc_x r = l3 x /\ rc_x r' = l3 y /\ com_curve p (total Ts) (mixed l x y) = Ok cv /\
    (forall t, cv_fun cv t = mixed l (cv_fun (rc_c r) t) (cv_fun (rc_c r') t)) /\ meets_boundary p (total Ts) (cv_fun cv) /\
    plan_feasible p (fun i t => sampled Ts m i t /\ sampled Ts n i t) (cv_fun cv).
Proof. exact c98_results. Qed.
Print Assumptions C98_results.

(** C99: all sound back ends that solve strictly convex problems give the same result, field for field. *)
Theorem C99_back_ends : forall scaled wg1 wg2 qp1 qp2 lp1 lp2, qp_solves qp1 -> qp_sound qp1 -> lp_sound lp1 -> qp_solves qp2 -> qp_sound qp2 -> lp_sound lp2 ->
  forall p Ts m r, plannable p Ts -> costFunction p = DISTANCE_TRAVELED \/ costFunction p = ACCELERATION -> proper m -> rc_success r = true ->
  (call scaled wg1 qp1 lp1 p Ts m = Ok r <-> call scaled wg2 qp2 lp2 p Ts m = Ok r).
Proof. exact c99_iff. Qed.
Print Assumptions C99_back_ends.
