(** Property theorems C114: end-effector motions run backwards.  Vocabulary:
    SpecEff.v, SpecReverse.v. *)
From Coq Require Import List Reals.
From Verif Require Import Vec SpecBezier ModelData ModelDispatch ModelEff SpecCom SpecEff SpecReverse ProofEffReverse.
Import ListNotations.
Open Scope R_scope.

(** C114: the curve of the reversed problem for the free points in reverse
    order is the curve run backwards, *)
Theorem C114_curve : forall p T xs cv,
  In (flag_of p) effector_flags -> length xs = eff_free (flag_of p) -> 0 < T -> eff_curve p T xs = Ok cv ->
  exists cv', eff_curve (reverse p) T (rev xs) = Ok cv' /\ bc_T cv' = T /\ forall t, cv_fun cv' t = cv_fun cv (T - t).
Proof. exact c114_reverse. Qed.
Print Assumptions C114_curve.
(** and, with three or five free points, as close to the path run backwards
    as the curve is to the path, as the distance cost measures it (C35, C36). *)
Theorem C114_path : forall N p T cv cv' P,
  flag_of p <> F_jerk -> (2 <= N)%nat -> (forall t, cv_fun cv' t = cv_fun cv (T - t)) ->
  path_gap N (reverse p) T cv' (fun i => P (N - 1 - i)%nat) = path_gap N p T cv P.
Proof. exact c114_path. Qed.
Print Assumptions C114_path.
(** With one free point it need not be: the cost adds a multiple of c1 - c0. *)
Theorem C114_path_refuted : exists N p T xs cv cv' P,
  flag_of p = F_jerk /\ (2 <= N)%nat /\ 0 < T /\ eff_curve p T xs = Ok cv /\ eff_curve (reverse p) T (rev xs) = Ok cv' /\
  (forall t, cv_fun cv' t = cv_fun cv (T - t)) /\
  path_gap N (reverse p) T cv' (fun i => P (N - 1 - i)%nat) <> path_gap N p T cv P.
Proof. exact c114_refuted. Qed.
Print Assumptions C114_path_refuted.
