(** Property theorems C104: computeFinalVelocityPoint of the three end-effector headers, which the dispatch of
    waypoints_definition.cpp does not offer (C08).  Vocabulary: SpecEff.v, SpecBezier.v. *)
From Coq Require Import List Reals.
From Verif Require Import Vec SpecBezier ModelData ModelWaypointsJerk ModelDispatch ModelCont ModelEff SpecCom SpecEff ProofEffFinal.
Import ListNotations.
Open Scope R_scope.

(** C104: one free point. *)
Theorem C104_one : forall pData T, 0 < T ->
  j0j1_computeFinalVelocityPoint pData T =
    Ok (0, vadd (vsub (vscal (3 / 4) (dc1 pData)) (vscal (3 * T / 14) (ddc1 pData))) (vscal (T * T / 56) (j1 pData))).
Proof. exact c104_one. Qed.
Print Assumptions C104_one.
(** Three and five free points: nothing. *)
Theorem C104_more : forall pData T, 0 < T ->
  x3_computeFinalVelocityPoint pData T = Ok (0, vzero) /\ x5_computeFinalVelocityPoint pData T = Ok (0, vzero).
Proof. exact c104_more. Qed.
Print Assumptions C104_more.
(** So it is the velocity at the end of the curve only under a condition on the given end state. *)
Theorem C104_right : forall pData T xs, In (flag_of pData) effector_flags -> length xs = eff_free (flag_of pData) -> 0 < T ->
  exists cv v, eff_curve pData T xs = Ok cv /\
    (if Z.eqb (flag_of pData) F_jerk then j0j1_computeFinalVelocityPoint pData T
     else if Z.eqb (flag_of pData) F_x3 then x3_computeFinalVelocityPoint pData T
     else x5_computeFinalVelocityPoint pData T) = Ok (0, v) /\
    (is_deriv_n 1 (cv_fun cv) T v <->
     if Z.eqb (flag_of pData) F_jerk then vscal (T * T) (j1 pData) = vadd (vscal 14 (dc1 pData)) (vscal (12 * T) (ddc1 pData))
     else dc1 pData = vzero).
Proof. exact c104_right. Qed.
Print Assumptions C104_right.
