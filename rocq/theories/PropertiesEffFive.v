(** Property theorems C103: evaluation of end-effector curves with five free points.  Vocabulary: SpecEff.v, SpecEffFive.v. *)
From Coq Require Import List Reals.
From Verif Require Import Vec SpecBezier ModelData ModelDispatch ModelCont ModelEff SpecCom SpecEff SpecEffFive ProofEffFive.
Import ListNotations.
Open Scope R_scope.

(** C103: velocity, acceleration and jerk are evaluated on another curve, of degree 10, that does not depend on the last two
    free points; the velocity is independent of the time as far as the free points are concerned, the powers of the part
    without free points of velocity and acceleration are permuted. *)
Theorem C103_five : forall pData T xs, flag_of pData = F_x5 -> length xs = 5%nat -> 0 < T ->
  exists pi cv Pv Pa, computeConstantWaypoints pData T = Ok pi /\ eff_curve pData T xs = Ok cv /\
    length Pv = 10%nat /\ deriv_points 1 (cv_fun (of_ten cv T [vzero;vzero;vzero])) T Pv /\
    length Pa = 9%nat /\ deriv_points 2 (cv_fun (of_ten cv T [vzero;vzero;vzero])) T Pa /\
    forall s, exists wv wa wj, evaluateVelocityCurveWaypointAtTime pData T pi s = Ok wv /\
      evaluateAccelerationCurveWaypointAtTime pData T pi s = Ok wa /\ evaluateJerkCurveWaypointAtTime pData T pi s = Ok wj /\
      ev_wpn wv xs = vadd (vscal (1 / T) (sum_points xs)) (vadd (curve Pv T (s * T)) (moved sigma_vel Pv s)) /\
      is_deriv_n 2 (cv_fun (of_ten cv T xs)) (s * T) (vsub (ev_wpn wa xs) (moved sigma_acc Pa s)) /\
      is_deriv_n 3 (cv_fun (of_ten cv T xs)) (s * T) (ev_wpn wj xs).
Proof. exact c103_five. Qed.
Print Assumptions C103_five.
(** At the start: 15/22 of the given acceleration, 6/11 of the given jerk. *)
Theorem C103_start : forall pData T xs, flag_of pData = F_x5 -> length xs = 5%nat -> 0 < T ->
  exists pi wv wa wj, computeConstantWaypoints pData T = Ok pi /\
    evaluateVelocityCurveWaypointAtTime pData T pi 0 = Ok wv /\
    evaluateAccelerationCurveWaypointAtTime pData T pi 0 = Ok wa /\ evaluateJerkCurveWaypointAtTime pData T pi 0 = Ok wj /\
    ev_wpn wv xs = vadd (vscal (1 / T) (sum_points xs)) (vscal (5 / 6) (dc0 pData)) /\
    ev_wpn wa xs = vscal (15 / 22) (ddc0 pData) /\ ev_wpn wj xs = vscal (6 / 11) (j0 pData).
Proof. exact c103_start. Qed.
Print Assumptions C103_start.
