(** Concrete inputs for the theorems of PropertiesEffFive.v. *)
From Coq Require Import List Reals Lra.
From Verif Require Import Vec SpecBezier ModelData ModelDispatch ModelCont ModelEff SpecCom SpecEff SpecEffFive
  ProofCurve PropertiesEffFive.
Import ListNotations.
Open Scope R_scope.

(** An effector that starts at the origin with velocity 6, acceleration 22 and jerk 11 along x. *)
Definition x5_pb : problem :=
  Problem [] vzero (V3 6 0 0) (V3 22 0 0) (V3 11 0 0) (V3 1 0 0) vzero vzero vzero vzero false (Constraints F_x5 false 0 0) 0 0.
Definition x5_xs : list vec3 := [V3 1 0 0; V3 1 0 1; V3 1 0 1; V3 1 0 1; V3 1 0 0].

(** The velocity evaluated at the start is (5/2 + 5, 0, 3/2), the acceleration 15 and the jerk 6. *)
Example ex_C103_start : exists pi wv wa wj, computeConstantWaypoints x5_pb 2 = Ok pi /\
  evaluateVelocityCurveWaypointAtTime x5_pb 2 pi 0 = Ok wv /\
  evaluateAccelerationCurveWaypointAtTime x5_pb 2 pi 0 = Ok wa /\ evaluateJerkCurveWaypointAtTime x5_pb 2 pi 0 = Ok wj /\
  ev_wpn wv x5_xs = V3 (15 / 2) 0 (3 / 2) /\ ev_wpn wa x5_xs = V3 15 0 0 /\ ev_wpn wj x5_xs = V3 6 0 0.
Proof.
  destruct (C103_start x5_pb 2 x5_xs eq_refl eq_refl ltac:(lra)) as (pi & wv & wa & wj & E & A & B & C & Va & Vb & Vc).
  exists pi, wv, wa, wj. repeat (split; [assumption|]). rewrite Va, Vb, Vc.
  split; [|split]; apply v3_eq; cbn; lra.
Qed.
Example ex_C103_five : flag_of x5_pb = F_x5 /\ length x5_xs = 5%nat /\ exists cv, eff_curve x5_pb 2 x5_xs = Ok cv /\
  nth 7 (bc_pts (of_ten cv 2 x5_xs)) (V3 1 1 1) = vzero /\ nth 6 (bc_pts (of_ten cv 2 x5_xs)) vzero = V3 1 0 1.
Proof.
  split; [reflexivity|]. split; [reflexivity|].
  destruct (C103_five x5_pb 2 x5_xs eq_refl eq_refl ltac:(lra)) as (pi & cv & Pv & Pa & _ & E & _).
  exists cv. split; [exact E|]. split; reflexivity.
Qed.
