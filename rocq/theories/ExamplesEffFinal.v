(** Concrete inputs for the theorems of PropertiesEffFinal.v. *)
From Coq Require Import List Reals Lra.
From Verif Require Import Vec SpecBezier ModelData ModelWaypointsJerk ModelDispatch ModelCont ModelEff SpecCom SpecEff
  ProofCurve PropertiesEffFinal.
Import ListNotations.
Open Scope R_scope.

(** An effector that ends with velocity 4 along x (flag [fl]). *)
Definition landing (fl : Z) : problem :=
  Problem [] vzero vzero vzero vzero (V3 1 0 0) (V3 4 0 0) vzero vzero vzero false (Constraints fl false 0 0) 0 0.

(** One free point: 3 instead of 4; three or five: 0. *)
Example ex_C104 : j0j1_computeFinalVelocityPoint (landing F_jerk) 2 = Ok (0, V3 3 0 0) /\
  x3_computeFinalVelocityPoint (landing F_x3) 2 = Ok (0, vzero) /\ x5_computeFinalVelocityPoint (landing F_x5) 2 = Ok (0, vzero).
Proof.
  split; [|exact (conj (proj1 (C104_more (landing F_x3) 2 ltac:(lra))) (proj2 (C104_more (landing F_x5) 2 ltac:(lra))))].
  rewrite C104_one by lra. do 2 f_equal. apply v3_eq; cbn; lra.
Qed.
Example ex_C104_wrong : exists cv v, eff_curve (landing F_jerk) 2 [V3 0 0 1] = Ok cv /\
  j0j1_computeFinalVelocityPoint (landing F_jerk) 2 = Ok (0, v) /\ ~ is_deriv_n 1 (cv_fun cv) 2 v.
Proof.
  destruct (C104_right (landing F_jerk) 2 [V3 0 0 1]) as (cv & v & E & Ev & H); [left; reflexivity|reflexivity|lra|].
  exists cv, v. split; [exact E|]. split; [exact Ev|]. intros D. apply H in D. apply (f_equal vx) in D. cbn in D. lra.
Qed.
(** At rest at the end it is right. *)
Example ex_C104_right : exists cv v, eff_curve (Problem [] vzero vzero vzero vzero (V3 1 0 0) vzero vzero vzero vzero false (Constraints F_x3 false 0 0) 0 0) 2
   [V3 0 0 1; V3 1 0 1; V3 1 0 0] = Ok cv /\ is_deriv_n 1 (cv_fun cv) 2 v /\ v = vzero.
Proof.
  destruct (C104_right (Problem [] vzero vzero vzero vzero (V3 1 0 0) vzero vzero vzero vzero false (Constraints F_x3 false 0 0) 0 0) 2
    [V3 0 0 1; V3 1 0 1; V3 1 0 0]) as (cv & v & E & Ev & H); [right; left; reflexivity|reflexivity|lra|].
  exists cv, v. split; [exact E|].
  change (x3_computeFinalVelocityPoint (Problem [] vzero vzero vzero vzero (V3 1 0 0) vzero vzero vzero vzero false (Constraints F_x3 false 0 0) 0 0) 2 = Ok (0, v)) in Ev.
  rewrite (proj1 (C104_more _ 2 ltac:(lra))) in Ev. injection Ev as <-. split; [apply H; reflexivity|reflexivity].
Qed.
