(** Specification vocabulary for results without success. *)
From Verif Require Import Vec SpecBezier ModelData ModelDispatch ModelTraj SpecCom.
Open Scope R_scope.

(** The result carries nothing: no success, cost -1, no x, both curves zero on [0,1], and zero for the
    final velocity and acceleration. *)
Definition nothing (r : resultCOM) : Prop :=
  rc_success r = false /\ rc_cost r = -1 /\ rc_x r = [] /\
  bc_T (rc_c r) = 1 /\ (forall t, cv_fun (rc_c r) t = vzero) /\
  bc_T (rc_dL r) = 1 /\ (forall t, cv_fun (rc_dL r) t = vzero) /\
  rc_dc1 r = vzero /\ rc_ddc1 r = vzero.
