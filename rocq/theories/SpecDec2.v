(** Specification vocabulary for continuous plans with the two flags whose wrench
    formulas use decimals. *)
From Verif Require Import Vec SpecBezier SpecTime ModelData ModelDispatch SpecCom SpecCtr SpecCont SpecTraj.
Open Scope R_scope.

(** On every phase the control points of the motion [cv], of its acceleration and
    of its wrench ([k] of them) meet the constraints, those of the wrench with the slack
    [sl] (a reserve if negative). *)
Definition ctrl_feasible_by (scaled : bool) (pData : problem) (Ts : list R) (k : nat) (sl : R) (cv : bcurve) : Prop :=
  forall i c ph Pc Pa Pw, nth_error (contacts pData) i = Some c -> cd_phase c = Some ph ->
    length Pc = length (bc_pts cv) -> ctrl_pos Pc (phase_start Ts i) (phase_end Ts i) (cv_fun cv) ->
    length Pa = (length (bc_pts cv) - 2)%nat -> ctrl_acc Pa (phase_start Ts i) (phase_end Ts i) (cv_fun cv) ->
    length Pw = k -> ctrl_giw Pw (phase_start Ts i) (phase_end Ts i) ph (cv_fun cv) ->
    Forall (kin_ok c) Pc /\ Forall (within (acc_bound scaled pData Ts)) Pa /\ Forall (cone_ok (margin pData) sl ph) Pw.
