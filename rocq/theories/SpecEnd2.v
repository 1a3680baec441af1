(** Specification vocabulary for continuous plans made with the bundled QP solver. *)
From Verif Require Import Vec SpecBezier SpecTime ModelData ModelDispatch ModelCont ModelSolver ModelTraj ModelQp
  SpecCom SpecCtr SpecCont SpecTraj SpecEnd.
Open Scope R_scope.

(** Moving the free point changes the [k] control points on [[0,T]] of the
    gravito-inertial wrench of a unit mass at most [B] times as much. *)
Definition wrench_ctrl_rate (pData : problem) (T : R) (g : vec3) (k : nat) (B : R) : Prop :=
  forall x y cvx cvy P Q, com_curve pData T x = Ok cvx -> com_curve pData T y = Ok cvy ->
    length P = k -> length Q = k ->
    ctrl_giw P 0 T (CPhase [] 1 g []) (cv_fun cvx) -> ctrl_giw Q 0 T (CPhase [] 1 g []) (cv_fun cvy) ->
    Forall2 (fun p q => norm6 (v6sub p q) <= B * vnorm (vsub x y)) P Q.

(** Bound on the change of the control points of the acceleration, which the curve
    library divides by T^2 or not (see SpecCont.acc_bound). *)
Definition acc_ctrl_rate (scaled : bool) (Ts : list R) : R :=
  if scaled then 120 / (total Ts * total Ts) else 120.
(** The bound on the acceleration of [acc_bound], exceeded by [tau]. *)
Definition acc_bound_near (scaled : bool) (pData : problem) (Ts : list R) (tau : R) : R :=
  if scaled then k_maxAcceleration (constr pData) + tau
  else (k_maxAcceleration (constr pData) + tau) / (total Ts * total Ts).

(** On every phase the control points of the motion [cv], of its acceleration and
    of its wrench ([k] of them) meet the constraints. *)
Definition ctrl_feasible (scaled : bool) (pData : problem) (Ts : list R) (k : nat) (cv : bcurve) : Prop :=
  forall i c ph Pc Pa Pw, nth_error (contacts pData) i = Some c -> cd_phase c = Some ph ->
    length Pc = length (bc_pts cv) -> ctrl_pos Pc (phase_start Ts i) (phase_end Ts i) (cv_fun cv) ->
    length Pa = (length (bc_pts cv) - 2)%nat -> ctrl_acc Pa (phase_start Ts i) (phase_end Ts i) (cv_fun cv) ->
    length Pw = k -> ctrl_giw Pw (phase_start Ts i) (phase_end Ts i) ph (cv_fun cv) ->
    Forall (kin_ok c) Pc /\ Forall (within (acc_bound scaled pData Ts)) Pa /\ Forall (cone_ok (margin pData) 0 ph) Pw.
