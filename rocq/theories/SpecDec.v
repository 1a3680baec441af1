(** Specification vocabulary for plans with the two flags whose wrench formulas use
    decimals. *)
From Verif Require Import Vec SpecBezier SpecTime ModelData ModelDispatch SpecCom SpecCtr SpecTraj.
Open Scope R_scope.

(** The error of the computed wrench, as a slack of the cone: gravity within [G],
    control points of the motion within [M], duration [T]. *)
Definition dec_slack (G M T : R) : R := 3 * (err_force M T + err_moment G M T).
(** All constraints of a discretised plan, with the slack [sl] for the cone (a reserve if
    negative). *)
Definition plan_feasible_by (pData : problem) (sampled : nat -> R -> Prop) (sl : R) (f : R -> vec3) : Prop :=
  forall i c t, nth_error (contacts pData) i = Some c -> sampled i t -> contact_ok pData sl c f t /\ accel_ok pData f t.
