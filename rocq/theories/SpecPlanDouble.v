(** Specification vocabulary for plans computed in double arithmetic. *)
From Flocq Require Import Core BinarySingleNaN.
From Verif Require Import Vec SpecBezier ModelData ModelUtils ModelWaypoints ModelDispatch SpecCom SpecGap Double ModelPtsDouble ModelRowsDouble SpecDouble SpecPtsDouble SpecCoefDouble SpecRowsDouble.
Open Scope R_scope.

(** Error of a control point of the returned curve along an axis. *)
Definition dev (T : R) (pData : problem) (ax : vec3 -> R) : R := curve_err T (start_state pData) (end_state pData) ax.
(** Total error of a kinematic row [K c <= k], of a bound on the acceleration, at a sample of the returned curve of degree [n]. *)
Definition kin_tol (n : nat) (T : R) (pData : problem) (x : vec3) (K : vec3) (k : R) : R :=
  kin_err n T pData x K k + (Rabs (vx K) * dev T pData vx + Rabs (vy K) * dev T pData vy + Rabs (vz K) * dev T pData vz).
Definition acc_tol (n : nat) (T : R) (pData : problem) (x : vec3) (amax : R) (ax : vec3 -> R) : R :=
  accel_err n T pData x amax ax + 120 * (dev T pData ax / T ^ 2).

(** At [t] the curve [f] meets the kinematic constraints of the phase up to [ek K k], and the bound on the acceleration up to [ea]. *)
Definition meets (c : fcontact) (amax : f64) (f : R -> vec3) (t : R) (ek : vec3 -> R -> R) (ea : (vec3 -> R) -> R) : Prop :=
  (forall K k, kin_of c K k -> vdot (fv_R K) (f t) <= B2R k + ek (fv_R K) (B2R k)) /\
  exists v, is_deriv_n 2 f t v /\ forall ax, axis ax -> Rabs (ax v) <= B2R amax + ea ax.
(** The same, for a curve of degree [n] with control points of at most [M] whose samples are at most [h] apart and whose rows are met up to [del]. *)
Definition meets_between (pData : problem) (T : R) (x : vec3) (c : fcontact) (amax : f64) (cf : bcurve) (del M h t : R) : Prop :=
  let n := degree cf in
  meets c amax (cv_fun cf) t (fun K k => del + kin_tol n T pData x K k + norm1 K * gap_pos n T M h)
    (fun ax => del + acc_tol n T pData x (B2R amax) ax + gap_acc n T M h).
