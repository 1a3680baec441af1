(** Property theorems C89: times, control points and rows all computed in doubles, and the curve that is returned.
    Vocabulary: SpecPlanDouble.v, SpecRowsDouble.v, SpecGapDouble.v, SpecGap.v, SpecPtsDouble.v. *)
From Flocq Require Import Core BinarySingleNaN.
From Coq Require Import List.
From Verif Require Import Vec SpecBezier SpecTime ModelData ModelDispatch SpecCom SpecGap Double ModelDouble ModelPtsDouble ModelRowsDouble
  SpecDouble SpecDouble2 SpecGapDouble SpecPtsDouble SpecCoefDouble SpecRowsDouble SpecPlanDouble ProofPlanDouble2.
Import ListNotations.
Open Scope R_scope.

(** C89, steps of [dt]: times, control points, kinematic and acceleration rows are computed in doubles without undefined
    behaviour.  Whatever free point is chosen, if it meets the rows up to [del], then the curve built from the rounded control
    points meets the kinematic constraints of each phase throughout it, and the bound on the acceleration, up to [del] and the
    stated tolerances.  The phases cover [0, T] unless T is past the end of the last. *)
Theorem C89_step : forall d pData T, denotes d pData -> mild_data d -> is_finite T = true -> 0 < B2R T -> B2R T <= 2 ^ 200 ->
  In (flag_of pData) com_flags -> (flag_of pData = F_capture -> dc1 pData = vzero) -> / 2 ^ 100 <= B2R T ->
  forall Ts dt fuel ta, Ts <> [] -> Forall posf Ts -> posf dt -> is_finite (end_f Ts (length Ts)) = true ->
  computeDiscretizedTime_f fuel Ts dt = Some ta ->
  forall sub fcs amax, subtracts sub -> Forall mild_contact fcs -> length fcs = length Ts -> mild amax -> exists ev rk ra,
  evaluates T ev /\
  (B2R T <= B2R (end_f Ts (length Ts)) -> forall t, 0 <= t <= B2R T -> exists i, (i < length Ts)%nat /\ ev (start_f Ts i) <= t <= ev (end_f Ts i)) /\
  assignKinematicConstraints_f sub d fcs T ta = Ok rk /\ assignAccelerationConstraints_f d amax T ta = Ok ra /\
  forall x, exists cf, com_curve_f d T x = Ok cf /\
    forall del M, 0 <= M -> Forall (within M) (bc_pts cf) -> Forall (fun r => holds del r x) (rk ++ ra) ->
    forall i c t, nth_error fcs i = Some c -> ev (start_f Ts i) <= t <= ev (end_f Ts i) ->
      meets_between pData (B2R T) x c amax cf del M (gap_step (B2R T) (B2R dt)) t.
Proof. exact plan_step. Qed.
Print Assumptions C89_step.

(** C89, [p] points per phase, T being within [del0] of the exact total of the durations. *)
Theorem C89_fixed : forall d pData T, denotes d pData -> mild_data d -> is_finite T = true -> 0 < B2R T -> B2R T <= 2 ^ 200 ->
  In (flag_of pData) com_flags -> (flag_of pData = F_capture -> dc1 pData = vzero) -> / 2 ^ 100 <= B2R T ->
  forall (Ts : list f64) p del0, Ts <> [] -> Forall posf Ts -> (1 <= p)%nat -> (Z.of_nat (length Ts) * Z.of_nat p < 2 ^ 53)%Z ->
  total (map (fun d : f64 => B2R d) Ts) <= IZR (2 ^ 1000) -> (forall d, In d Ts -> / IZR (2 ^ 1022) <= B2R d / INR p) ->
  Rabs (B2R T - total (map (fun d : f64 => B2R d) Ts)) <= del0 ->
  let arr := computeDiscretizedTimeFixed_f T Ts p in
  forall sub fcs amax, subtracts sub -> Forall mild_contact fcs -> length fcs = length Ts -> mild amax -> exists ev rk ra,
  evaluates T ev /\
  (forall t, 0 <= t <= B2R T -> exists i s zs e ze, (i < length Ts)%nat /\
     nth_error arr (i * p) = Some (s, zs) /\ nth_error arr (i * p + p) = Some (e, ze) /\ ev s <= t <= ev e) /\
  assignKinematicConstraints_f sub d fcs T arr = Ok rk /\ assignAccelerationConstraints_f d amax T arr = Ok ra /\
  forall x, exists cf, com_curve_f d T x = Ok cf /\
    forall del M, 0 <= M -> Forall (within M) (bc_pts cf) -> Forall (fun r => holds del r x) (rk ++ ra) ->
    forall i c D s zs e ze t, nth_error fcs i = Some c -> nth_error Ts i = Some D ->
      nth_error arr (i * p) = Some (s, zs) -> nth_error arr (i * p + p) = Some (e, ze) -> ev s <= t <= ev e ->
      meets_between pData (B2R T) x c amax cf del M (gap_fixed (length Ts) p (total (map (fun d : f64 => B2R d) Ts)) del0 (B2R T) (B2R D)) t.
Proof. exact plan_fixed. Qed.
Print Assumptions C89_fixed.
