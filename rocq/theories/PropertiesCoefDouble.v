(** Property theorems C87: samples of the curve computed in doubles.  Vocabulary: SpecCoefDouble.v, SpecPtsDouble.v. *)
From Flocq Require Import Core BinarySingleNaN.
From Coq Require Import List.
From Verif Require Import Vec SpecBezier ModelData ModelDispatch SpecCom Double ModelPtsDouble ModelCoefDouble SpecDouble SpecDouble2 SpecPtsDouble SpecCoefDouble ProofCoefDouble5.
Open Scope R_scope.

(** C87: for each of the seven flags, the two coefficients computed in doubles for each sample of the position are
    finite, and give for every free point the point of the exact curve at the instant of the sample, up to the stated
    error.  That instant is the time of the sample up to rounding, never outside the curve. *)
Theorem C87_positions : forall d pData T, denotes d pData -> mild_data d -> is_finite T = true -> 0 < B2R T -> B2R T <= 2 ^ 200 ->
  In (flag_of pData) com_flags -> (flag_of pData = F_capture -> dc1 pData = vzero) ->
  exists ev, evaluates T ev /\ forall ta, times_ok ta -> exists cs, computeDiscretizedWaypoints_f d T ta = Ok cs /\
    Forall2 (fun tp c => finite_coefs c /\ forall x, exists cv, com_curve pData (B2R T) x = Ok cv /\
      apart (fun ax => pos_err (degree cv) (B2R T) (extent (B2R T) pData x ax)) (at_free c x) (cv_fun cv (ev (fst tp)))) ta cs.
Proof. exact c87_positions. Qed.
Print Assumptions C87_positions.

(** Same for the accelerations, with a duration of at least 2^-100 s. *)
Theorem C87_accelerations : forall d pData T, denotes d pData -> mild_data d -> is_finite T = true -> 0 < B2R T -> B2R T <= 2 ^ 200 ->
  In (flag_of pData) com_flags -> (flag_of pData = F_capture -> dc1 pData = vzero) -> / 2 ^ 100 <= B2R T ->
  exists ev, evaluates T ev /\ forall ta, times_ok ta -> exists cs, computeDiscretizedAccelerationWaypoints_f d T ta = Ok cs /\
    Forall2 (fun tp c => finite_coefs c /\ forall x, exists cv, com_curve pData (B2R T) x = Ok cv /\ exists v, is_deriv_n 2 (cv_fun cv) (ev (fst tp)) v /\
      apart (fun ax => acc_err (degree cv) (B2R T) (extent (B2R T) pData x ax)) (at_free c x) v) ta cs.
Proof. exact c87_accelerations. Qed.
Print Assumptions C87_accelerations.
