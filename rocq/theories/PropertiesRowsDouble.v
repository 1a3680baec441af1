(** Property theorems C88: rows of the constraints computed in doubles.  Vocabulary: SpecRowsDouble.v, SpecCoefDouble.v, SpecPtsDouble.v. *)
From Flocq Require Import Core BinarySingleNaN.
From Coq Require Import List.
From Verif Require Import Vec SpecBezier ModelData ModelDispatch SpecCom Double ModelPtsDouble ModelCoefDouble ModelRowsDouble SpecDouble SpecDouble2 SpecPtsDouble SpecCoefDouble SpecRowsDouble ProofRowsDouble5.
Import ListNotations.
Open Scope R_scope.

(** C88: for each of the seven flags and every order in which the right-hand sides are summed, the rows of the kinematic
    constraints computed in doubles are finite.  A point that meets them all up to [del] gives a curve that meets the
    constraints of every phase in force at every sample up to [del] and the stated error; a point whose curve meets them with
    that margin meets all rows. *)
Theorem C88_kinematics : forall d pData T, denotes d pData -> mild_data d -> is_finite T = true -> 0 < B2R T -> B2R T <= 2 ^ 200 ->
  In (flag_of pData) com_flags -> (flag_of pData = F_capture -> dc1 pData = vzero) ->
  exists ev, evaluates T ev /\
    forall sub fcs bs, subtracts sub -> Forall mild_contact fcs -> length fcs = length bs -> bs <> [] ->
      Forall (fun b => b <> [] /\ Forall (fun t => is_finite t = true /\ 0 <= B2R t) b) bs ->
    exists rows, assignKinematicConstraints_f sub d fcs T (tagged_f 0 bs) = Ok rows /\ Forall finite_row rows /\
    forall x, exists cv, com_curve pData (B2R T) x = Ok cv /\
      (forall del, Forall (fun r => holds del r x) rows -> forall i c t K k, nth_error fcs i = Some c -> in_force bs i t -> kin_of c K k ->
         vdot (fv_R K) (cv_fun cv (ev t)) <= B2R k + del + kin_err (degree cv) (B2R T) pData x (fv_R K) (B2R k)) /\
      (forall del, (forall i c t K k, nth_error fcs i = Some c -> in_force bs i t -> kin_of c K k ->
         vdot (fv_R K) (cv_fun cv (ev t)) + kin_err (degree cv) (B2R T) pData x (fv_R K) (B2R k) <= B2R k + del) ->
       Forall (fun r => holds del r x) rows).
Proof. exact c88_kinematics. Qed.
Print Assumptions C88_kinematics.

(** Same for the bound on the acceleration: six rows per sample. *)
Theorem C88_accelerations : forall d pData T, denotes d pData -> mild_data d -> is_finite T = true -> 0 < B2R T -> B2R T <= 2 ^ 200 ->
  In (flag_of pData) com_flags -> (flag_of pData = F_capture -> dc1 pData = vzero) -> / 2 ^ 100 <= B2R T ->
  exists ev, evaluates T ev /\
    forall amax ta, mild amax -> times_ok ta ->
    exists rows, assignAccelerationConstraints_f d amax T ta = Ok rows /\ length rows = (6 * length ta)%nat /\ Forall finite_row rows /\
    forall x cv, com_curve pData (B2R T) x = Ok cv ->
      (forall del, Forall (fun r => holds del r x) rows -> forall tp, In tp ta -> exists v, is_deriv_n 2 (cv_fun cv) (ev (fst tp)) v /\
         forall ax, axis ax -> Rabs (ax v) <= B2R amax + del + accel_err (degree cv) (B2R T) pData x (B2R amax) ax) /\
      (forall del, (forall tp, In tp ta -> exists v, is_deriv_n 2 (cv_fun cv) (ev (fst tp)) v /\
         forall ax, axis ax -> Rabs (ax v) + accel_err (degree cv) (B2R T) pData x (B2R amax) ax <= B2R amax + del) ->
       Forall (fun r => holds del r x) rows).
Proof. exact c88_accelerations. Qed.
Print Assumptions C88_accelerations.
