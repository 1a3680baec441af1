(** Property theorems C86: fixed control points computed in doubles.  Vocabulary: SpecPtsDouble.v. *)
From Flocq Require Import Core BinarySingleNaN.
From Coq Require Import List.
From Verif Require Import Vec SpecBezier ModelData ModelDispatch ModelEff SpecCom SpecEff Double ModelPtsDouble SpecDouble SpecPtsDouble ProofPtsDouble8 ProofPtsDouble9.
Open Scope R_scope.

(** C86: for each of the ten flags, the fixed control points computed in doubles are finite and within the stated
    error of those computed exactly: the two end points and the places of the free points carry no error, the
    others one proportional to the reach of the state they encode. *)
Theorem C86_points : forall d pData T, denotes d pData -> mild_data d -> is_finite T = true -> 0 < B2R T -> B2R T <= 2 ^ 200 ->
  In (flag_of pData) (com_flags ++ effector_flags) -> (flag_of pData = F_capture -> dc1 pData = vzero) ->
  exists pf pi, points_f d T = Ok pf /\ computeConstantWaypoints pData (B2R T) = Ok pi /\ Forall finite3 pf /\
    points_near (B2R T) (start_state pData) (end_state pData) (map fv_R pf) pi.
Proof. exact c86_points. Qed.
Print Assumptions C86_points.

(** The curve through them stays within the largest of these errors of the exact one at every instant; it meets
    the required positions exactly, and the required velocities and accelerations within the stated errors. *)
Theorem C86_com : forall d pData T, denotes d pData -> mild_data d -> is_finite T = true -> 0 < B2R T -> B2R T <= 2 ^ 200 ->
  forall x, In (flag_of pData) com_flags -> (flag_of pData = F_capture -> dc1 pData = vzero) ->
  exists cf ce, com_curve_f d T x = Ok cf /\ com_curve pData (B2R T) x = Ok ce /\ bc_T cf = B2R T /\
    (forall u, 0 <= u <= B2R T -> apart (curve_err (B2R T) (start_state pData) (end_state pData)) (cv_fun cf u) (cv_fun ce u)) /\
    boundary_near (INR (length (bc_pts cf) - 1)) pData (B2R T) (cv_fun cf).
Proof. exact c86_com. Qed.
Print Assumptions C86_com.

(** Same for the end effector, up to the jerk. *)
Theorem C86_effector : forall d pData T, denotes d pData -> mild_data d -> is_finite T = true -> 0 < B2R T -> B2R T <= 2 ^ 200 ->
  forall xs, In (flag_of pData) effector_flags -> length xs = eff_free (flag_of pData) ->
  exists cf ce, eff_curve_f d T xs = Ok cf /\ eff_curve pData (B2R T) xs = Ok ce /\ bc_T cf = B2R T /\
    (forall u, 0 <= u <= B2R T -> apart (curve_err (B2R T) (start_state pData) (end_state pData)) (cv_fun cf u) (cv_fun ce u)) /\
    boundary_near (INR (length (bc_pts cf) - 1)) pData (B2R T) (cv_fun cf).
Proof. exact c86_eff. Qed.
Print Assumptions C86_effector.

(** With the flag that requires a final velocity without a final position, the exception is thrown exactly when a
    coordinate of that velocity has a square above 2^-1075. *)
Theorem C86_guard : forall d T, fd_flag d = F_capture -> mild3 (fd_dc1 d) ->
  (points_f d T = Throw <-> exists ax, axis ax /\ ax (fv_R (fd_dc1 d)) * ax (fv_R (fd_dc1 d)) > eta) /\
  (points_f d T <> Throw -> exists pf, points_f d T = Ok pf).
Proof. exact c86_guard. Qed.
Print Assumptions C86_guard.

(** The required velocity need not be met exactly: a start at 2^-60 m/s is planned as a start at rest, whatever the
    free point. *)
Theorem C86_velocity_refuted : exists d pData T, denotes d pData /\ mild_data d /\ is_finite T = true /\ 0 < B2R T <= 2 ^ 200 /\
  flag_of pData = F_dc1_c1 /\ vx (dc0 pData) > 0 /\
  forall x, exists cf, com_curve_f d T x = Ok cf /\ is_deriv_n 1 (cv_fun cf) 0 vzero.
Proof. exact c86_velocity_refuted. Qed.
Print Assumptions C86_velocity_refuted.

(** Nor is every final velocity other than zero refused with the flag above: 2^-538 m/s is accepted, and every plan
    ends at rest. *)
Theorem C86_guard_refuted : exists d pData T, denotes d pData /\ mild_data d /\ is_finite T = true /\ 0 < B2R T <= 2 ^ 200 /\
  flag_of pData = F_capture /\ vx (dc1 pData) > 0 /\ computeConstantWaypoints pData (B2R T) = Throw /\
  forall x, exists cf, com_curve_f d T x = Ok cf /\ is_deriv_n 1 (cv_fun cf) (B2R T) vzero.
Proof. exact c86_guard_refuted. Qed.
Print Assumptions C86_guard_refuted.
