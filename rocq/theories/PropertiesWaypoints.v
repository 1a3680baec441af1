(** Property theorems C01-C09.  Vocabulary: SpecBezier.v, SpecCom.v. *)
From Verif Require Import Vec SpecBezier ModelData ModelWaypoints ModelWaypointsJerk ModelDispatch
  SpecCom ProofWaypoints ProofWaypoints2 ProofWaypointsErr ProofDispatch.
Open Scope R_scope.

(** C01: the curve exists for every duration T > 0 (and only then), lives on
    [0,T] and meets every selected boundary condition, whatever x. *)
Theorem C01_curve_exists : forall pData T x,
  In (flag_of pData) com_flags -> (flag_of pData = F_capture -> dc1 pData = vzero) -> 0 < T ->
  exists cv, com_curve pData T x = Ok cv.
Proof. exact com_curve_total. Qed.
Print Assumptions C01_curve_exists.

Theorem C01_boundary : forall pData T x cv,
  In (flag_of pData) com_flags -> com_curve pData T x = Ok cv ->
  bc_T cv = T /\ 0 < T /\ meets_boundary pData T (cv_fun cv).
Proof. exact boundary_ok. Qed.
Print Assumptions C01_boundary.

(** C02 *)
Theorem C02_eval_curve : forall pData T x pi cv s,
  In (flag_of pData) com_flags -> computeConstantWaypoints pData T = Ok pi ->
  computeBezierCurve (flag_of pData) T pi x = Ok cv ->
  exists co, evaluateCurveAtTime pData pi s = Ok co /\ ev_coefs co x = cv_fun cv (s * T).
Proof. exact c02_ok. Qed.
Print Assumptions C02_eval_curve.

(** C03 *)
Theorem C03_eval_acceleration : forall pData T x pi cv s,
  In (flag_of pData) com_flags -> computeConstantWaypoints pData T = Ok pi ->
  computeBezierCurve (flag_of pData) T pi x = Ok cv ->
  exists co, evaluateAccelerationCurveAtTime pData pi T s = Ok co /\
    is_deriv_n 2 (cv_fun cv) (s * T) (ev_coefs co x).
Proof. exact c03_ok. Qed.
Print Assumptions C03_eval_acceleration.

(** C04 *)
Theorem C04_final_velocity : forall pData T x cv,
  In (flag_of pData) com_flags -> com_curve pData T x = Ok cv ->
  exists co, computeFinalVelocityPoint pData T = Ok co /\
    is_deriv_n 1 (cv_fun cv) T (ev_coefs co x).
Proof. exact c04_ok. Qed.
Print Assumptions C04_final_velocity.

(** C05 *)
Theorem C05_wrench_waypoints : forall pData T x cv g,
  In (flag_of pData) exact_w_flags -> com_curve pData T x = Ok cv -> front_gravity pData = Ok g ->
  exists ws, computeWwaypoints pData T = Ok ws /\
    forall t acc, is_deriv_n 2 (cv_fun cv) t acc ->
      curve6 (map (fun w => ev_w6 w x) ws) T t = wrench g (cv_fun cv t) acc.
Proof. exact c05_ok. Qed.
Print Assumptions C05_wrench_waypoints.

(** C06 *)
Theorem C06_wrench_waypoints_error : forall pData T x cv g M G,
  In (flag_of pData) dec_w_flags -> com_curve pData T x = Ok cv -> front_gravity pData = Ok g ->
  Forall (within M) (bc_pts cv) -> within G g ->
  exists ws, computeWwaypoints pData T = Ok ws /\
    forall t acc, 0 <= t <= T -> is_deriv_n 2 (cv_fun cv) t acc ->
      let d := v6sub (curve6 (map (fun w => ev_w6 w x) ws) T t) (wrench g (cv_fun cv t) acc) in
      within (err_force M T) (fst d) /\ within (err_moment G M T) (snd d).
Proof. exact c06_ok. Qed.
Print Assumptions C06_wrench_waypoints_error.

(** C07 *)
Theorem C07_capture_throws : forall pData T,
  flag_of pData = F_capture -> dc1 pData <> vzero -> computeConstantWaypoints pData T = Throw.
Proof. exact capture_throw. Qed.
Print Assumptions C07_capture_throws.

Theorem C07_capture_ends_at_rest : forall pData T x cv,
  flag_of pData = F_capture -> com_curve pData T x = Ok cv ->
  cv_fun cv T = x /\ is_deriv_n 1 (cv_fun cv) T vzero.
Proof. exact capture_ends_at_rest. Qed.
Print Assumptions C07_capture_ends_at_rest.

(** C08: with C01-C06 (what an accepted CoM flag computes) and C29-C33 (what an
    accepted end-effector flag computes), this fixes the dispatch on every
    integer. *)
Theorem C08_dispatch_rejects : forall pData,
  (~ In (flag_of pData) (com_flags ++ [F_jerk]) -> forall T pi t,
     evaluateCurveAtTime pData pi t = Throw /\
     evaluateAccelerationCurveAtTime pData pi T t = Throw /\
     computeWwaypoints pData T = Throw) /\
  (~ In (flag_of pData) com_flags -> forall T, computeFinalVelocityPoint pData T = Throw) /\
  (~ In (flag_of pData) (com_flags ++ effector_flags) -> forall T,
     computeConstantWaypoints pData T = Throw /\ computeConstantWaypointsSymbolic pData T = Throw) /\
  (~ In (flag_of pData) effector_flags -> forall T pi t,
     evaluateCurveWaypointAtTime pData pi t = Throw /\
     evaluateVelocityCurveWaypointAtTime pData T pi t = Throw /\
     evaluateAccelerationCurveWaypointAtTime pData T pi t = Throw /\
     evaluateJerkCurveWaypointAtTime pData T pi t = Throw /\
     computeVelocityWaypoints pData T pi = Throw /\
     computeAccelerationWaypoints pData T pi = Throw /\
     computeJerkWaypoints pData T pi = Throw /\
     computeVelocityCost pData T pi = Throw).
Proof. exact c08_reject. Qed.
Print Assumptions C08_dispatch_rejects.

(** C09 *)
Theorem C09_waypoint_access_in_range : forall pData T pi,
  computeConstantWaypoints pData T = Ok pi -> forall t x,
  evaluateCurveAtTime pData pi t <> UB /\
  evaluateAccelerationCurveAtTime pData pi T t <> UB /\
  evaluateCurveWaypointAtTime pData pi t <> UB /\
  evaluateVelocityCurveWaypointAtTime pData T pi t <> UB /\
  evaluateAccelerationCurveWaypointAtTime pData T pi t <> UB /\
  evaluateJerkCurveWaypointAtTime pData T pi t <> UB /\
  computeVelocityWaypoints pData T pi <> UB /\
  computeAccelerationWaypoints pData T pi <> UB /\
  computeJerkWaypoints pData T pi <> UB /\
  computeVelocityCost pData T pi <> UB /\
  computeFinalVelocityPoint pData T <> UB /\
  computeBezierCurve (flag_of pData) T pi x <> UB /\
  (front_gravity pData <> UB -> computeWwaypoints pData T <> UB).
Proof. exact c09_ok. Qed.
Print Assumptions C09_waypoint_access_in_range.

Theorem C09_constant_waypoints_defined : forall pData T, computeConstantWaypoints pData T <> UB.
Proof. exact ccw_not_ub. Qed.
Print Assumptions C09_constant_waypoints_defined.
