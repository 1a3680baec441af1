(** Dispatch on the constraint flag, /repo/src/waypoints_definition.cpp,
    and construction of the CoM curve, /repo/include/hpp/bezier-com-traj/utils.hh. *)
From Verif Require Import Vec ModelData ModelWaypoints ModelWaypointsJerk.
Open Scope R_scope.

(** [std::map<ConstraintFlag, F>::find]: exact key, or exception.  The printing
    to std::cout is not modelled. *)
Fixpoint find_flag {A} (tbl : list (Z * A)) (flag : Z) : outcome A :=
  match tbl with
  | [] => Throw
  | (k, a) :: tbl' => if Z.eqb k flag then Ok a else find_flag tbl' flag
  end.

Definition flag_of (pData : problem) : Z := k_flag (constr pData).

(** src/waypoints_definition.cpp:30-41, dimVar. *)
Definition dimVar (pData : problem) : nat :=
  let f := flag_of pData in
  if fl_has f FIVE_FREE_VAR then 15
  else if fl_has f FOUR_FREE_VAR then 12
  else if fl_has f THREE_FREE_VAR then 9
  else if fl_has f TWO_FREE_VAR then 6
  else 3.

(** src/waypoints_definition.cpp:47-58, evalCurveAtTimes. *)
Definition evalCurveAtTimes :=
  [ (c0_dc0_c1_flag, c0_dc0_c1_evaluateCurveAtTime);
    (c0_dc0_dc1_flag, c0_dc0_dc1_evaluateCurveAtTime);
    (c0_dc0_dc1_c1_flag, c0_dc0_dc1_c1_evaluateCurveAtTime);
    (c0_dc0_ddc0_flag, c0_dc0_ddc0_evaluateCurveAtTime);
    (c0_dc0_ddc0_c1_flag, c0_dc0_ddc0_c1_evaluateCurveAtTime);
    (c0_dc0_ddc0_dc1_c1_flag, c0_dc0_ddc0_dc1_c1_evaluateCurveAtTime);
    (c0_dc0_ddc0_ddc1_dc1_c1_flag, c0_dc0_ddc0_ddc1_dc1_c1_evaluateCurveAtTime);
    (j0j1_flag, j0j1_evaluateCurveAtTime) ].

(** src/waypoints_definition.cpp:67-76, evaluateCurveAtTime. *)
Definition evaluateCurveAtTime (pData : problem) (pi : list vec3) (t : R) : outcome coefs :=
  f <- find_flag evalCurveAtTimes (flag_of pData) ;; f pi t.

(** src/waypoints_definition.cpp:82-95, evalAccCurveAtTimes. *)
Definition evalAccCurveAtTimes :=
  [ (c0_dc0_c1_flag, c0_dc0_c1_evaluateAccelerationCurveAtTime);
    (c0_dc0_dc1_flag, c0_dc0_dc1_evaluateAccelerationCurveAtTime);
    (c0_dc0_dc1_c1_flag, c0_dc0_dc1_c1_evaluateAccelerationCurveAtTime);
    (c0_dc0_ddc0_flag, c0_dc0_ddc0_evaluateAccelerationCurveAtTime);
    (c0_dc0_ddc0_c1_flag, c0_dc0_ddc0_c1_evaluateAccelerationCurveAtTime);
    (c0_dc0_ddc0_dc1_c1_flag, c0_dc0_ddc0_dc1_c1_evaluateAccelerationCurveAtTime);
    (c0_dc0_ddc0_ddc1_dc1_c1_flag, c0_dc0_ddc0_ddc1_dc1_c1_evaluateAccelerationCurveAtTime);
    (j0j1_flag, j0j1_evaluateAccelerationCurveAtTime) ].

(** src/waypoints_definition.cpp:103-114, evaluateAccelerationCurveAtTime. *)
Definition evaluateAccelerationCurveAtTime (pData : problem) (pi : list vec3) (T t : R)
  : outcome coefs :=
  f <- find_flag evalAccCurveAtTimes (flag_of pData) ;; f pi T t.

(** src/waypoints_definition.cpp:116-149, evaluateCurveWaypointAtTime. *)
Definition evaluateCurveWaypointAtTime (pData : problem) (pi : list vec3) (t : R)
  : outcome wpn :=
  f <- find_flag [ (j0j1_flag, j0j1_evaluateCurveWaypointAtTime);
                   (x3_flag, x3_evaluateCurveWaypointAtTime);
                   (x5_flag, x5_evaluateCurveWaypointAtTime) ] (flag_of pData) ;; f pi t.

(** src/waypoints_definition.cpp:150-185, evaluateVelocityCurveWaypointAtTime. *)
Definition evaluateVelocityCurveWaypointAtTime (pData : problem) (T : R) (pi : list vec3) (t : R)
  : outcome wpn :=
  f <- find_flag [ (j0j1_flag, j0j1_evaluateVelocityCurveWaypointAtTime);
                   (x3_flag, x3_evaluateVelocityCurveWaypointAtTime);
                   (x5_flag, x5_evaluateVelocityCurveWaypointAtTime) ] (flag_of pData) ;; f pi T t.

(** src/waypoints_definition.cpp:186-222, evaluateAccelerationCurveWaypointAtTime. *)
Definition evaluateAccelerationCurveWaypointAtTime (pData : problem) (T : R) (pi : list vec3) (t : R)
  : outcome wpn :=
  f <- find_flag [ (j0j1_flag, j0j1_evaluateAccelerationCurveWaypointAtTime);
                   (x3_flag, x3_evaluateAccelerationCurveWaypointAtTime);
                   (x5_flag, x5_evaluateAccelerationCurveWaypointAtTime) ] (flag_of pData) ;; f pi T t.

(** src/waypoints_definition.cpp:223-258, evaluateJerkCurveWaypointAtTime. *)
Definition evaluateJerkCurveWaypointAtTime (pData : problem) (T : R) (pi : list vec3) (t : R)
  : outcome wpn :=
  f <- find_flag [ (j0j1_flag, j0j1_evaluateJerkCurveWaypointAtTime);
                   (x3_flag, x3_evaluateJerkCurveWaypointAtTime);
                   (x5_flag, x5_evaluateJerkCurveWaypointAtTime) ] (flag_of pData) ;; f pi T t.

(** src/waypoints_definition.cpp:263-277, compConsWps. *)
Definition compConsWps :=
  [ (c0_dc0_c1_flag, c0_dc0_c1_computeConstantWaypoints);
    (c0_dc0_dc1_flag, c0_dc0_dc1_computeConstantWaypoints);
    (c0_dc0_dc1_c1_flag, c0_dc0_dc1_c1_computeConstantWaypoints);
    (c0_dc0_ddc0_flag, c0_dc0_ddc0_computeConstantWaypoints);
    (c0_dc0_ddc0_c1_flag, c0_dc0_ddc0_c1_computeConstantWaypoints);
    (c0_dc0_ddc0_dc1_c1_flag, c0_dc0_ddc0_dc1_c1_computeConstantWaypoints);
    (c0_dc0_ddc0_ddc1_dc1_c1_flag, c0_dc0_ddc0_ddc1_dc1_c1_computeConstantWaypoints);
    (j0j1_flag, j0j1_computeConstantWaypoints);
    (x3_flag, x3_computeConstantWaypoints);
    (x5_flag, x5_computeConstantWaypoints) ].

(** src/waypoints_definition.cpp:286-295, computeConstantWaypoints. *)
Definition computeConstantWaypoints (pData : problem) (T : R) : outcome (list vec3) :=
  f <- find_flag compConsWps (flag_of pData) ;; f pData T.

(** Eigen's [isZero()] with its default precision 1e-12: every coefficient is
    at most 1e-12 in absolute value. *)
Definition isZero_prec : R := 1 / 1000000000000.
Definition coeff_isZero (a : R) : bool := if Rle_dec (Rabs a) isZero_prec then true else false.
Definition vec_isZero (v : vec3) : bool :=
  (coeff_isZero (vx v) && coeff_isZero (vy v) && coeff_isZero (vz v))%bool.

(** [MatrixXX::Identity(3, DIM_VAR)]: ones on the diagonal, so only the first
    block of three columns is non-zero. *)
Definition id_blocks (dimvar : nat) : list mat3 := mid :: repeat mzero (dimvar / 3 - 1).
Definition zero_blocks (dimvar : nat) : list mat3 := repeat mzero (dimvar / 3).

(** src/waypoints_definition.cpp:297-314, computeConstantWaypointsSymbolic. *)
Definition computeConstantWaypointsSymbolic (pData : problem) (T : R) : outcome (list wpn) :=
  let DIM_VAR := dimVar pData in
  pts <- computeConstantWaypoints pData T ;;
  Ok (map (fun p => if vec_isZero p then Wn (id_blocks DIM_VAR) vzero
                    else Wn (zero_blocks DIM_VAR) p) pts).

(** src/waypoints_definition.cpp:316-344, computeVelocityWaypoints. *)
Definition computeVelocityWaypoints (pData : problem) (T : R) (pi : list vec3) : outcome (list wpn) :=
  f <- find_flag [ (j0j1_flag, j0j1_computeVelocityWaypoints);
                   (x3_flag, x3_computeVelocityWaypoints);
                   (x5_flag, x5_computeVelocityWaypoints) ] (flag_of pData) ;; f pData T pi.

(** src/waypoints_definition.cpp:346-374, computeAccelerationWaypoints. *)
Definition computeAccelerationWaypoints (pData : problem) (T : R) (pi : list vec3) : outcome (list wpn) :=
  f <- find_flag [ (j0j1_flag, j0j1_computeAccelerationWaypoints);
                   (x3_flag, x3_computeAccelerationWaypoints);
                   (x5_flag, x5_computeAccelerationWaypoints) ] (flag_of pData) ;; f pData T pi.

(** src/waypoints_definition.cpp:376-404, computeJerkWaypoints. *)
Definition computeJerkWaypoints (pData : problem) (T : R) (pi : list vec3) : outcome (list wpn) :=
  f <- find_flag [ (j0j1_flag, j0j1_computeJerkWaypoints);
                   (x3_flag, x3_computeJerkWaypoints);
                   (x5_flag, x5_computeJerkWaypoints) ] (flag_of pData) ;; f pData T pi.

(** src/waypoints_definition.cpp:409-418, compWps. *)
Definition compWps :=
  [ (c0_dc0_c1_flag, c0_dc0_c1_computeWwaypoints);
    (c0_dc0_dc1_flag, c0_dc0_dc1_computeWwaypoints);
    (c0_dc0_dc1_c1_flag, c0_dc0_dc1_c1_computeWwaypoints);
    (c0_dc0_ddc0_flag, c0_dc0_ddc0_computeWwaypoints);
    (c0_dc0_ddc0_c1_flag, c0_dc0_ddc0_c1_computeWwaypoints);
    (c0_dc0_ddc0_dc1_c1_flag, c0_dc0_ddc0_dc1_c1_computeWwaypoints);
    (c0_dc0_ddc0_ddc1_dc1_c1_flag, c0_dc0_ddc0_ddc1_dc1_c1_computeWwaypoints);
    (j0j1_flag, j0j1_computeWwaypoints) ].

(** src/waypoints_definition.cpp:427-435, computeWwaypoints. *)
Definition computeWwaypoints (pData : problem) (T : R) : outcome (list wp6) :=
  f <- find_flag compWps (flag_of pData) ;; f pData T.

(** src/waypoints_definition.cpp:440-448, compFinalVelPs. *)
Definition compFinalVelPs :=
  [ (c0_dc0_c1_flag, c0_dc0_c1_computeFinalVelocityPoint);
    (c0_dc0_dc1_flag, c0_dc0_dc1_computeFinalVelocityPoint);
    (c0_dc0_dc1_c1_flag, c0_dc0_dc1_c1_computeFinalVelocityPoint);
    (c0_dc0_ddc0_flag, c0_dc0_ddc0_computeFinalVelocityPoint);
    (c0_dc0_ddc0_c1_flag, c0_dc0_ddc0_c1_computeFinalVelocityPoint);
    (c0_dc0_ddc0_dc1_c1_flag, c0_dc0_ddc0_dc1_c1_computeFinalVelocityPoint);
    (c0_dc0_ddc0_ddc1_dc1_c1_flag, c0_dc0_ddc0_ddc1_dc1_c1_computeFinalVelocityPoint) ].

(** src/waypoints_definition.cpp:450-458, computeFinalVelocityPoint. *)
Definition computeFinalVelocityPoint (pData : problem) (T : R) : outcome coefs :=
  f <- find_flag compFinalVelPs (flag_of pData) ;; f pData T.

(** src/waypoints_definition.cpp:460-488, computeVelocityCost. *)
Definition computeVelocityCost (pData : problem) (T : R) (pi : list vec3)
  : outcome (list (list mat3) * list vec3) :=
  f <- find_flag [ (j0j1_flag, j0j1_computeVelocityCost);
                   (x3_flag, x3_computeVelocityCost);
                   (x5_flag, x5_computeVelocityCost) ] (flag_of pData) ;; f pData T pi.

(** bezier_t (ndcurves, external): control points on [0, T].  The constructor
    of ndcurves throws when there is no control point or T <= 0. *)
Record bcurve := BCurve { bc_pts : list vec3; bc_T : R }.
Definition mk_bezier (pts : list vec3) (T : R) : outcome bcurve :=
  match pts with
  | [] => Throw
  | _ => if Rle_dec T 0 then Throw else Ok (BCurve pts T)
  end.

(** utils.hh:112-157, computeBezierCurve.  [wps] and the index [i] are
    threaded; [push_pi] is [wps.push_back(pi[i]); i++]. *)
Definition push_pi (pi : list vec3) (st : list vec3 * nat) : outcome (list vec3 * nat) :=
  p <- get pi (snd st) ;; Ok (fst st ++ [p], S (snd st)).
Definition push_x (x : vec3) (st : list vec3 * nat) : list vec3 * nat :=
  (fst st ++ [x], S (snd st)).
Definition push_if (b : bool) (pi : list vec3) (st : list vec3 * nat) : outcome (list vec3 * nat) :=
  if b then push_pi pi st else Ok st.

Definition computeBezierCurve (flag : Z) (T : R) (pi : list vec3) (x : vec3) : outcome bcurve :=
  st <- (if fl_has flag INIT_POS then
           st1 <- push_pi pi ([], 0%nat) ;;
           (if fl_has flag INIT_VEL then
              st2 <- push_pi pi st1 ;; push_if (fl_has flag INIT_ACC) pi st2
            else Ok st1)
         else Ok ([], 0%nat)) ;;
  let st := push_x x st in
  st <- (if (fl_has flag END_VEL && negb (fl_has flag END_POS))%bool then Ok (push_x x st)
         else
           st1 <- push_if (fl_has flag END_ACC) pi st ;;
           st2 <- push_if (fl_has flag END_VEL) pi st1 ;;
           push_if (fl_has flag END_POS) pi st2) ;;
  mk_bezier (fst st) T.
