(** /repo/include/hpp/bezier-com-traj/solve_end_effector.hh *)
From Verif Require Import Vec ModelData ModelDispatch ModelUtils ModelRows ModelCont ModelSolver ModelTraj.
Open Scope R_scope.

(** lines 45-70, computeConstantWaypointsInitPredef. *)
Definition computeConstantWaypointsInitPredef (pData : problem) (T : R) : list vec3 :=
  let n := 4 in
  [ c0 pData;
    vadd (vdivs (vscal T (dc0 pData)) n) (c0 pData);
    vdivs (vadd (vsub (vadd (vsub (vscal (n * n) (c0 pData)) (vscal n (c0 pData)))
                            (vscal T (vscal (2 * n) (dc0 pData))))
                      (vscal T (vscal 2 (dc0 pData))))
                (vscal T (vscal T (ddc0 pData))))
          (n * (n - 1));
    vdivs (vadd (vsub (vadd (vsub (vscal (n * n) (c0 pData)) (vscal n (c0 pData)))
                            (vscal T (vscal (3 * n) (dc0 pData))))
                      (vscal T (vscal 3 (dc0 pData))))
                (vscal T (vscal T (vscal 3 (ddc0 pData)))))
          (n * (n - 1));
    c1 pData ].

(** lines 72-97, computeConstantWaypointsGoalPredef. *)
Definition computeConstantWaypointsGoalPredef (pData : problem) (T : R) : list vec3 :=
  let n := 4 in
  [ c0 pData;
    vdivs (vadd (vadd (vsub (vsub (vscal (n * n) (c1 pData)) (vscal n (c1 pData)))
                            (vscal T (vscal (3 * n) (dc1 pData))))
                      (vscal T (vscal 3 (dc1 pData))))
                (vscal T (vscal T (vscal 3 (ddc1 pData)))))
          (n * (n - 1));
    vdivs (vadd (vadd (vsub (vsub (vscal (n * n) (c1 pData)) (vscal n (c1 pData)))
                            (vscal T (vscal (2 * n) (dc1 pData))))
                      (vscal T (vscal 2 (dc1 pData))))
                (vscal T (vscal T (ddc1 pData))))
          (n * (n - 1));
    vadd (vdivs (vscal T (vopp (dc1 pData))) n) (c1 pData);
    c1 pData ].

(** [first] of a waypoint as a matrix of three rows. *)
Definition wpn_rows (w : wpn) : list (list R) :=
  [ concat (map (fun m => l3 (row0 m)) (wn_blocks w));
    concat (map (fun m => l3 (row1 m)) (wn_blocks w));
    concat (map (fun m => l3 (row2 m)) (wn_blocks w)) ].
(** [std::numeric_limits<double>::epsilon()] = 2^-52 *)
Definition epsilon : R := / 4503599627370496.
(** [first.isZero(epsilon)] (Eigen): no coefficient above epsilon in absolute
    value. *)
Definition wpn_isZero (w : wpn) : bool :=
  forallb (forallb (fun a => if Rle_dec (Rabs a) epsilon then true else false)) (wpn_rows w).

(** One of the six loops, e.g. lines 145-152 (upper, [s] = 1) and 154-161
    (lower, [s] = -1): the rows [s * first] with right-hand side
    [bounds - s * second].  A waypoint whose matrix does not have DIM_VAR columns
    is a size mismatch.  The state is [i] (in rows) and A with b. *)
Definition eff_state : Type := (nat * list (list R * R))%type.
Definition eff_rows (s : R) (bounds : vec3) (w : wpn) : list (list R * R) :=
  combine (map (map (Rmult s)) (wpn_rows w)) (l3 (vsub bounds (vscal s (wn_pt w)))).
Fixpoint eff_loop (dim : nat) (s : R) (bounds : vec3) (ws : list wpn) (st : eff_state) : outcome eff_state :=
  match ws with
  | [] => Ok st
  | w :: ws' =>
      if wpn_isZero w then eff_loop dim s bounds ws' st
      else if negb (Nat.eqb (3 * length (wn_blocks w)) dim) then UB
      else
        M <- write_rows (snd st) (fst st) (eff_rows s bounds w) ;;
        eff_loop dim s bounds ws' ((fst st + 3)%nat, M)
  end.

(** lines 199-209: the matrix mxz and the vector nxz, filled at the indices 2,
    5, 8, ... below DIM_VAR. *)
Definition z_floor (pData : problem) (dim : nat) : list (list R * R) :=
  map (fun j => if Nat.eqb (Nat.modulo j 3) 2
                then (identity_row dim j (-1), - Rmin (vz (c0 pData)) (vz (c1 pData)))
                else (repeat 0 dim, 0)) (seq 0 dim).

(** lines 99-222, computeConstraintsMatrix; the upper jerk bound is taken from
    vel_bounds (line 184).  Bounds have three components (asserted). *)
Definition computeConstraintsMatrix (pData : problem) (wps_acc wps_vel : list wpn) (acc_bounds vel_bounds : vec3)
  (wps_jerk : list wpn) (jerk_bounds : vec3) : outcome (list (list R * R)) :=
  let dim := dimVar pData in
  let count := fun ws => length (filter (fun w => negb (wpn_isZero w)) ws) in
  let rows := (2 * 3 * (count wps_acc + count wps_vel + count wps_jerk) + dim)%nat in
  st <- eff_loop dim 1 acc_bounds wps_acc (0%nat, repeat (repeat 0 dim, 0) rows) ;;
  st <- eff_loop dim (-1) acc_bounds wps_acc st ;;
  st <- eff_loop dim 1 vel_bounds wps_vel st ;;
  st <- eff_loop dim (-1) vel_bounds wps_vel st ;;
  st <- eff_loop dim 1 vel_bounds wps_jerk st ;;
  st <- eff_loop dim (-1) jerk_bounds wps_jerk st ;;
  write_rows (snd st) (fst st) (z_floor pData dim).

(** Dense vectors and matrices. *)
Definition vecx_add : list R -> list R -> list R := map2 Rplus.
Definition matx_add : list (list R) -> list (list R) -> list (list R) := map2 vecx_add.
Definition vecx_scal (k : R) : list R -> list R := map (Rmult k).
Definition matx_scal (k : R) : list (list R) -> list (list R) := map (vecx_scal k).
Definition vecx_div (v : list R) (k : R) : list R := map (fun a => a / k) v.
Definition matx_div (M : list (list R)) (k : R) : list (list R) := map (fun r => vecx_div r k) M.
Definition sumsqx (v : list R) : R := sumR (map (fun a => a * a) v).
Definition matx_norm (M : list (list R)) : R := sqrt (sumR (map sumsqx M)).
Definition matx_zero (n : nat) : list (list R) := repeat (repeat 0 n) n.
(** [M.transpose() * M] and [M.transpose() * v] for a matrix of [dim] columns *)
Fixpoint mtm (dim : nat) (M : list (list R)) : list (list R) :=
  match M with
  | [] => matx_zero dim
  | r :: M' => matx_add (map (fun a => vecx_scal a r) r) (mtm dim M')
  end.
Fixpoint mtv (dim : nat) (M : list (list R)) (v : list R) : list R :=
  match M, v with
  | r :: M', a :: v' => vecx_add (vecx_scal a r) (mtv dim M' v')
  | _, _ => repeat 0 dim
  end.

(** lines 224-248, computeDistanceCostFunction with a list of points.  One
    point makes [step] infinite and [0 * step] NaN, and so does dividing by a
    zero norm: undefined. *)
Fixpoint dist_loop (pData : problem) (pi : list vec3) (step : R) (pts : list vec3) (i n : nat)
  (H : list (list R)) (g : list R) : outcome (list (list R) * list R) :=
  match n with
  | O => Ok (H, g)
  | S n' =>
      w <- evaluateCurveWaypointAtTime pData pi (INR i * step) ;;
      pk <- get pts i ;;
      let dim := dimVar pData in
      if negb (Nat.eqb (3 * length (wn_blocks w)) dim) then UB else
      dist_loop pData pi step pts (S i) n' (matx_add H (mtm dim (wpn_rows w)))
        (vecx_add g (mtv dim (wpn_rows w) (l3 (vsub (wn_pt w) pk))))
  end.
Definition computeDistanceCostFunction (numPoints : nat) (pData : problem) (T : R) (pts : list vec3)
  : outcome (list (list R) * list R) :=
  if Nat.eqb numPoints 1 then UB else
  let step := 1 / (INR numPoints - 1) in
  pi <- computeConstantWaypoints pData T ;;
  Hg <- dist_loop pData pi step pts 0 numPoints (matx_zero (dimVar pData)) (repeat 0 (dimVar pData)) ;;
  let norm := matx_norm (fst Hg) in
  if Req_EM_T norm 0 then UB else
  Ok (matx_div (fst Hg) norm, vecx_div (snd Hg) norm).

(** lines 250-258, the version with a path: [path(t)], 0 <= t <= 1. *)
Definition computeDistanceCostFunction_path (numPoints : nat) (pData : problem) (T : R) (path : R -> outcome vec3)
  : outcome (list (list R) * list R) :=
  if Nat.eqb numPoints 1 then UB else
  let step := 1 / (INR numPoints - 1) in
  pts <- mapM (fun i => path (INR i * step)) (seq 0 numPoints) ;;
  computeDistanceCostFunction numPoints pData T pts.

(** lines 261-280, computeC_of_T. *)
Definition seg3 (x : list R) (i : nat) : outcome vec3 := head3 (skipn i x).
Definition set_wp (wps : list vec3) (i : nat) (v : vec3) : outcome (list vec3) :=
  _ <- get wps i ;; Ok (upd wps i v).
Definition computeC_of_T (pData : problem) (T : R) (x : list R) : outcome bcurve :=
  wps <- computeConstantWaypoints pData T ;;
  wps <- (match dimVar pData with
          | 3%nat => x0 <- seg3 x 0 ;; set_wp wps 4 x0
          | 9%nat => x0 <- seg3 x 0 ;; wps <- set_wp wps 4 x0 ;;
                     x1 <- seg3 x 3 ;; wps <- set_wp wps 5 x1 ;;
                     x2 <- seg3 x 6 ;; set_wp wps 6 x2
          | 15%nat => x0 <- seg3 x 0 ;; wps <- set_wp wps 4 x0 ;;
                      x1 <- seg3 x 3 ;; wps <- set_wp wps 5 x1 ;;
                      x2 <- seg3 x 6 ;; wps <- set_wp wps 6 x2 ;;
                      x3 <- seg3 x 9 ;; wps <- set_wp wps 7 x3 ;;
                      x4 <- seg3 x 12 ;; set_wp wps 8 x4
          | _ => Ok wps
          end) ;;
  mk_bezier wps T.

(** The sampled costs.  lines 312-337 and 339-362
    (computeAcceleration/JerkCostFunctionDiscretized) differ by the evaluation
    function.  [numPoints] is an int; one point is undefined as above. *)
Fixpoint sum_cost (dim : nat) (ws : list wpn) (H : list (list R)) (g : list R) : outcome (list (list R) * list R) :=
  match ws with
  | [] => Ok (H, g)
  | w :: ws' =>
      if negb (Nat.eqb (3 * length (wn_blocks w)) dim) then UB else
      sum_cost dim ws' (matx_add H (mtm dim (wpn_rows w))) (vecx_add g (mtv dim (wpn_rows w) (l3 (wn_pt w))))
  end.
Definition sampled_cost (eval : problem -> R -> list vec3 -> R -> outcome wpn) (numPoints : nat) (pData : problem) (T : R)
  : outcome (list (list R) * list R) :=
  if Nat.eqb numPoints 1 then UB else
  let step := 1 / (INR numPoints - 1) in
  pi <- computeConstantWaypoints pData T ;;
  ws <- mapM (fun i => eval pData T pi (INR i * step)) (seq 0 numPoints) ;;
  sum_cost (dimVar pData) ws (matx_zero (dimVar pData)) (repeat 0 (dimVar pData)).
Definition computeAccelerationCostFunctionDiscretized := sampled_cost evaluateAccelerationCurveWaypointAtTime.
Definition computeJerkCostFunctionDiscretized := sampled_cost evaluateJerkCurveWaypointAtTime.

(** lines 364-380, computeEndEffectorConstraints. *)
Definition eff_bounds : vec3 := V3 10000 10000 10000.
Definition computeEndEffectorConstraints (pData : problem) (T : R) (pi : list vec3) : outcome (list (list R * R)) :=
  wps_jerk <- computeJerkWaypoints pData T pi ;;
  wps_acc <- computeAccelerationWaypoints pData T pi ;;
  wps_vel <- computeVelocityWaypoints pData T pi ;;
  computeConstraintsMatrix pData wps_acc wps_vel eff_bounds eff_bounds wps_jerk eff_bounds.

(** H and g of computeVelocityCost as dense matrix and vector. *)
Definition blocks_matx (B : list (list mat3)) : list (list R) :=
  concat (map (fun bs => [ concat (map (fun m => l3 (row0 m)) bs);
                           concat (map (fun m => l3 (row1 m)) bs);
                           concat (map (fun m => l3 (row2 m)) bs) ]) B).

(** lines 382-420, computeEndEffectorCost. *)
Definition computeEndEffectorCost (pData : problem) (path : R -> outcome vec3) (T weightDistance : R) (pi : list vec3)
  : outcome (list (list R) * list R) :=
  let weightSmooth := 1 - weightDistance in
  let dim := dimVar pData in
  rrt <- (if Rlt_dec 0 weightDistance then computeDistanceCostFunction_path 50 pData T path
          else Ok (matx_zero dim, repeat 0 dim)) ;;
  sm <- computeVelocityCost pData T pi ;;
  Ok (matx_add (matx_scal weightSmooth (blocks_matx (fst sm))) (matx_scal weightDistance (fst rrt)),
      vecx_add (vecx_scal weightSmooth (concat (map l3 (snd sm)))) (vecx_scal weightDistance (snd rrt))).

Section SolveEff.
  Variable with_glpk : bool.
  Variable quadprog : qp -> list R -> outcome (Z * list R * R).
  Variable glpk : lp -> outcome (Z * R * list R).
  (** [VectorX(dimVar(pData))] is not initialised: any values. *)
  Variable init : nat -> list R.

  (** lines 422-467, solveEndEffector.  res.x, res.c_of_t_ and res.success_ are
      set; the cost keeps its default value. *)
  Definition solveEndEffector (pData : problem) (path : R -> outcome vec3) (T weightDistance : R) : outcome resultCOM :=
    pi <- computeConstantWaypoints pData T ;;
    Ab <- computeEndEffectorConstraints pData T pi ;;
    Hg <- computeEndEffectorCost pData path T weightDistance pi ;;
    res <- solve_noeq with_glpk quadprog glpk (MX (dimVar pData) (map fst Ab)) (map snd Ab) (fst Hg) (snd Hg)
             (init (dimVar pData)) SOLVER_QUADPROG ;;
    if rd_success res then
      cv <- computeC_of_T pData T (rd_x res) ;;
      Ok (ResultCOM true (rc_cost default_result) (rd_x res) cv (rc_dL default_result)
            (rc_dc1 default_result) (rc_ddc1 default_result))
    else Ok default_result.
End SolveEff.
