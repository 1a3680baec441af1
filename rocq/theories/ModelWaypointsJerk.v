(** The three end-effector waypoint families (constraints up to jerk).
    All paths are relative to /repo.  [pi[k]] is a checked access ([get]);
    [double] literals are the exact decimal they denote; assert()s are not
    modelled (release build).  Local [double] variables become [let]s. *)
From Verif Require Import Vec ModelData.
Open Scope R_scope.

(** Eigen's norm() of a matrix given by 3x3 blocks: square root of the sum of
    the squares of all entries. *)
Definition mat3_norm2 (m : mat3) : R := vnorm2 (row0 m) + vnorm2 (row1 m) + vnorm2 (row2 m).
Definition blocks_norm (H : list (list mat3)) : R :=
  sqrt (fold_right Rplus 0 (map (fun r => fold_right Rplus 0 (map mat3_norm2 r)) H)).

(** include/hpp/bezier-com-traj/waypoints/waypoints_c0_dc0_ddc0_j0_j1_ddc1_dc1_c1.hh:14-15, flag. *)
Definition j0j1_flag : Z := (fl_or (fl_or (fl_or (fl_or (fl_or (fl_or (fl_or INIT_POS INIT_VEL) INIT_ACC) END_ACC) END_VEL) END_POS) INIT_JERK) END_JERK).

(** include/hpp/bezier-com-traj/waypoints/waypoints_c0_dc0_ddc0_j0_j1_ddc1_dc1_c1.hh:30-56, evaluateCurveAtTime. *)
Definition j0j1_evaluateCurveAtTime (pi : list vec3) (t : R) : outcome coefs :=
  p1 <- get pi 1 ;;
  p2 <- get pi 2 ;;
  p3 <- get pi 3 ;;
  p5 <- get pi 5 ;;
  p6 <- get pi 6 ;;
  p7 <- get pi 7 ;;
  p8 <- get pi 8 ;;
  let t2 := (t * t) in
  let t3 := (t2 * t) in
  let t4 := (t3 * t) in
  let t5 := (t4 * t) in
  let t6 := (t5 * t) in
  let t7 := (t6 * t) in
  let t8 := (t7 * t) in
  Ok ((((((70 * t8) - (280 * t7)) + (420 * t6)) - (280 * t5)) + (70 * t4)),
      (vadd (vadd (vsub (vadd (vsub (vadd (vadd (vsub (vadd (vsub (vadd (vsub (vadd (vsub (vadd (vsub (vadd (vsub (vadd (vsub (vadd (vsub (vadd (vadd (vsub (vadd (vsub (vadd (vsub (vadd (vsub (vadd (vsub (vadd (vsub (vadd (vsub (vadd (vsub (vscal t8 (vscal 1 p8)) (vscal t7 (vscal 8 p8))) (vscal t6 (vscal 28 p8))) (vscal t5 (vscal 56 p8))) (vscal t4 (vscal 70 p8))) (vscal t3 (vscal 56 p8))) (vscal t2 (vscal 28 p8))) (vscal t (vscal 8 p8))) (vscal 1 p8)) (vscal t8 (vscal 8 p1))) (vscal t7 (vscal 56 p1))) (vscal t6 (vscal 168 p1))) (vscal t5 (vscal 280 p1))) (vscal t4 (vscal 280 p1))) (vscal t3 (vscal 168 p1))) (vscal t2 (vscal 56 p1))) (vscal t (vscal 8 p1))) (vscal t8 (vscal 28 p2))) (vscal t7 (vscal 168 p2))) (vscal t6 (vscal 420 p2))) (vscal t5 (vscal 560 p2))) (vscal t4 (vscal 420 p2))) (vscal t3 (vscal 168 p2))) (vscal t2 (vscal 28 p2))) (vscal (t ^ 8) (vscal 56 p3))) (vscal t7 (vscal 280 p3))) (vscal t6 (vscal 560 p3))) (vscal t5 (vscal 560 p3))) (vscal t4 (vscal 280 p3))) (vscal t3 (vscal 56 p3))) (vscal t8 (vscal 56 p5))) (vscal t7 (vscal 168 p5))) (vscal t6 (vscal 168 p5))) (vscal (t ^ 5) (vscal 56 p5))) (vscal t8 (vscal 28 p6))) (vscal t7 (vscal 56 p6))) (vscal t6 (vscal 28 p6))) (vscal t8 (vscal 8 p7))) (vscal t7 (vscal 8 p7))) (vscal t8 (vscal 1 p8)))).

(** include/hpp/bezier-com-traj/waypoints/waypoints_c0_dc0_ddc0_j0_j1_ddc1_dc1_c1.hh:58-87, evaluateVelocityCurveAtTime. *)
Definition j0j1_evaluateVelocityCurveAtTime (pi : list vec3) (T t : R) : outcome coefs :=
  p1 <- get pi 1 ;;
  p2 <- get pi 2 ;;
  p3 <- get pi 3 ;;
  p5 <- get pi 5 ;;
  p6 <- get pi 6 ;;
  p7 <- get pi 7 ;;
  p8 <- get pi 8 ;;
  let alpha := (1 / T) in
  let t2 := (t * t) in
  let t3 := (t2 * t) in
  let t4 := (t3 * t) in
  let t5 := (t4 * t) in
  let t6 := (t5 * t) in
  let t7 := (t6 * t) in
  Ok (((((((560 * t7) - (1960 * t6)) + (2520 * t5)) - (1400 * t4)) + (280 * t3)) * alpha),
      (vscal alpha (vadd (vadd (vsub (vadd (vsub (vadd (vadd (vsub (vadd (vsub (vadd (vsub (vadd (vsub (vadd (vsub (vadd (vsub (vadd (vsub (vadd (vsub (vadd (vadd (vsub (vadd (vsub (vadd (vsub (vadd (vsub (vsub (vadd (vsub (vadd (vsub (vadd (vsub (vscal t7 (vscal 8 p8)) (vscal t6 (vscal 56 p8))) (vscal t5 (vscal 168 p8))) (vscal t4 (vscal 280 p8))) (vscal t3 (vscal 280 p8))) (vscal t2 (vscal 168 p8))) (vscal t (vscal 56 p8))) (vscal 8 p8)) (vscal t7 (vscal 64 p1))) (vscal t6 (vscal 392 p1))) (vscal t5 (vscal 1008 p1))) (vscal t4 (vscal 1400 p1))) (vscal t3 (vscal 1120 p1))) (vscal t2 (vscal 504 p1))) (vscal t (vscal 112 p1))) (vscal 8 p1)) (vscal t7 (vscal 224 p2))) (vscal t6 (vscal 1176 p2))) (vscal t5 (vscal 2520 p2))) (vscal t4 (vscal 2800 p2))) (vscal t3 (vscal 1680 p2))) (vscal t2 (vscal 504 p2))) (vscal t (vscal 56 p2))) (vscal t7 (vscal 448 p3))) (vscal t6 (vscal 1960 p3))) (vscal t5 (vscal 3360 p3))) (vscal t4 (vscal 2800 p3))) (vscal t3 (vscal 1120 p3))) (vscal t2 (vscal 168 p3))) (vscal t7 (vscal 448 p5))) (vscal t6 (vscal 1176 p5))) (vscal t5 (vscal 1008 p5))) (vscal t4 (vscal 280 p5))) (vscal t7 (vscal 224 p6))) (vscal t6 (vscal 392 p6))) (vscal t5 (vscal 168 p6))) (vscal t7 (vscal 64 p7))) (vscal t6 (vscal 56 p7))) (vscal t7 (vscal 8 p8))))).

(** include/hpp/bezier-com-traj/waypoints/waypoints_c0_dc0_ddc0_j0_j1_ddc1_dc1_c1.hh:89-117, evaluateAccelerationCurveAtTime. *)
Definition j0j1_evaluateAccelerationCurveAtTime (pi : list vec3) (T t : R) : outcome coefs :=
  p1 <- get pi 1 ;;
  p2 <- get pi 2 ;;
  p3 <- get pi 3 ;;
  p5 <- get pi 5 ;;
  p6 <- get pi 6 ;;
  p7 <- get pi 7 ;;
  p8 <- get pi 8 ;;
  let alpha := (1 / (T * T)) in
  let t2 := (t * t) in
  let t3 := (t2 * t) in
  let t4 := (t3 * t) in
  let t5 := (t4 * t) in
  let t6 := (t5 * t) in
  Ok (((((((3920 * t6) - (11760 * t5)) + (12600 * t4)) - (5600 * t3)) + (840 * t2)) * alpha),
      (vscal alpha (vadd (vadd (vsub (vadd (vsub (vadd (vadd (vsub (vadd (vsub (vadd (vsub (vadd (vsub (vadd (vsub (vadd (vsub (vadd (vsub (vadd (vsub (vadd (vsub (vadd (vsub (vadd (vsub (vadd (vsub (vadd (vsub (vadd (vsub (vadd (vsub (vscal t6 (vscal 56 p8)) (vscal t5 (vscal 336 p8))) (vscal t4 (vscal 840 p8))) (vscal t3 (vscal 1120 p8))) (vscal t2 (vscal 840 p8))) (vscal t (vscal 336 p8))) (vscal 56 p8)) (vscal t6 (vscal 448 p1))) (vscal t5 (vscal 2352 p1))) (vscal t4 (vscal 5040 p1))) (vscal t3 (vscal 5600 p1))) (vscal t2 (vscal 3360 p1))) (vscal t (vscal 1008 p1))) (vscal 112 p1)) (vscal t6 (vscal 1568 p2))) (vscal t5 (vscal 7056 p2))) (vscal t4 (vscal 12600 p2))) (vscal t3 (vscal 11200 p2))) (vscal t2 (vscal 5040 p2))) (vscal t (vscal 1008 p2))) (vscal 56 p2)) (vscal t6 (vscal 3136 p3))) (vscal t5 (vscal 11760 p3))) (vscal t4 (vscal 16800 p3))) (vscal t3 (vscal 11200 p3))) (vscal t2 (vscal 3360 p3))) (vscal t (vscal 336 p3))) (vscal t6 (vscal 3136 p5))) (vscal t5 (vscal 7056 p5))) (vscal t4 (vscal 5040 p5))) (vscal t3 (vscal 1120 p5))) (vscal t6 (vscal 1568 p6))) (vscal t5 (vscal 2352 p6))) (vscal t4 (vscal 840 p6))) (vscal t6 (vscal 448 p7))) (vscal t5 (vscal 336 p7))) (vscal t6 (vscal 56 p8))))).

(** include/hpp/bezier-com-traj/waypoints/waypoints_c0_dc0_ddc0_j0_j1_ddc1_dc1_c1.hh:119-147, evaluateJerkCurveAtTime. *)
Definition j0j1_evaluateJerkCurveAtTime (pi : list vec3) (T t : R) : outcome coefs :=
  p0 <- get pi 0 ;;
  p1 <- get pi 1 ;;
  p2 <- get pi 2 ;;
  p3 <- get pi 3 ;;
  p5 <- get pi 5 ;;
  p6 <- get pi 6 ;;
  p7 <- get pi 7 ;;
  p8 <- get pi 8 ;;
  let alpha := (1 / ((T * T) * T)) in
  let t2 := (t * t) in
  let t3 := (t2 * t) in
  let t4 := (t3 * t) in
  let t5 := (t4 * t) in
  Ok (((((((23520 * t5) - (58800 * t4)) + (50400 * t3)) - (16800 * t2)) + (1680 * t)) * alpha),
      (vscal alpha (vscal 1 (vadd (vadd (vsub (vadd (vsub (vadd (vadd (vsub (vadd (vsub (vadd (vsub (vadd (vsub (vadd (vsub (vsub (vadd (vsub (vadd (vsub (vadd (vadd (vsub (vadd (vsub (vadd (vsub (vsub (vadd (vsub (vadd (vsub (vscal t5 (vscal 336 p0)) (vscal t4 (vscal 1680 p0))) (vscal t3 (vscal 3360 p0))) (vscal t2 (vscal 3360 p0))) (vscal t (vscal 1680 p0))) (vscal 336 p0)) (vscal t5 (vscal 2688 p1))) (vscal t4 (vscal 11760 p1))) (vscal t3 (vscal 20160 p1))) (vscal t2 (vscal 16800 p1))) (vscal t (vscal 6720 p1))) (vscal 1008 p1)) (vscal t5 (vscal 9408 p2))) (vscal t4 (vscal 35280 p2))) (vscal t3 (vscal 50400 p2))) (vscal t2 (vscal 33600 p2))) (vscal t (vscal 10080 p2))) (vscal 1008 p2)) (vscal t5 (vscal 18816 p3))) (vscal t4 (vscal 58800 p3))) (vscal t3 (vscal 67200 p3))) (vscal t2 (vscal 33600 p3))) (vscal t (vscal 6720 p3))) (vscal 336 p3)) (vscal t5 (vscal 18816 p5))) (vscal t4 (vscal 35280 p5))) (vscal t3 (vscal 20160 p5))) (vscal t2 (vscal 3360 p5))) (vscal t5 (vscal 9408 p6))) (vscal t4 (vscal 11760 p6))) (vscal t3 (vscal 3360 p6))) (vscal t5 (vscal 2688 p7))) (vscal t4 (vscal 1680 p7))) (vscal t5 (vscal 336 p8)))))).

(** include/hpp/bezier-com-traj/waypoints/waypoints_c0_dc0_ddc0_j0_j1_ddc1_dc1_c1.hh:148-155, evaluateCurveWaypointAtTime. *)
Definition j0j1_evaluateCurveWaypointAtTime (pi : list vec3) (t : R) : outcome wpn :=
  coef <- j0j1_evaluateCurveAtTime pi t ;;
  Ok (Wn [mscal (fst coef) mid] (snd coef)).

(** include/hpp/bezier-com-traj/waypoints/waypoints_c0_dc0_ddc0_j0_j1_ddc1_dc1_c1.hh:156-163, evaluateVelocityCurveWaypointAtTime. *)
Definition j0j1_evaluateVelocityCurveWaypointAtTime (pi : list vec3) (T t : R) : outcome wpn :=
  coef <- j0j1_evaluateVelocityCurveAtTime pi T t ;;
  Ok (Wn [mscal (fst coef) mid] (snd coef)).

(** include/hpp/bezier-com-traj/waypoints/waypoints_c0_dc0_ddc0_j0_j1_ddc1_dc1_c1.hh:164-171, evaluateAccelerationCurveWaypointAtTime. *)
Definition j0j1_evaluateAccelerationCurveWaypointAtTime (pi : list vec3) (T t : R) : outcome wpn :=
  coef <- j0j1_evaluateAccelerationCurveAtTime pi T t ;;
  Ok (Wn [mscal (fst coef) mid] (snd coef)).

(** include/hpp/bezier-com-traj/waypoints/waypoints_c0_dc0_ddc0_j0_j1_ddc1_dc1_c1.hh:173-180, evaluateJerkCurveWaypointAtTime. *)
Definition j0j1_evaluateJerkCurveWaypointAtTime (pi : list vec3) (T t : R) : outcome wpn :=
  coef <- j0j1_evaluateJerkCurveAtTime pi T t ;;
  Ok (Wn [mscal (fst coef) mid] (snd coef)).

(** include/hpp/bezier-com-traj/waypoints/waypoints_c0_dc0_ddc0_j0_j1_ddc1_dc1_c1.hh:182-206, computeConstantWaypoints. *)
Definition j0j1_computeConstantWaypoints (pData : problem) (T : R) : outcome (list vec3) :=
  let n := 8 in
  Ok [ (c0 pData) ;
       (vadd (vdivs (vscal T (dc0 pData)) n) (c0 pData)) ;
       (vadd (vadd (vdivs (vscal T (vscal T (ddc0 pData))) (n * (n - 1))) (vdivs (vscal T (vscal 2 (dc0 pData))) n)) (c0 pData)) ;
       (vadd (vadd (vadd (vdivs (vscal T (vscal T (vscal T (j0 pData)))) ((n * (n - 1)) * (n - 2))) (vdivs (vscal T (vscal T (vscal 3 (ddc0 pData)))) (n * (n - 1)))) (vdivs (vscal T (vscal 3 (dc0 pData))) n)) (c0 pData)) ;
       vzero ;
       (vadd (vsub (vadd (vdivs (vscal T (vscal T (vscal T (vopp (j1 pData))))) ((n * (n - 1)) * (n - 2))) (vdivs (vscal T (vscal T (vscal 3 (ddc1 pData)))) (n * (n - 1)))) (vdivs (vscal T (vscal 3 (dc1 pData))) n)) (c1 pData)) ;
       (vadd (vsub (vdivs (vscal T (vscal T (ddc1 pData))) (n * (n - 1))) (vdivs (vscal T (vscal 2 (dc1 pData))) n)) (c1 pData)) ;
       (vadd (vdivs (vscal T (vopp (dc1 pData))) n) (c1 pData)) ;
       (c1 pData) ].

(** include/hpp/bezier-com-traj/waypoints/waypoints_c0_dc0_ddc0_j0_j1_ddc1_dc1_c1.hh:208-365, computeWwaypoints. Blocks not assigned keep the zeros of initwp. *)
Definition j0j1_computeWwaypoints (pData : problem) (T : R) : outcome (list wp6) :=
  pi <- j0j1_computeConstantWaypoints pData T ;;
  let Cpi := map skew pi in
  g <- front_gravity pData ;;
  p0 <- get pi 0 ;;
  p1 <- get pi 1 ;;
  p2 <- get pi 2 ;;
  p4 <- get pi 4 ;;
  p5 <- get pi 5 ;;
  p6 <- get pi 6 ;;
  cp0 <- get Cpi 0 ;;
  cp1 <- get Cpi 1 ;;
  cp2 <- get Cpi 2 ;;
  cp4 <- get Cpi 4 ;;
  cp5 <- get Cpi 5 ;;
  cp6 <- get Cpi 6 ;;
  let Cg := skew g in
  let T2 := (T * T) in
  let alpha := (1 / T2) in
  Ok [ W6 mzero
          mzero
          (vscal alpha (vadd (vsub (vscal 30 p0) (vscal 60 p1)) (vscal 30 p2)))
          (vscal alpha (vscal 1 (vadd (vsub (mvmul (mscal T2 (mscal 1 Cg)) p0) (mvmul (mscal 60 cp0) p1)) (mvmul (mscal 30 cp0) p2)))) ;
       W6 (mscal ((133333333333333 / 10000000000000) * alpha) mid)
          (mscal alpha (mscal (133333333333333 / 10000000000000) cp0))
          (vscal alpha (vscal 1 (vsub (vsub (vscal (166666666666667 / 10000000000000) p0) (vscal 20 p1)) (vscal 10 p2))))
          (vscal alpha (vscal 1 (vadd (vsub (vadd (mvmul (mscal T2 (mscal (333333333333333 / 1000000000000000) Cg)) p0) (mvmul (mscal T2 (mscal (666666666666667 / 1000000000000000) Cg)) p1)) (mvmul (mscal 30 cp0) p2)) (mvmul (mscal 20 cp1) p2)))) ;
       W6 (mscal ((666666666666667 / 100000000000000) * alpha) mid)
          (mscal alpha (mscal 1 (madd (mscal (- (133333333333333 / 10000000000000)) cp0) (mscal 20 cp1))))
          (vscal alpha (vscal 1 (vadd (vsub (vscal (833333333333333 / 100000000000000) p0) (vscal 20 p2)) (vscal 5 p4))))
          (vscal alpha (vscal 1 (vsub (vadd (vadd (vadd (mvmul (mscal T2 (mscal (833333333333334 / 10000000000000000) Cg)) p0) (mvmul (mscal T2 (mscal (5 / 10) Cg)) p1)) (mvmul (mscal T2 (mscal (416666666666667 / 1000000000000000) Cg)) p2)) (mvmul (mscal 5 cp0) p4)) (mvmul (mscal 20 cp1) p2)))) ;
       W6 (mscal ((- (571428571428572 / 100000000000000)) * alpha) mid)
          (mscal alpha (mscal 1 (madd (msub (mscal T2 (mscal (238095238095238 / 1000000000000000) Cg)) (mscal 20 cp1)) (mscal (142857142857143 / 10000000000000) cp2))))
          (vscal alpha (vscal 1 (vadd (vadd (vsub (vadd (vscal (357142857142857 / 100000000000000) p0) (vscal (714285714285714 / 100000000000000) p1)) (vscal (142857142857143 / 10000000000000) p2)) (vscal (785714285714286 / 100000000000000) p4)) (vscal (142857142857143 / 100000000000000) p5))))
          (vscal alpha (vscal 1 (vadd (vadd (vsub (vadd (vadd (mvmul (mscal T2 (mscal (119047619047619 / 10000000000000000) Cg)) p0) (mvmul (mscal T2 (mscal (214285714285714 / 1000000000000000) Cg)) p1)) (mvmul (mscal T2 (mscal (535714285714286 / 1000000000000000) Cg)) p2)) (mvmul (mscal 5 cp0) p4)) (mvmul (mscal (142857142857143 / 100000000000000) cp0) p5)) (mvmul (mscal (128571428571429 / 10000000000000) cp1) p4)))) ;
       W6 (mscal ((- (142857142857143 / 10000000000000)) * alpha) mid)
          (mscal alpha (mscal 1 (msub (mscal T2 (mscal (476190476190476 / 1000000000000000) Cg)) (mscal (142857142857143 / 10000000000000) cp2))))
          (vscal alpha (vscal 1 (vadd (vadd (vadd (vsub (vadd (vscal (119047619047619 / 100000000000000) p0) (vscal (714285714285714 / 100000000000000) p1)) (vscal (357142857142857 / 100000000000000) p2)) (vscal 5 p4)) (vscal (428571428571429 / 100000000000000) p5)) (vscal (238095238095238 / 1000000000000000) p6))))
          (vscal alpha (vscal 1 (vadd (vadd (vsub (vadd (vsub (vadd (vadd (mvmul (mscal T2 (mscal (476190476190471 / 10000000000000000) Cg)) p1) (mvmul (mscal T2 (mscal (357142857142857 / 1000000000000000) Cg)) p2)) (mvmul (mscal T2 (mscal (119047619047619 / 1000000000000000) Cg)) p4)) (mvmul (mscal (142857142857143 / 100000000000000) cp0) p5)) (mvmul (mscal (238095238095238 / 1000000000000000) cp0) p6)) (mvmul (mscal (128571428571429 / 10000000000000) cp1) p4)) (mvmul (mscal (571428571428571 / 100000000000000) cp1) p5)) (mvmul (mscal (178571428571429 / 10000000000000) cp2) p4)))) ;
       W6 (mscal ((- (142857142857143 / 10000000000000)) * alpha) mid)
          (mscal alpha (mscal 1 (msub (mscal T2 (mscal (476190476190476 / 1000000000000000) Cg)) (mscal (142857142857143 / 10000000000000) cp4))))
          (vscal alpha (vscal 1 (vadd (vadd (vsub (vadd (vadd (vscal (238095238095238 / 1000000000000000) p0) (vscal (428571428571429 / 100000000000000) p1)) (vscal 5 p2)) (vscal (357142857142857 / 100000000000000) p4)) (vscal (714285714285714 / 100000000000000) p5)) (vscal (119047619047619 / 100000000000000) p6))))
          (vscal alpha (vscal 1 (vadd (vsub (vadd (vsub (vsub (vadd (vadd (mvmul (mscal T2 (mscal (11904761904762 / 100000000000000) Cg)) p2) (mvmul (mscal T2 (mscal (357142857142857 / 1000000000000000) Cg)) p4)) (mvmul (mscal T2 (mscal (476190476190476 / 10000000000000000) Cg)) p5)) (mvmul (mscal (238095238095238 / 1000000000000000) cp0) p6)) (mvmul (mscal (571428571428572 / 100000000000000) cp1) p5)) (mvmul (mscal (142857142857143 / 100000000000000) cp1) p6)) (mvmul (mscal (178571428571429 / 10000000000000) cp2) p4)) (mvmul (mscal (128571428571429 / 10000000000000) cp2) p5)))) ;
       W6 (mscal ((- (571428571428571 / 100000000000000)) * alpha) mid)
          (mscal alpha (mscal 1 (msub (madd (mscal T2 (mscal (238095238095238 / 1000000000000000) Cg)) (mscal (142857142857143 / 10000000000000) cp4)) (mscal 20 cp5))))
          (vscal alpha (vscal 1 (vadd (vadd (vsub (vadd (vscal (142857142857143 / 100000000000000) p1) (vscal (785714285714286 / 100000000000000) p2)) (vscal (142857142857143 / 10000000000000) p4)) (vscal (714285714285715 / 100000000000000) p5)) (vscal (357142857142857 / 100000000000000) p6))))
          (vscal alpha (vscal 1 (vadd (vsub (vsub (vadd (vadd (mvmul (mscal T2 (mscal (535714285714286 / 1000000000000000) Cg)) p4) (mvmul (mscal T2 (mscal (214285714285714 / 1000000000000000) Cg)) p5)) (mvmul (mscal T2 (mscal (119047619047619 / 10000000000000000) Cg)) p6)) (mvmul (mscal (142857142857143 / 100000000000000) cp1) p6)) (mvmul (mscal (128571428571429 / 10000000000000) cp2) p5)) (mvmul (mscal 5 cp2) p6)))) ;
       W6 (mscal ((666666666666667 / 100000000000000) * alpha) mid)
          (mscal alpha (mscal 1 (msub (mscal 20 cp5) (mscal (133333333333333 / 10000000000000) cp6))))
          (vscal alpha (vscal 1 (vadd (vsub (vscal 5 p2) (vscal 20 p4)) (vscal (833333333333333 / 100000000000000) p6))))
          (vscal alpha (vscal 1 (vadd (vsub (vadd (vadd (mvmul (mscal T2 (mscal (416666666666667 / 1000000000000000) Cg)) p4) (mvmul (mscal T2 (mscal (5 / 10) Cg)) p5)) (mvmul (mscal T2 (mscal (833333333333333 / 10000000000000000) Cg)) p6)) (mvmul (mscal 5 cp2) p6)) (mvmul (mscal 20 cp4) p5)))) ;
       W6 (mscal ((133333333333333 / 10000000000000) * alpha) mid)
          (mscal alpha (mscal 1 (mscal (133333333333333 / 10000000000000) cp6)))
          (vscal alpha (vscal 1 (vadd (vsub (vscal (- (999999999999999 / 100000000000000)) p4) (vscal 20 p5)) (vscal (166666666666667 / 10000000000000) p6))))
          (vscal alpha (vscal 1 (vadd (vsub (vadd (mvmul (mscal T2 (mscal (666666666666667 / 1000000000000000) Cg)) p5) (mvmul (mscal T2 (mscal (333333333333333 / 1000000000000000) Cg)) p6)) (mvmul (mscal 20 cp4) p5)) (mvmul (mscal 30 cp4) p6)))) ;
       W6 mzero
          mzero
          (vscal alpha (vadd (vsub (vscal 30 p4) (vscal 60 p5)) (vscal 30 p6)))
          (vscal alpha (vscal 1 (vadd (vsub (mvmul (mscal T2 (mscal 1 Cg)) p6) (mvmul (mscal 30 cp4) p6)) (mvmul (mscal 60 cp5) p6)))) ].

(** include/hpp/bezier-com-traj/waypoints/waypoints_c0_dc0_ddc0_j0_j1_ddc1_dc1_c1.hh:367-411, computeVelocityWaypoints. *)
Definition j0j1_computeVelocityWaypoints (pData : problem) (T : R) (pi0 : list vec3) : outcome (list wpn) :=
  pi <- (match pi0 with [] => j0j1_computeConstantWaypoints pData T | _ => Ok pi0 end) ;;
  p0 <- get pi 0 ;;
  p1 <- get pi 1 ;;
  p2 <- get pi 2 ;;
  p3 <- get pi 3 ;;
  p5 <- get pi 5 ;;
  p6 <- get pi 6 ;;
  p7 <- get pi 7 ;;
  p8 <- get pi 8 ;;
  let alpha := (1 / T) in
  Ok [ Wn [mzero]
          (vscal (alpha * 8) (vadd (vopp p0) p1)) ;
       Wn [mzero]
          (vscal (alpha * 8) (vadd (vopp p1) p2)) ;
       Wn [mzero]
          (vscal (alpha * 8) (vadd (vopp p2) p3)) ;
       Wn [(mscal (8 * alpha) mid)]
          (vscal (alpha * (- 8)) p3) ;
       Wn [(mscal ((- 8) * alpha) mid)]
          (vscal (alpha * 8) p5) ;
       Wn [mzero]
          (vscal (alpha * 8) (vadd (vopp p5) p6)) ;
       Wn [mzero]
          (vscal (alpha * 8) (vadd (vopp p6) p7)) ;
       Wn [mzero]
          (vscal (alpha * 8) (vadd (vopp p7) p8)) ].

(** include/hpp/bezier-com-traj/waypoints/waypoints_c0_dc0_ddc0_j0_j1_ddc1_dc1_c1.hh:413-455, computeAccelerationWaypoints. *)
Definition j0j1_computeAccelerationWaypoints (pData : problem) (T : R) (pi0 : list vec3) : outcome (list wpn) :=
  pi <- (match pi0 with [] => j0j1_computeConstantWaypoints pData T | _ => Ok pi0 end) ;;
  p0 <- get pi 0 ;;
  p1 <- get pi 1 ;;
  p2 <- get pi 2 ;;
  p3 <- get pi 3 ;;
  p5 <- get pi 5 ;;
  p6 <- get pi 6 ;;
  p7 <- get pi 7 ;;
  p8 <- get pi 8 ;;
  let alpha := (1 / (T * T)) in
  Ok [ Wn [mzero]
          (vscal (56 * alpha) (vadd (vsub p0 (vscal 2 p1)) p2)) ;
       Wn [mzero]
          (vscal (56 * alpha) (vadd (vsub p1 (vscal 2 p2)) p3)) ;
       Wn [(mscal (56 * alpha) mid)]
          (vscal alpha (vsub (vscal 56 p2) (vscal 112 p3))) ;
       Wn [(mscal ((- 112) * alpha) mid)]
          (vscal alpha (vadd (vscal 56 p3) (vscal 56 p8))) ;
       Wn [(mscal (56 * alpha) mid)]
          (vscal alpha (vadd (vscal (- 112) p5) (vscal 56 p6))) ;
       Wn [mzero]
          (vscal (56 * alpha) (vadd (vsub p5 (vscal 2 p6)) p7)) ;
       Wn [mzero]
          (vscal (56 * alpha) (vadd (vsub p6 (vscal 2 p7)) p8)) ].

(** include/hpp/bezier-com-traj/waypoints/waypoints_c0_dc0_ddc0_j0_j1_ddc1_dc1_c1.hh:457-497, computeJerkWaypoints. *)
Definition j0j1_computeJerkWaypoints (pData : problem) (T : R) (pi0 : list vec3) : outcome (list wpn) :=
  pi <- (match pi0 with [] => j0j1_computeConstantWaypoints pData T | _ => Ok pi0 end) ;;
  p0 <- get pi 0 ;;
  p1 <- get pi 1 ;;
  p2 <- get pi 2 ;;
  p3 <- get pi 3 ;;
  p5 <- get pi 5 ;;
  p6 <- get pi 6 ;;
  p7 <- get pi 7 ;;
  p8 <- get pi 8 ;;
  let alpha := (1 / ((T * T) * T)) in
  Ok [ Wn [mzero]
          (vscal alpha (vscal 336 (vadd (vsub (vadd (vopp p0) (vscal 3 p1)) (vscal 3 p2)) p3))) ;
       Wn [(mscal (336 * alpha) mid)]
          (vscal alpha (vscal 336 (vsub (vadd (vopp p1) (vscal 3 p2)) (vscal 3 p3)))) ;
       Wn [(mscal (((- 3) * 336) * alpha) mid)]
          (vscal alpha (vscal 336 (vadd (vadd (vopp p2) (vscal 3 p3)) p5))) ;
       Wn [(mscal ((3 * 336) * alpha) mid)]
          (vscal alpha (vscal 336 (vadd (vsub (vopp p3) (vscal 3 p5)) p6))) ;
       Wn [(mscal ((- 336) * alpha) mid)]
          (vscal alpha (vscal 336 (vadd (vsub (vscal 3 p5) (vscal 3 p6)) p7))) ;
       Wn [mzero]
          (vscal alpha (vscal 336 (vadd (vsub (vadd (vopp p5) (vscal 3 p6)) (vscal 3 p7)) p8))) ].

(** include/hpp/bezier-com-traj/waypoints/waypoints_c0_dc0_ddc0_j0_j1_ddc1_dc1_c1.hh:499-506, computeFinalVelocityPoint. *)
Definition j0j1_computeFinalVelocityPoint (pData : problem) (T : R) : outcome coefs :=
  pi <- j0j1_computeConstantWaypoints pData T ;;
  p5 <- get pi 5 ;;
  p6 <- get pi 6 ;;
  Ok (0, (vdivs (vadd (vscal (- 6) p5) (vscal 6 p6)) T)).

(** include/hpp/bezier-com-traj/waypoints/waypoints_c0_dc0_ddc0_j0_j1_ddc1_dc1_c1.hh:508-526, computeVelocityCost. H and g as 3x3 blocks / 3-segments; norm is Eigen's (Frobenius) norm. *)
Definition j0j1_computeVelocityCost (pData : problem) (T : R) (pi0 : list vec3) : outcome (list (list mat3) * list vec3) :=
  pi <- (match pi0 with [] => j0j1_computeConstantWaypoints pData T | _ => Ok pi0 end) ;;
  p0 <- get pi 0 ;;
  p1 <- get pi 1 ;;
  p3 <- get pi 3 ;;
  p5 <- get pi 5 ;;
  p7 <- get pi 7 ;;
  p8 <- get pi 8 ;;
  let H := [ [(mdivs (mscal (652680652684107 / 100000000000000) mid) T)] ] in
  let g := [ (vdivs (vsub (vsub (vadd (vadd (vsub (vscal (- (78321678321748 / 10000000000000)) p0) (vscal (783216783237586 / 100000000000000) p1)) (vscal (913752913728184 / 100000000000000) p3)) (vscal (913752913758454 / 100000000000000) p5)) (vscal (783216783216697 / 100000000000000) p7)) (vscal (783216783216777 / 100000000000000) p8)) (2 * T)) ] in
  let norm := blocks_norm H in
  Ok (map (map (fun m => mdivs m norm)) H, map (fun v => vdivs v norm) g).

(** include/hpp/bezier-com-traj/waypoints/waypoints_c0_dc0_ddc0_j0_x3_j1_ddc1_dc1_c1.hh:14-16, flag. *)
Definition x3_flag : Z := (fl_or (fl_or (fl_or (fl_or (fl_or (fl_or (fl_or (fl_or INIT_POS INIT_VEL) INIT_ACC) END_ACC) END_VEL) END_POS) INIT_JERK) END_JERK) THREE_FREE_VAR).

(** include/hpp/bezier-com-traj/waypoints/waypoints_c0_dc0_ddc0_j0_x3_j1_ddc1_dc1_c1.hh:32-72, evaluateCurveWaypointAtTime. *)
Definition x3_evaluateCurveWaypointAtTime (pi : list vec3) (t : R) : outcome wpn :=
  p0 <- get pi 0 ;;
  p1 <- get pi 1 ;;
  p2 <- get pi 2 ;;
  p3 <- get pi 3 ;;
  p7 <- get pi 7 ;;
  p8 <- get pi 8 ;;
  p9 <- get pi 9 ;;
  p10 <- get pi 10 ;;
  let t2 := (t * t) in
  let t3 := (t2 * t) in
  let t4 := (t3 * t) in
  let t5 := (t4 * t) in
  let t6 := (t5 * t) in
  let t7 := (t6 * t) in
  let t8 := (t7 * t) in
  let t9 := (t8 * t) in
  let t10 := (t9 * t) in
  Ok (Wn [(mscal (((((((t4 * 210) - (t5 * 1260)) + (t6 * 3150)) - (4200 * t7)) + (3150 * t8)) - (1260 * t9)) + (210 * t10)) mid);
          (mscal ((((((252 * t5) - (1260 * t6)) + (2520 * t7)) - (2520 * t8)) + (1260 * t9)) - (252 * t10)) mid);
          (mscal (((((210 * t6) - (840 * t7)) + (1260 * t8)) - (840 * t9)) + (210 * t10)) mid)]
          (vadd (vadd (vadd (vadd (vadd (vadd (vadd (vadd (vadd (vadd (vscal 1 p0) (vscal t (vadd (vscal (- 10) p0) (vscal 10 p1)))) (vscal t2 (vadd (vsub (vscal 45 p0) (vscal 90 p1)) (vscal 45 p2)))) (vscal t3 (vadd (vsub (vadd (vscal (- 120) p0) (vscal 360 p1)) (vscal 360 p2)) (vscal 120 p3)))) (vscal t4 (vsub (vadd (vsub (vscal 210 p0) (vscal 840 p1)) (vscal 1260 p2)) (vscal 840 p3)))) (vscal t5 (vadd (vsub (vadd (vscal (- 252) p0) (vscal 1260 p1)) (vscal 2520 p2)) (vscal 2520 p3)))) (vscal t6 (vsub (vadd (vsub (vscal 210 p0) (vscal 1260 p1)) (vscal 3150 p2)) (vscal 4200 p3)))) (vscal t7 (vadd (vadd (vsub (vadd (vscal (- 120) p0) (vscal 840 p1)) (vscal 2520 p2)) (vscal 4200 p3)) (vscal 120 p7)))) (vscal t8 (vadd (vsub (vsub (vadd (vsub (vscal 45 p0) (vscal 360 p1)) (vscal 1260 p2)) (vscal 2520 p3)) (vscal 360 p7)) (vscal 45 p8)))) (vscal t9 (vadd (vsub (vadd (vadd (vsub (vadd (vscal (- 10) p0) (vscal 90 p1)) (vscal 360 p2)) (vscal 840 p3)) (vscal 360 p7)) (vscal 90 p8)) (vscal 10 p9)))) (vscal t10 (vsub (vadd (vsub (vsub (vadd (vsub (vadd (vscal 1 p0) (vscal 1 p10)) (vscal 10 p1)) (vscal 45 p2)) (vscal 120 p3)) (vscal 120 p7)) (vscal 45 p8)) (vscal 10 p9))))).

(** include/hpp/bezier-com-traj/waypoints/waypoints_c0_dc0_ddc0_j0_x3_j1_ddc1_dc1_c1.hh:75-123, evaluateVelocityCurveWaypointAtTime. *)
Definition x3_evaluateVelocityCurveWaypointAtTime (pi : list vec3) (T t : R) : outcome wpn :=
  p0 <- get pi 0 ;;
  p1 <- get pi 1 ;;
  p2 <- get pi 2 ;;
  p3 <- get pi 3 ;;
  p7 <- get pi 7 ;;
  p8 <- get pi 8 ;;
  p9 <- get pi 9 ;;
  p10 <- get pi 10 ;;
  let alpha := (1 / T) in
  let t2 := (t * t) in
  let t3 := (t2 * t) in
  let t4 := (t3 * t) in
  let t5 := (t4 * t) in
  let t6 := (t5 * t) in
  let t7 := (t6 * t) in
  let t8 := (t7 * t) in
  let t9 := (t8 * t) in
  Ok (Wn [(mscal (1 * (((((((2100 * t9) - (11340 * t8)) + (25200 * t7)) - (29400 * t6)) + (18900 * t5)) - (6300 * t4)) + (840 * t3))) (mscal alpha mid));
          (mscal (1 * (((((((- 2520) * t9) + (11340 * t8)) - (20160 * t7)) + (17640 * t6)) - (7560 * t5)) + (1260 * t4))) (mscal alpha mid));
          (mscal (1 * (((((2100 * t9) - (7560 * t8)) + (10080 * t7)) - (5880 * t6)) + (1260 * t5))) (mscal alpha mid))]
          (vscal alpha (vadd (vadd (vadd (vadd (vadd (vadd (vadd (vadd (vadd (vscal 1 (vadd (vscal (- 10) p0) (vscal 10 p1))) (vscal t (vscal 1 (vadd (vsub (vscal 90 p0) (vscal 180 p1)) (vscal 90 p2))))) (vscal t2 (vscal 1 (vadd (vsub (vadd (vscal (- 360) p0) (vscal 1080 p1)) (vscal 1080 p2)) (vscal 360 p3))))) (vscal t3 (vscal 1 (vadd (vsub (vadd (vadd (vsub (vadd (vscal (- 90) p0) (vscal 810 p1)) (vscal 3240 p2)) (vscal 7560 p3)) (vscal 3240 p7)) (vscal 810 p8)) (vscal 90 p9))))) (vscal t4 (vscal 1 (vsub (vadd (vsub (vscal 840 p0) (vscal 3360 p1)) (vscal 5040 p2)) (vscal 3360 p3))))) (vscal t5 (vscal 1 (vsub (vadd (vsub (vsub (vadd (vsub (vadd (vscal 10 p0) (vscal 10 p10)) (vscal 100 p1)) (vscal 450 p2)) (vscal 1200 p3)) (vscal 1200 p7)) (vscal 450 p8)) (vscal 100 p9))))) (vscal t6 (vscal 1 (vadd (vsub (vadd (vscal (- 1260) p0) (vscal 6300 p1)) (vscal 12600 p2)) (vscal 12600 p3))))) (vscal t7 (vscal 1 (vsub (vadd (vsub (vscal 1260 p0) (vscal 7560 p1)) (vscal 18900 p2)) (vscal 25200 p3))))) (vscal t8 (vscal 1 (vadd (vadd (vsub (vadd (vscal (- 840) p0) (vscal 5880 p1)) (vscal 17640 p2)) (vscal 29400 p3)) (vscal 840 p7))))) (vscal t9 (vscal 1 (vadd (vsub (vsub (vadd (vsub (vscal 360 p0) (vscal 2880 p1)) (vscal 10080 p2)) (vscal 20160 p3)) (vscal 2880 p7)) (vscal 360 p8))))))).

(** include/hpp/bezier-com-traj/waypoints/waypoints_c0_dc0_ddc0_j0_x3_j1_ddc1_dc1_c1.hh:126-172, evaluateAccelerationCurveWaypointAtTime. *)
Definition x3_evaluateAccelerationCurveWaypointAtTime (pi : list vec3) (T t : R) : outcome wpn :=
  p0 <- get pi 0 ;;
  p1 <- get pi 1 ;;
  p2 <- get pi 2 ;;
  p3 <- get pi 3 ;;
  p7 <- get pi 7 ;;
  p8 <- get pi 8 ;;
  p9 <- get pi 9 ;;
  p10 <- get pi 10 ;;
  let alpha := (1 / (T * T)) in
  let t2 := (t * t) in
  let t3 := (t2 * t) in
  let t4 := (t3 * t) in
  let t5 := (t4 * t) in
  let t6 := (t5 * t) in
  let t7 := (t6 * t) in
  let t8 := (t7 * t) in
  Ok (Wn [(mscal (1 * (((((((18900 * t8) - (90720 * t7)) + (176400 * t6)) - (176400 * t5)) + (94500 * t4)) - (25200 * t3)) + (2520 * t2))) (mscal alpha mid));
          (mscal (1 * (((((((- 22680) * t8) + (90720 * t7)) - (141120 * t6)) + (105840 * t5)) - (37800 * t4)) + (5040 * t3))) (mscal alpha mid));
          (mscal (1 * (((((18900 * t8) - (60480 * t7)) + (70560 * t6)) - (35280 * t5)) + (6300 * t4))) (mscal alpha mid))]
          (vscal alpha (vadd (vadd (vadd (vadd (vadd (vadd (vadd (vadd (vscal 1 (vadd (vsub (vscal 90 p0) (vscal 180 p1)) (vscal 90 p2))) (vscal t (vscal 1 (vadd (vsub (vadd (vscal (- 720) p0) (vscal 2160 p1)) (vscal 2160 p2)) (vscal 720 p3))))) (vscal t2 (vscal 1 (vsub (vadd (vsub (vscal 2520 p0) (vscal 10080 p1)) (vscal 15120 p2)) (vscal 10080 p3))))) (vscal t3 (vscal 1 (vsub (vadd (vsub (vsub (vadd (vsub (vadd (vscal 90 p0) (vscal 90 p10)) (vscal 900 p1)) (vscal 4050 p2)) (vscal 10800 p3)) (vscal 10800 p7)) (vscal 4050 p8)) (vscal 900 p9))))) (vscal t4 (vscal 1 (vadd (vsub (vadd (vscal (- 5040) p0) (vscal 25200 p1)) (vscal 50400 p2)) (vscal 50400 p3))))) (vscal t5 (vscal 1 (vsub (vadd (vsub (vscal 6300 p0) (vscal 37800 p1)) (vscal 94500 p2)) (vscal 126000 p3))))) (vscal t6 (vscal 1 (vadd (vadd (vsub (vadd (vscal (- 5040) p0) (vscal 35280 p1)) (vscal 105840 p2)) (vscal 176400 p3)) (vscal 5040 p7))))) (vscal t7 (vscal 1 (vadd (vsub (vsub (vadd (vsub (vscal 2520 p0) (vscal 20160 p1)) (vscal 70560 p2)) (vscal 141120 p3)) (vscal 20160 p7)) (vscal 2520 p8))))) (vscal t8 (vscal 1 (vadd (vsub (vadd (vadd (vsub (vadd (vscal (- 720) p0) (vscal 6480 p1)) (vscal 25920 p2)) (vscal 60480 p3)) (vscal 25920 p7)) (vscal 6480 p8)) (vscal 720 p9))))))).

(** include/hpp/bezier-com-traj/waypoints/waypoints_c0_dc0_ddc0_j0_x3_j1_ddc1_dc1_c1.hh:175-219, evaluateJerkCurveWaypointAtTime. *)
Definition x3_evaluateJerkCurveWaypointAtTime (pi : list vec3) (T t : R) : outcome wpn :=
  p0 <- get pi 0 ;;
  p1 <- get pi 1 ;;
  p2 <- get pi 2 ;;
  p3 <- get pi 3 ;;
  p7 <- get pi 7 ;;
  p8 <- get pi 8 ;;
  p9 <- get pi 9 ;;
  p10 <- get pi 10 ;;
  let alpha := (1 / ((T * T) * T)) in
  let t2 := (t * t) in
  let t3 := (t2 * t) in
  let t4 := (t3 * t) in
  let t5 := (t4 * t) in
  let t6 := (t5 * t) in
  let t7 := (t6 * t) in
  Ok (Wn [(mscal (1 * (((((((151200 * t7) - (635040 * t6)) + (1058400 * t5)) - (882000 * t4)) + (378000 * t3)) - (75600 * t2)) + (5040 * t))) (mscal alpha mid));
          (mscal (1 * (((((((- 181440) * t7) + (635040 * t6)) - (846720 * t5)) + (529200 * t4)) - (151200 * t3)) + (15120 * t2))) (mscal alpha mid));
          (mscal (1 * (((((151200 * t7) - (423360 * t6)) + (423360 * t5)) - (176400 * t4)) + (25200 * t3))) (mscal alpha mid))]
          (vscal alpha (vadd (vadd (vadd (vadd (vadd (vadd (vadd (vscal 1 (vadd (vsub (vadd (vscal (- 720) p0) (vscal 2160 p1)) (vscal 2160 p2)) (vscal 720 p3))) (vscal t (vscal 1 (vsub (vadd (vsub (vscal 5040 p0) (vscal 20160 p1)) (vscal 30240 p2)) (vscal 20160 p3))))) (vscal t2 (vscal 1 (vadd (vsub (vadd (vscal (- 15120) p0) (vscal 75600 p1)) (vscal 151200 p2)) (vscal 151200 p3))))) (vscal t3 (vscal 1 (vsub (vadd (vsub (vscal 25200 p0) (vscal 151200 p1)) (vscal 378000 p2)) (vscal 504000 p3))))) (vscal t4 (vscal 1 (vadd (vadd (vsub (vadd (vscal (- 25200) p0) (vscal 176400 p1)) (vscal 529200 p2)) (vscal 882000 p3)) (vscal 25200 p7))))) (vscal t5 (vscal 1 (vadd (vsub (vsub (vadd (vsub (vscal 15120 p0) (vscal 120960 p1)) (vscal 423360 p2)) (vscal 846720 p3)) (vscal 120960 p7)) (vscal 15120 p8))))) (vscal t6 (vscal 1 (vadd (vsub (vadd (vadd (vsub (vadd (vscal (- 5040) p0) (vscal 45360 p1)) (vscal 181440 p2)) (vscal 423360 p3)) (vscal 181440 p7)) (vscal 45360 p8)) (vscal 5040 p9))))) (vscal t7 (vscal 1 (vsub (vadd (vsub (vsub (vadd (vsub (vadd (vscal 720 p0) (vscal 720 p10)) (vscal 7200 p1)) (vscal 32400 p2)) (vscal 86400 p3)) (vscal 86400 p7)) (vscal 32400 p8)) (vscal 7200 p9))))))).

(** include/hpp/bezier-com-traj/waypoints/waypoints_c0_dc0_ddc0_j0_x3_j1_ddc1_dc1_c1.hh:221-247, computeConstantWaypoints. *)
Definition x3_computeConstantWaypoints (pData : problem) (T : R) : outcome (list vec3) :=
  let n := 10 in
  Ok [ (c0 pData) ;
       (vadd (vdivs (vscal T (dc0 pData)) n) (c0 pData)) ;
       (vadd (vadd (vdivs (vscal T (vscal T (ddc0 pData))) (n * (n - 1))) (vdivs (vscal T (vscal 2 (dc0 pData))) n)) (c0 pData)) ;
       (vadd (vadd (vadd (vdivs (vscal T (vscal T (vscal T (j0 pData)))) ((n * (n - 1)) * (n - 2))) (vdivs (vscal T (vscal T (vscal 3 (ddc0 pData)))) (n * (n - 1)))) (vdivs (vscal T (vscal 3 (dc0 pData))) n)) (c0 pData)) ;
       vzero ;
       vzero ;
       vzero ;
       (vadd (vsub (vadd (vdivs (vscal T (vscal T (vscal T (vopp (j1 pData))))) ((n * (n - 1)) * (n - 2))) (vdivs (vscal T (vscal T (vscal 3 (ddc1 pData)))) (n * (n - 1)))) (vdivs (vscal T (vscal 3 (dc1 pData))) n)) (c1 pData)) ;
       (vadd (vsub (vdivs (vscal T (vscal T (ddc1 pData))) (n * (n - 1))) (vdivs (vscal T (vscal 2 (dc1 pData))) n)) (c1 pData)) ;
       (vadd (vdivs (vscal T (vopp (dc1 pData))) n) (c1 pData)) ;
       (c1 pData) ].

(** include/hpp/bezier-com-traj/waypoints/waypoints_c0_dc0_ddc0_j0_x3_j1_ddc1_dc1_c1.hh:250-266, computeWwaypoints. (prints NOT IMPLEMENTED YET, returns no waypoint) *)
Definition x3_computeWwaypoints (pData : problem) (T : R) : outcome (list wp6) :=
  pi <- x3_computeConstantWaypoints pData T ;;
  let Cpi := map skew pi in
  Ok [  ].

(** include/hpp/bezier-com-traj/waypoints/waypoints_c0_dc0_ddc0_j0_x3_j1_ddc1_dc1_c1.hh:268-323, computeVelocityWaypoints. *)
Definition x3_computeVelocityWaypoints (pData : problem) (T : R) (pi0 : list vec3) : outcome (list wpn) :=
  pi <- (match pi0 with [] => x3_computeConstantWaypoints pData T | _ => Ok pi0 end) ;;
  p0 <- get pi 0 ;;
  p1 <- get pi 1 ;;
  p2 <- get pi 2 ;;
  p3 <- get pi 3 ;;
  p7 <- get pi 7 ;;
  p8 <- get pi 8 ;;
  p9 <- get pi 9 ;;
  p10 <- get pi 10 ;;
  let alpha := (1 / T) in
  Ok [ Wn [mzero; mzero; mzero]
          (vscal (alpha * 10) (vadd (vopp p0) p1)) ;
       Wn [mzero; mzero; mzero]
          (vscal (alpha * 10) (vadd (vopp p1) p2)) ;
       Wn [mzero; mzero; mzero]
          (vscal (alpha * 10) (vadd (vopp p2) p3)) ;
       Wn [(mscal (10 * alpha) mid); mzero; mzero]
          (vscal (alpha * 10) (vopp p3)) ;
       Wn [(mscal ((- 10) * alpha) mid); (mscal (10 * alpha) mid); mzero]
          vzero ;
       Wn [mzero; (mscal ((- 10) * alpha) mid); (mscal (10 * alpha) mid)]
          vzero ;
       Wn [mzero; mzero; (mscal ((- 10) * alpha) mid)]
          (vscal (alpha * 10) p7) ;
       Wn [mzero; mzero; mzero]
          (vscal (alpha * 10) (vadd (vopp p7) p8)) ;
       Wn [mzero; mzero; mzero]
          (vscal (alpha * 10) (vadd (vopp p8) p9)) ;
       Wn [mzero; mzero; mzero]
          (vscal (alpha * 10) (vsub p10 p9)) ].

(** include/hpp/bezier-com-traj/waypoints/waypoints_c0_dc0_ddc0_j0_x3_j1_ddc1_dc1_c1.hh:325-381, computeAccelerationWaypoints. *)
Definition x3_computeAccelerationWaypoints (pData : problem) (T : R) (pi0 : list vec3) : outcome (list wpn) :=
  pi <- (match pi0 with [] => x3_computeConstantWaypoints pData T | _ => Ok pi0 end) ;;
  p0 <- get pi 0 ;;
  p1 <- get pi 1 ;;
  p2 <- get pi 2 ;;
  p3 <- get pi 3 ;;
  p7 <- get pi 7 ;;
  p8 <- get pi 8 ;;
  p9 <- get pi 9 ;;
  p10 <- get pi 10 ;;
  let alpha := (1 / (T * T)) in
  Ok [ Wn [mzero; mzero; mzero]
          (vscal (alpha * 90) (vadd (vsub p0 (vscal 2 p1)) p2)) ;
       Wn [mzero; mzero; mzero]
          (vscal (alpha * 90) (vadd (vsub p1 (vscal 2 p2)) p3)) ;
       Wn [(mscal (90 * alpha) mid); mzero; mzero]
          (vscal (alpha * 90) (vsub p2 p3)) ;
       Wn [(mscal ((- 180) * alpha) mid); (mscal (90 * alpha) mid); mzero]
          (vscal (alpha * 90) p3) ;
       Wn [(mscal (90 * alpha) mid); (mscal ((- 180) * alpha) mid); (mscal (90 * alpha) mid)]
          vzero ;
       Wn [mzero; (mscal (90 * alpha) mid); (mscal ((- 180) * alpha) mid)]
          (vscal (alpha * 90) p7) ;
       Wn [mzero; mzero; (mscal (90 * alpha) mid)]
          (vscal (alpha * 90) (vadd (vscal (- 2) p7) p8)) ;
       Wn [mzero; mzero; mzero]
          (vscal (alpha * 90) (vadd (vsub p7 (vscal 2 p8)) p9)) ;
       Wn [mzero; mzero; mzero]
          (vscal (alpha * 90) (vadd (vsub p7 (vscal 2 p8)) p9)) ;
       Wn [mzero; mzero; mzero]
          (vscal (alpha * 90) (vsub (vadd p10 p8) (vscal 2 p9))) ].

(** include/hpp/bezier-com-traj/waypoints/waypoints_c0_dc0_ddc0_j0_x3_j1_ddc1_dc1_c1.hh:383-439, computeJerkWaypoints. *)
Definition x3_computeJerkWaypoints (pData : problem) (T : R) (pi0 : list vec3) : outcome (list wpn) :=
  pi <- (match pi0 with [] => x3_computeConstantWaypoints pData T | _ => Ok pi0 end) ;;
  p0 <- get pi 0 ;;
  p1 <- get pi 1 ;;
  p2 <- get pi 2 ;;
  p3 <- get pi 3 ;;
  p7 <- get pi 7 ;;
  p8 <- get pi 8 ;;
  p9 <- get pi 9 ;;
  p10 <- get pi 10 ;;
  let alpha := (1 / ((T * T) * T)) in
  Ok [ Wn [mzero; mzero; mzero]
          (vscal (alpha * 720) (vadd (vsub (vadd (vopp p0) (vscal 3 p1)) (vscal 3 p2)) p3)) ;
       Wn [(mscal (720 * alpha) mid); mzero; mzero]
          (vscal (alpha * 720) (vsub (vadd (vopp p1) (vscal 3 p2)) (vscal 3 p3))) ;
       Wn [(mscal ((720 * (- 3)) * alpha) mid); (mscal (720 * alpha) mid); mzero]
          (vscal (alpha * 720) (vadd (vopp p2) (vscal 3 p3))) ;
       Wn [(mscal ((720 * 3) * alpha) mid); (mscal ((720 * (- 3)) * alpha) mid); (mscal (720 * alpha) mid)]
          (vscal (alpha * 720) (vopp p3)) ;
       Wn [(mscal ((- 720) * alpha) mid); (mscal ((720 * 3) * alpha) mid); (mscal ((720 * (- 3)) * alpha) mid)]
          (vscal (alpha * 720) p7) ;
       Wn [mzero; (mscal ((- 720) * alpha) mid); (mscal ((720 * 3) * alpha) mid)]
          (vscal (alpha * 720) (vadd (vscal (- 3) p7) p8)) ;
       Wn [mzero; mzero; (mscal ((- 720) * alpha) mid)]
          (vscal (alpha * 720) (vadd (vsub (vscal 3 p7) (vscal 3 p8)) p9)) ;
       Wn [mzero; mzero; mzero]
          (vscal (alpha * 720) (vsub (vadd (vsub p10 p7) (vscal 3 p8)) (vscal 3 p9))) ].

(** include/hpp/bezier-com-traj/waypoints/waypoints_c0_dc0_ddc0_j0_x3_j1_ddc1_dc1_c1.hh:442-449, computeFinalVelocityPoint. *)
Definition x3_computeFinalVelocityPoint (pData : problem) (T : R) : outcome coefs :=
  pi <- x3_computeConstantWaypoints pData T ;;
  p5 <- get pi 5 ;;
  p6 <- get pi 6 ;;
  Ok (0, (vdivs (vadd (vscal (- 6) p5) (vscal 6 p6)) T)).

(** include/hpp/bezier-com-traj/waypoints/waypoints_c0_dc0_ddc0_j0_x3_j1_ddc1_dc1_c1.hh:451-495, computeVelocityCost. H and g as 3x3 blocks / 3-segments; norm is Eigen's (Frobenius) norm. *)
Definition x3_computeVelocityCost (pData : problem) (T : R) (pi0 : list vec3) : outcome (list (list mat3) * list vec3) :=
  pi <- (match pi0 with [] => x3_computeConstantWaypoints pData T | _ => Ok pi0 end) ;;
  p0 <- get pi 0 ;;
  p1 <- get pi 1 ;;
  p2 <- get pi 2 ;;
  p3 <- get pi 3 ;;
  p7 <- get pi 7 ;;
  p8 <- get pi 8 ;;
  p9 <- get pi 9 ;;
  p10 <- get pi 10 ;;
  let H := [ [(mdivs (mscal (777457833646806 / 100000000000000) mid) T); (mdivs (mscal (108844097406652 / 10000000000000) mid) (2 * T)); (mdivs (mscal (241875768460934 / 100000000000000) mid) (2 * T))] ;
       [(mdivs (mscal (108844097406652 / 10000000000000) mid) (2 * T)); (mdivs (mscal (725627312788583 / 100000000000000) mid) T); (mdivs (mscal (108844097036619 / 10000000000000) mid) (2 * T))] ;
       [(mdivs (mscal (241875768460934 / 100000000000000) mid) (2 * T)); (mdivs (mscal (108844097036619 / 10000000000000) mid) (2 * T)); (mdivs (mscal (777457836216558 / 100000000000000) mid) T)] ] in
  let g := [ (vdivs (vsub (vsub (vsub (vadd (vadd (vsub (vsub (vscal (- (12352941184069 / 1000000000000)) p0) (vscal (203619909502433 / 100000000000000) p10)) (vscal (105882353430148 / 10000000000000) p1)) (vscal (12217194516605 / 10000000000000) p2)) (vscal (122171947000329 / 10000000000000) p3)) (vscal (466474701697538 / 100000000000000) p7)) (vscal (721925133730399 / 100000000000000) p8)) (vscal (542986425333795 / 100000000000000) p9)) (2 * T)) ;
       (vdivs (vsub (vsub (vadd (vadd (vsub (vsub (vsub (vscal (- (529411764601331 / 100000000000000)) p0) (vscal (529411764705762 / 100000000000000) p10)) (vscal (895927605247282 / 100000000000000) p1)) (vscal (610859723220821 / 100000000000000) p2)) (vscal (22213080007358 / 10000000000000) p3)) (vscal (222130810120924 / 100000000000000) p7)) (vscal (610859728485633 / 100000000000000) p8)) (vscal (895927601808432 / 100000000000000) p9)) (2 * T)) ;
       (vdivs (vsub (vadd (vadd (vsub (vsub (vsub (vsub (vscal (- (203619909557297 / 100000000000000)) p0) (vscal (123529411764706 / 10000000000000) p10)) (vscal (542986425052241 / 100000000000000) p1)) (vscal (721925133714926 / 100000000000000) p2)) (vscal (466474700749421 / 100000000000000) p3)) (vscal (122171945706055 / 10000000000000) p7)) (vscal (122171945695766 / 100000000000000) p8)) (vscal (105882352941172 / 10000000000000) p9)) (2 * T)) ] in
  let norm := blocks_norm H in
  Ok (map (map (fun m => mdivs m norm)) H, map (fun v => vdivs v norm) g).

(** include/hpp/bezier-com-traj/waypoints/waypoints_c0_dc0_ddc0_j0_x5_j1_ddc1_dc1_c1.hh:14-16, flag. *)
Definition x5_flag : Z := (fl_or (fl_or (fl_or (fl_or (fl_or (fl_or (fl_or (fl_or INIT_POS INIT_VEL) INIT_ACC) END_ACC) END_VEL) END_POS) INIT_JERK) END_JERK) FIVE_FREE_VAR).

(** include/hpp/bezier-com-traj/waypoints/waypoints_c0_dc0_ddc0_j0_x5_j1_ddc1_dc1_c1.hh:31-87, evaluateCurveWaypointAtTime. *)
Definition x5_evaluateCurveWaypointAtTime (pi : list vec3) (t : R) : outcome wpn :=
  p0 <- get pi 0 ;;
  p1 <- get pi 1 ;;
  p2 <- get pi 2 ;;
  p3 <- get pi 3 ;;
  p9 <- get pi 9 ;;
  p10 <- get pi 10 ;;
  p11 <- get pi 11 ;;
  p12 <- get pi 12 ;;
  let t2 := (t * t) in
  let t3 := (t2 * t) in
  let t4 := (t3 * t) in
  let t5 := (t4 * t) in
  let t6 := (t5 * t) in
  let t7 := (t6 * t) in
  let t8 := (t7 * t) in
  let t9 := (t8 * t) in
  let t10 := (t9 * t) in
  let t11 := (t10 * t) in
  let t12 := (t11 * t) in
  Ok (Wn [(mscal (((((((((495 * t4) - (3960 * t5)) + (13860 * t6)) - (27720 * t7)) + (34650 * t8)) - (27720 * t9)) + (13860 * t10)) - (3960 * t11)) + (495 * t12)) mid);
          (mscal ((((((((792 * t5) - (5544 * t6)) + (16632 * t7)) - (27720 * t8)) + (27720 * t9)) - (16632 * t10)) + (5544 * t11)) - (792 * t12)) mid);
          (mscal (((((((924 * t6) - (5544 * t7)) + (13860 * t8)) - (18480 * t9)) + (13860 * t10)) - (5544 * t11)) + (924 * t12)) mid);
          (mscal ((((((792 * t7) - (3960 * t8)) + (7920 * t9)) - (7920 * t10)) + (3960 * t11)) - (792 * t12)) mid);
          (mscal (((((495 * t8) - (1980 * t9)) + (2970 * t10)) - (1980 * t11)) + (495 * t12)) mid)]
          (vadd (vadd (vadd (vadd (vadd (vadd (vadd (vadd (vadd (vadd (vadd (vadd (vscal 1 p0) (vscal t (vadd (vscal (- 12) p0) (vscal 12 p1)))) (vscal t2 (vadd (vsub (vscal 66 p0) (vscal 132 p1)) (vscal 66 p2)))) (vscal t3 (vadd (vsub (vadd (vscal (- 220) p0) (vscal 660 p1)) (vscal 660 p2)) (vscal 220 p3)))) (vscal t4 (vsub (vadd (vsub (vscal 495 p0) (vscal 1980 p1)) (vscal 2970 p2)) (vscal 1980 p3)))) (vscal t5 (vadd (vsub (vadd (vscal (- 792) p0) (vscal 3960 p1)) (vscal 7920 p2)) (vscal 7920 p3)))) (vscal t6 (vsub (vadd (vsub (vscal 924 p0) (vscal 5544 p1)) (vscal 13860 p2)) (vscal 18480 p3)))) (vscal t7 (vadd (vsub (vadd (vscal (- 792) p0) (vscal 5544 p1)) (vscal 16632 p2)) (vscal 27720 p3)))) (vscal t8 (vsub (vadd (vsub (vscal 495 p0) (vscal 3960 p1)) (vscal 13860 p2)) (vscal 27720 p3)))) (vscal t9 (vadd (vadd (vsub (vadd (vscal (- 220) p0) (vscal 1980 p1)) (vscal 7920 p2)) (vscal 18480 p3)) (vscal 220 p9)))) (vscal t10 (vsub (vsub (vadd (vsub (vadd (vscal 66 p0) (vscal 66 p10)) (vscal 660 p1)) (vscal 2970 p2)) (vscal 7920 p3)) (vscal 660 p9)))) (vscal t11 (vadd (vadd (vsub (vadd (vadd (vsub (vscal (- 12) p0) (vscal 132 p10)) (vscal 12 p11)) (vscal 132 p1)) (vscal 660 p2)) (vscal 1980 p3)) (vscal 660 p9)))) (vscal t12 (vsub (vsub (vadd (vsub (vadd (vsub (vadd (vscal 1 p0) (vscal 66 p10)) (vscal 12 p11)) (vscal 1 p12)) (vscal 12 p1)) (vscal 66 p2)) (vscal 220 p3)) (vscal 220 p9))))).

(** include/hpp/bezier-com-traj/waypoints/waypoints_c0_dc0_ddc0_j0_x5_j1_ddc1_dc1_c1.hh:90-135, evaluateVelocityCurveWaypointAtTime. *)
Definition x5_evaluateVelocityCurveWaypointAtTime (pi : list vec3) (T t : R) : outcome wpn :=
  p0 <- get pi 0 ;;
  p1 <- get pi 1 ;;
  p2 <- get pi 2 ;;
  p3 <- get pi 3 ;;
  p7 <- get pi 7 ;;
  p8 <- get pi 8 ;;
  p9 <- get pi 9 ;;
  p10 <- get pi 10 ;;
  let alpha := (1 / T) in
  let t2 := (t * t) in
  let t3 := (t2 * t) in
  let t4 := (t3 * t) in
  let t5 := (t4 * t) in
  let t6 := (t5 * t) in
  let t7 := (t6 * t) in
  let t8 := (t7 * t) in
  let t9 := (t8 * t) in
  Ok (Wn [(mscal alpha mid);
          (mscal alpha mid);
          (mscal alpha mid);
          (mscal alpha mid);
          (mscal alpha mid)]
          (vscal alpha (vadd (vadd (vadd (vadd (vadd (vadd (vadd (vadd (vadd (vscal 1 (vadd (vscal (- 10) p0) (vscal 10 p1))) (vscal t (vscal 1 (vadd (vsub (vscal 90 p0) (vscal 180 p1)) (vscal 90 p2))))) (vscal t2 (vscal 1 (vadd (vsub (vadd (vscal (- 360) p0) (vscal 1080 p1)) (vscal 1080 p2)) (vscal 360 p3))))) (vscal t3 (vscal 1 (vadd (vsub (vadd (vadd (vsub (vadd (vscal (- 90) p0) (vscal 810 p1)) (vscal 3240 p2)) (vscal 7560 p3)) (vscal 3240 p7)) (vscal 810 p8)) (vscal 90 p9))))) (vscal t4 (vscal 1 (vsub (vadd (vsub (vscal 840 p0) (vscal 3360 p1)) (vscal 5040 p2)) (vscal 3360 p3))))) (vscal t5 (vscal 1 (vsub (vadd (vsub (vsub (vadd (vsub (vadd (vscal 10 p0) (vscal 10 p10)) (vscal 100 p1)) (vscal 450 p2)) (vscal 1200 p3)) (vscal 1200 p7)) (vscal 450 p8)) (vscal 100 p9))))) (vscal t6 (vscal 1 (vadd (vsub (vadd (vscal (- 1260) p0) (vscal 6300 p1)) (vscal 12600 p2)) (vscal 12600 p3))))) (vscal t7 (vscal 1 (vsub (vadd (vsub (vscal 1260 p0) (vscal 7560 p1)) (vscal 18900 p2)) (vscal 25200 p3))))) (vscal t8 (vscal 1 (vadd (vadd (vsub (vadd (vscal (- 840) p0) (vscal 5880 p1)) (vscal 17640 p2)) (vscal 29400 p3)) (vscal 840 p7))))) (vscal t9 (vscal 1 (vadd (vsub (vsub (vadd (vsub (vscal 360 p0) (vscal 2880 p1)) (vscal 10080 p2)) (vscal 20160 p3)) (vscal 2880 p7)) (vscal 360 p8))))))).

(** include/hpp/bezier-com-traj/waypoints/waypoints_c0_dc0_ddc0_j0_x5_j1_ddc1_dc1_c1.hh:138-186, evaluateAccelerationCurveWaypointAtTime. *)
Definition x5_evaluateAccelerationCurveWaypointAtTime (pi : list vec3) (T t : R) : outcome wpn :=
  p0 <- get pi 0 ;;
  p1 <- get pi 1 ;;
  p2 <- get pi 2 ;;
  p3 <- get pi 3 ;;
  p7 <- get pi 7 ;;
  p8 <- get pi 8 ;;
  p9 <- get pi 9 ;;
  p10 <- get pi 10 ;;
  let alpha := (1 / (T * T)) in
  let t2 := (t * t) in
  let t3 := (t2 * t) in
  let t4 := (t3 * t) in
  let t5 := (t4 * t) in
  let t6 := (t5 * t) in
  let t7 := (t6 * t) in
  let t8 := (t7 * t) in
  Ok (Wn [(mscal (1 * (((((((18900 * t8) - (90720 * t7)) + (176400 * t6)) - (176400 * t5)) + (94500 * t4)) - (25200 * t3)) + (2520 * t2))) (mscal alpha mid));
          (mscal (1 * (((((((- 22680) * t8) + (90720 * t7)) - (141120 * t6)) + (105840 * t5)) - (37800 * t4)) + (5040 * t3))) (mscal alpha mid));
          (mscal (1 * (((((18900 * t8) - (60480 * t7)) + (70560 * t6)) - (35280 * t5)) + (6300 * t4))) (mscal alpha mid));
          mzero;
          mzero]
          (vscal alpha (vadd (vadd (vadd (vadd (vadd (vadd (vadd (vadd (vscal 1 (vadd (vsub (vscal 90 p0) (vscal 180 p1)) (vscal 90 p2))) (vscal t (vscal 1 (vadd (vsub (vadd (vscal (- 720) p0) (vscal 2160 p1)) (vscal 2160 p2)) (vscal 720 p3))))) (vscal t2 (vscal 1 (vsub (vadd (vsub (vscal 2520 p0) (vscal 10080 p1)) (vscal 15120 p2)) (vscal 10080 p3))))) (vscal t3 (vscal 1 (vsub (vadd (vsub (vsub (vadd (vsub (vadd (vscal 90 p0) (vscal 90 p10)) (vscal 900 p1)) (vscal 4050 p2)) (vscal 10800 p3)) (vscal 10800 p7)) (vscal 4050 p8)) (vscal 900 p9))))) (vscal t4 (vscal 1 (vadd (vsub (vadd (vscal (- 5040) p0) (vscal 25200 p1)) (vscal 50400 p2)) (vscal 50400 p3))))) (vscal t5 (vscal 1 (vsub (vadd (vsub (vscal 6300 p0) (vscal 37800 p1)) (vscal 94500 p2)) (vscal 126000 p3))))) (vscal t6 (vscal 1 (vadd (vadd (vsub (vadd (vscal (- 5040) p0) (vscal 35280 p1)) (vscal 105840 p2)) (vscal 176400 p3)) (vscal 5040 p7))))) (vscal t7 (vscal 1 (vadd (vsub (vsub (vadd (vsub (vscal 2520 p0) (vscal 20160 p1)) (vscal 70560 p2)) (vscal 141120 p3)) (vscal 20160 p7)) (vscal 2520 p8))))) (vscal t8 (vscal 1 (vadd (vsub (vadd (vadd (vsub (vadd (vscal (- 720) p0) (vscal 6480 p1)) (vscal 25920 p2)) (vscal 60480 p3)) (vscal 25920 p7)) (vscal 6480 p8)) (vscal 720 p9))))))).

(** include/hpp/bezier-com-traj/waypoints/waypoints_c0_dc0_ddc0_j0_x5_j1_ddc1_dc1_c1.hh:189-235, evaluateJerkCurveWaypointAtTime. *)
Definition x5_evaluateJerkCurveWaypointAtTime (pi : list vec3) (T t : R) : outcome wpn :=
  p0 <- get pi 0 ;;
  p1 <- get pi 1 ;;
  p2 <- get pi 2 ;;
  p3 <- get pi 3 ;;
  p7 <- get pi 7 ;;
  p8 <- get pi 8 ;;
  p9 <- get pi 9 ;;
  p10 <- get pi 10 ;;
  let alpha := (1 / ((T * T) * T)) in
  let t2 := (t * t) in
  let t3 := (t2 * t) in
  let t4 := (t3 * t) in
  let t5 := (t4 * t) in
  let t6 := (t5 * t) in
  let t7 := (t6 * t) in
  Ok (Wn [(mscal (1 * (((((((151200 * t7) - (635040 * t6)) + (1058400 * t5)) - (882000 * t4)) + (378000 * t3)) - (75600 * t2)) + (5040 * t))) (mscal alpha mid));
          (mscal (1 * (((((((- 181440) * t7) + (635040 * t6)) - (846720 * t5)) + (529200 * t4)) - (151200 * t3)) + (15120 * t2))) (mscal alpha mid));
          (mscal (1 * (((((151200 * t7) - (423360 * t6)) + (423360 * t5)) - (176400 * t4)) + (25200 * t3))) (mscal alpha mid));
          mzero;
          mzero]
          (vscal alpha (vadd (vadd (vadd (vadd (vadd (vadd (vadd (vscal 1 (vadd (vsub (vadd (vscal (- 720) p0) (vscal 2160 p1)) (vscal 2160 p2)) (vscal 720 p3))) (vscal t (vscal 1 (vsub (vadd (vsub (vscal 5040 p0) (vscal 20160 p1)) (vscal 30240 p2)) (vscal 20160 p3))))) (vscal t2 (vscal 1 (vadd (vsub (vadd (vscal (- 15120) p0) (vscal 75600 p1)) (vscal 151200 p2)) (vscal 151200 p3))))) (vscal t3 (vscal 1 (vsub (vadd (vsub (vscal 25200 p0) (vscal 151200 p1)) (vscal 378000 p2)) (vscal 504000 p3))))) (vscal t4 (vscal 1 (vadd (vadd (vsub (vadd (vscal (- 25200) p0) (vscal 176400 p1)) (vscal 529200 p2)) (vscal 882000 p3)) (vscal 25200 p7))))) (vscal t5 (vscal 1 (vadd (vsub (vsub (vadd (vsub (vscal 15120 p0) (vscal 120960 p1)) (vscal 423360 p2)) (vscal 846720 p3)) (vscal 120960 p7)) (vscal 15120 p8))))) (vscal t6 (vscal 1 (vadd (vsub (vadd (vadd (vsub (vadd (vscal (- 5040) p0) (vscal 45360 p1)) (vscal 181440 p2)) (vscal 423360 p3)) (vscal 181440 p7)) (vscal 45360 p8)) (vscal 5040 p9))))) (vscal t7 (vscal 1 (vsub (vadd (vsub (vsub (vadd (vsub (vadd (vscal 720 p0) (vscal 720 p10)) (vscal 7200 p1)) (vscal 32400 p2)) (vscal 86400 p3)) (vscal 86400 p7)) (vscal 32400 p8)) (vscal 7200 p9))))))).

(** include/hpp/bezier-com-traj/waypoints/waypoints_c0_dc0_ddc0_j0_x5_j1_ddc1_dc1_c1.hh:237-265, computeConstantWaypoints. *)
Definition x5_computeConstantWaypoints (pData : problem) (T : R) : outcome (list vec3) :=
  let n := 12 in
  Ok [ (c0 pData) ;
       (vadd (vdivs (vscal T (dc0 pData)) n) (c0 pData)) ;
       (vadd (vadd (vdivs (vscal T (vscal T (ddc0 pData))) (n * (n - 1))) (vdivs (vscal T (vscal 2 (dc0 pData))) n)) (c0 pData)) ;
       (vadd (vadd (vadd (vdivs (vscal T (vscal T (vscal T (j0 pData)))) ((n * (n - 1)) * (n - 2))) (vdivs (vscal T (vscal T (vscal 3 (ddc0 pData)))) (n * (n - 1)))) (vdivs (vscal T (vscal 3 (dc0 pData))) n)) (c0 pData)) ;
       vzero ;
       vzero ;
       vzero ;
       vzero ;
       vzero ;
       (vadd (vsub (vadd (vdivs (vscal T (vscal T (vscal T (vopp (j1 pData))))) ((n * (n - 1)) * (n - 2))) (vdivs (vscal T (vscal T (vscal 3 (ddc1 pData)))) (n * (n - 1)))) (vdivs (vscal T (vscal 3 (dc1 pData))) n)) (c1 pData)) ;
       (vadd (vsub (vdivs (vscal T (vscal T (ddc1 pData))) (n * (n - 1))) (vdivs (vscal T (vscal 2 (dc1 pData))) n)) (c1 pData)) ;
       (vadd (vdivs (vscal T (vopp (dc1 pData))) n) (c1 pData)) ;
       (c1 pData) ].

(** include/hpp/bezier-com-traj/waypoints/waypoints_c0_dc0_ddc0_j0_x5_j1_ddc1_dc1_c1.hh:268-284, computeWwaypoints. (prints NOT IMPLEMENTED YET, returns no waypoint) *)
Definition x5_computeWwaypoints (pData : problem) (T : R) : outcome (list wp6) :=
  pi <- x5_computeConstantWaypoints pData T ;;
  let Cpi := map skew pi in
  Ok [  ].

(** include/hpp/bezier-com-traj/waypoints/waypoints_c0_dc0_ddc0_j0_x5_j1_ddc1_dc1_c1.hh:286-351, computeVelocityWaypoints. *)
Definition x5_computeVelocityWaypoints (pData : problem) (T : R) (pi0 : list vec3) : outcome (list wpn) :=
  pi <- (match pi0 with [] => x5_computeConstantWaypoints pData T | _ => Ok pi0 end) ;;
  p0 <- get pi 0 ;;
  p1 <- get pi 1 ;;
  p2 <- get pi 2 ;;
  p3 <- get pi 3 ;;
  p9 <- get pi 9 ;;
  p10 <- get pi 10 ;;
  p11 <- get pi 11 ;;
  p12 <- get pi 12 ;;
  let alpha := (1 / T) in
  Ok [ Wn [mzero; mzero; mzero; mzero; mzero]
          (vscal (alpha * 12) (vadd (vopp p0) p1)) ;
       Wn [mzero; mzero; mzero; mzero; mzero]
          (vscal (alpha * 12) (vadd (vopp p1) p2)) ;
       Wn [mzero; mzero; mzero; mzero; mzero]
          (vscal (alpha * 12) (vadd (vopp p2) p3)) ;
       Wn [(mscal (12 * alpha) mid); mzero; mzero; mzero; mzero]
          (vscal (alpha * 12) (vopp p3)) ;
       Wn [(mscal ((- 12) * alpha) mid); (mscal (12 * alpha) mid); mzero; mzero; mzero]
          vzero ;
       Wn [mzero; (mscal ((- 12) * alpha) mid); (mscal (12 * alpha) mid); mzero; mzero]
          vzero ;
       Wn [mzero; mzero; (mscal ((- 12) * alpha) mid); (mscal (12 * alpha) mid); mzero]
          vzero ;
       Wn [mzero; mzero; mzero; (mscal ((- 12) * alpha) mid); (mscal (12 * alpha) mid)]
          vzero ;
       Wn [mzero; mzero; mzero; mzero; (mscal ((- 12) * alpha) mid)]
          (vscal (alpha * 12) p9) ;
       Wn [mzero; mzero; mzero; mzero; mzero]
          (vscal (alpha * 12) (vadd (vopp p9) p10)) ;
       Wn [mzero; mzero; mzero; mzero; mzero]
          (vscal (alpha * 12) (vadd (vopp p10) p11)) ;
       Wn [mzero; mzero; mzero; mzero; mzero]
          (vscal (alpha * 12) (vadd (vopp p11) p12)) ].

(** include/hpp/bezier-com-traj/waypoints/waypoints_c0_dc0_ddc0_j0_x5_j1_ddc1_dc1_c1.hh:353-421, computeAccelerationWaypoints. *)
Definition x5_computeAccelerationWaypoints (pData : problem) (T : R) (pi0 : list vec3) : outcome (list wpn) :=
  pi <- (match pi0 with [] => x5_computeConstantWaypoints pData T | _ => Ok pi0 end) ;;
  p0 <- get pi 0 ;;
  p1 <- get pi 1 ;;
  p2 <- get pi 2 ;;
  p3 <- get pi 3 ;;
  p7 <- get pi 7 ;;
  p9 <- get pi 9 ;;
  p10 <- get pi 10 ;;
  p11 <- get pi 11 ;;
  p12 <- get pi 12 ;;
  let alpha := (1 / (T * T)) in
  Ok [ Wn [mzero; mzero; mzero; mzero; mzero]
          (vscal (alpha * 132) (vadd (vsub p0 (vscal 2 p1)) p2)) ;
       Wn [mzero; mzero; mzero; mzero; mzero]
          (vscal (alpha * 132) (vadd (vsub p1 (vscal 2 p2)) p3)) ;
       Wn [(mscal (132 * alpha) mid); mzero; mzero; mzero; mzero]
          (vscal (alpha * 132) (vsub p2 p3)) ;
       Wn [(mscal ((- 264) * alpha) mid); (mscal (132 * alpha) mid); mzero; mzero; mzero]
          (vscal (alpha * 132) p3) ;
       Wn [(mscal (132 * alpha) mid); (mscal ((- 264) * alpha) mid); (mscal (132 * alpha) mid); mzero; mzero]
          vzero ;
       Wn [mzero; (mscal (132 * alpha) mid); (mscal ((- 264) * alpha) mid); (mscal (132 * alpha) mid); mzero]
          vzero ;
       Wn [mzero; mzero; (mscal (132 * alpha) mid); (mscal ((- 264) * alpha) mid); (mscal (132 * alpha) mid)]
          vzero ;
       Wn [mzero; mzero; mzero; (mscal (132 * alpha) mid); (mscal ((- 264) * alpha) mid)]
          (vscal (alpha * 132) p7) ;
       Wn [mzero; mzero; mzero; mzero; (mscal (132 * alpha) mid)]
          (vscal (alpha * 132) (vadd (vscal (- 2) p9) p10)) ;
       Wn [mzero; mzero; mzero; mzero; mzero]
          (vscal (alpha * 132) (vadd (vsub p9 (vscal 2 p10)) p11)) ;
       Wn [mzero; mzero; mzero; mzero; mzero]
          (vscal (alpha * 132) (vadd (vsub p9 (vscal 2 p10)) p11)) ;
       Wn [mzero; mzero; mzero; mzero; mzero]
          (vscal (alpha * 132) (vsub (vadd p12 p10) (vscal 2 p11))) ].

(** include/hpp/bezier-com-traj/waypoints/waypoints_c0_dc0_ddc0_j0_x5_j1_ddc1_dc1_c1.hh:423-493, computeJerkWaypoints. *)
Definition x5_computeJerkWaypoints (pData : problem) (T : R) (pi0 : list vec3) : outcome (list wpn) :=
  pi <- (match pi0 with [] => x5_computeConstantWaypoints pData T | _ => Ok pi0 end) ;;
  p0 <- get pi 0 ;;
  p1 <- get pi 1 ;;
  p2 <- get pi 2 ;;
  p3 <- get pi 3 ;;
  p9 <- get pi 9 ;;
  p10 <- get pi 10 ;;
  p11 <- get pi 11 ;;
  p12 <- get pi 12 ;;
  let alpha := (1 / ((T * T) * T)) in
  Ok [ Wn [mzero; mzero; mzero; mzero; mzero]
          (vscal (alpha * 1320) (vadd (vsub (vadd (vopp p0) (vscal 3 p1)) (vscal 3 p2)) p3)) ;
       Wn [(mscal (1320 * alpha) mid); mzero; mzero; mzero; mzero]
          (vscal (alpha * 1320) (vsub (vadd (vopp p1) (vscal 3 p2)) (vscal 3 p3))) ;
       Wn [(mscal ((1320 * (- 3)) * alpha) mid); (mscal (1320 * alpha) mid); mzero; mzero; mzero]
          (vscal (alpha * 1320) (vadd (vopp p2) (vscal 3 p3))) ;
       Wn [(mscal ((1320 * 3) * alpha) mid); (mscal ((1320 * (- 3)) * alpha) mid); (mscal (1320 * alpha) mid); mzero; mzero]
          (vscal (alpha * 1320) (vopp p3)) ;
       Wn [(mscal ((- 1320) * alpha) mid); (mscal ((1320 * 3) * alpha) mid); (mscal ((1320 * (- 3)) * alpha) mid); (mscal (1320 * alpha) mid); mzero]
          vzero ;
       Wn [mzero; (mscal ((- 1320) * alpha) mid); (mscal ((1320 * 3) * alpha) mid); (mscal ((1320 * (- 3)) * alpha) mid); (mscal (1320 * alpha) mid)]
          vzero ;
       Wn [mzero; mzero; (mscal ((- 1320) * alpha) mid); (mscal ((1320 * 3) * alpha) mid); (mscal ((1320 * (- 3)) * alpha) mid)]
          (vscal (alpha * 1320) p9) ;
       Wn [mzero; mzero; mzero; (mscal ((- 1320) * alpha) mid); (mscal ((1320 * 3) * alpha) mid)]
          (vscal (alpha * 1320) (vadd (vscal (- 3) p9) p10)) ;
       Wn [mzero; mzero; mzero; mzero; (mscal ((- 1320) * alpha) mid)]
          (vscal (alpha * 1320) (vadd (vsub (vscal 3 p9) (vscal 3 p10)) p11)) ;
       Wn [mzero; mzero; mzero; mzero; mzero]
          (vscal (alpha * 1320) (vsub (vadd (vsub p12 p9) (vscal 3 p10)) (vscal 3 p11))) ].

(** include/hpp/bezier-com-traj/waypoints/waypoints_c0_dc0_ddc0_j0_x5_j1_ddc1_dc1_c1.hh:496-503, computeFinalVelocityPoint. *)
Definition x5_computeFinalVelocityPoint (pData : problem) (T : R) : outcome coefs :=
  pi <- x5_computeConstantWaypoints pData T ;;
  p5 <- get pi 5 ;;
  p6 <- get pi 6 ;;
  Ok (0, (vdivs (vadd (vscal (- 6) p5) (vscal 6 p6)) T)).

(** include/hpp/bezier-com-traj/waypoints/waypoints_c0_dc0_ddc0_j0_x5_j1_ddc1_dc1_c1.hh:506-594, computeVelocityCost. H and g as 3x3 blocks / 3-segments; norm is Eigen's (Frobenius) norm. *)
Definition x5_computeVelocityCost (pData : problem) (T : R) (pi0 : list vec3) : outcome (list (list mat3) * list vec3) :=
  pi <- (match pi0 with [] => x5_computeConstantWaypoints pData T | _ => Ok pi0 end) ;;
  p0 <- get pi 0 ;;
  p1 <- get pi 1 ;;
  p2 <- get pi 2 ;;
  p3 <- get pi 3 ;;
  p9 <- get pi 9 ;;
  p10 <- get pi 10 ;;
  p11 <- get pi 11 ;;
  p12 <- get pi 12 ;;
  let H := [ [(mdivs (mscal (963290527229048 / 100000000000000) mid) T); (mdivs (mscal (134860690009623 / 10000000000000) mid) (2 * T)); (mdivs (mscal (414955180440231 / 100000000000000) mid) (2 * T)); (mdivs (mscal (- (355676093144659 / 100000000000000)) mid) (2 * T)); (mdivs (mscal (- (707311260219052 / 100000000000000)) mid) (2 * T))] ;
       [(mdivs (mscal (134860690009623 / 10000000000000) mid) (2 * T)); (mdivs (mscal (829911962311903 / 100000000000000) mid) T); (mdivs (mscal (124486856197374 / 10000000000000) mid) (2 * T)); (mdivs (mscal (420345048607838 / 100000000000000) mid) (2 * T)); (mdivs (mscal (- (355676456195318 / 100000000000000)) mid) (2 * T))] ;
       [(mdivs (mscal (414955180440231 / 100000000000000) mid) (2 * T)); (mdivs (mscal (124486856197374 / 10000000000000) mid) (2 * T)); (mdivs (mscal (792188615942945 / 100000000000000) mid) T); (mdivs (mscal (12448679688301 / 1000000000000) mid) (2 * T)); (mdivs (mscal (4149559164651 / 1000000000000) mid) (2 * T))] ;
       [(mdivs (mscal (- (355676093144659 / 100000000000000)) mid) (2 * T)); (mdivs (mscal (420345048607838 / 100000000000000) mid) (2 * T)); (mdivs (mscal (12448679688301 / 1000000000000) mid) (2 * T)); (mdivs (mscal (829911871865983 / 100000000000000) mid) T); (mdivs (mscal (134860680294621 / 10000000000000) mid) (2 * T))] ;
       [(mdivs (mscal (- (707311260219052 / 100000000000000)) mid) (2 * T)); (mdivs (mscal (- (355676456195318 / 100000000000000)) mid) (2 * T)); (mdivs (mscal (4149559164651 / 1000000000000) mid) (2 * T)); (mdivs (mscal (134860680294621 / 10000000000000) mid) (2 * T)); (mdivs (mscal (963290582796267 / 100000000000000) mid) T)] ] in
  let g := [ (vdivs (vsub (vadd (vadd (vsub (vsub (vsub (vsub (vscal (- (178646615739593 / 10000000000000)) p0) (vscal (424835843773412 / 100000000000000) p10)) (vscal (180981866649436 / 100000000000000) p11)) (vscal (408668730537654 / 1000000000000000) p12)) (vscal (138947369836412 / 10000000000000) p1)) (vscal (256878303943036 / 100000000000000) p2)) (vscal (160548432515434 / 10000000000000) p3)) (vscal (666893486967885 / 100000000000000) p9)) (2 * T)) ;
       (vdivs (vsub (vadd (vsub (vsub (vsub (vsub (vsub (vscal (- (793984965058761 / 100000000000000)) p0) (vscal (70641309185535 / 10000000000000) p10)) (vscal (408668730511085 / 100000000000000) p11)) (vscal (122600619206665 / 100000000000000) p12)) (vscal (121432972410894 / 10000000000000) p1)) (vscal (706413670827152 / 100000000000000) p2)) (vscal (385315840674136 / 100000000000000) p3)) (vscal (750872663647158 / 100000000000000) p9)) (2 * T)) ;
       (vdivs (vsub (vsub (vsub (vsub (vsub (vsub (vsub (vscal (- (326934980716442 / 100000000000000)) p0) (vscal (89907120599184 / 10000000000000) p10)) (vscal (776470588258269 / 100000000000000) p11)) (vscal (326934984520124 / 100000000000000) p12)) (vscal (776470597007188 / 100000000000000) p1)) (vscal (899071211730055 / 100000000000000) p2)) (vscal (449535589801788 / 100000000000000) p3)) (vscal (449535607858364 / 100000000000000) p9)) (2 * T)) ;
       (vdivs (vadd (vsub (vsub (vsub (vsub (vsub (vsub (vscal (- (122600620726636 / 100000000000000)) p0) (vscal (706413092270385 / 100000000000000) p10)) (vscal (121432994250704 / 10000000000000) p11)) (vscal (793984962409094 / 100000000000000) p12)) (vscal (408668774398579 / 100000000000000) p1)) (vscal (70641311269266 / 10000000000000) p2)) (vscal (750872489092664 / 100000000000000) p3)) (vscal (385316232209763 / 100000000000000) p9)) (2 * T)) ;
       (vdivs (vadd (vsub (vsub (vsub (vsub (vsub (vadd (vscal (- (408668732514974 / 1000000000000000)) p0) (vscal (256877487851457 / 100000000000000) p10)) (vscal (138947368423667 / 10000000000000) p11)) (vscal (178646616541281 / 10000000000000) p12)) (vscal (180981880873492 / 100000000000000) p1)) (vscal (42483587965255 / 10000000000000) p2)) (vscal (666893350792178 / 100000000000000) p3)) (vscal (160548429731073 / 10000000000000) p9)) (2 * T)) ] in
  let norm := blocks_norm H in
  Ok (map (map (fun m => mdivs m norm)) H, map (fun v => vdivs v norm) g).
