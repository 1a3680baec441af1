(** The seven CoM waypoint families, one per constraint flag.
    All paths are relative to /repo.  [pi[k]] is a checked access ([get]);
    [double] literals are the exact decimal they denote; assert()s are not
    modelled (release build).  Local [double] variables become [let]s. *)
From Verif Require Import Vec ModelData.
Open Scope R_scope.

(** include/hpp/bezier-com-traj/waypoints/waypoints_c0_dc0_c1.hh:14-14, flag. *)
Definition c0_dc0_c1_flag : Z := (fl_or (fl_or INIT_POS INIT_VEL) END_POS).

(** include/hpp/bezier-com-traj/waypoints/waypoints_c0_dc0_c1.hh:25-35, evaluateCurveAtTime. *)
Definition c0_dc0_c1_evaluateCurveAtTime (pi : list vec3) (t : R) : outcome coefs :=
  p0 <- get pi 0 ;;
  p1 <- get pi 1 ;;
  p3 <- get pi 3 ;;
  let t2 := (t * t) in
  let t3 := (t2 * t) in
  Ok ((((- 3) * t3) + (3 * t2)),
      (vadd (vadd (vsub (vadd (vadd (vsub (vadd (vscal t3 (vscal (- 1) p0)) (vscal t2 (vscal 3 p0))) (vscal t (vscal 3 p0))) (vscal 1 p0)) (vscal t3 (vscal 3 p1))) (vscal t2 (vscal 6 p1))) (vscal t (vscal 3 p1))) (vscal t3 (vscal 1 p3)))).

(** include/hpp/bezier-com-traj/waypoints/waypoints_c0_dc0_c1.hh:37-47, evaluateAccelerationCurveAtTime. *)
Definition c0_dc0_c1_evaluateAccelerationCurveAtTime (pi : list vec3) (T t : R) : outcome coefs :=
  p0 <- get pi 0 ;;
  p1 <- get pi 1 ;;
  p3 <- get pi 3 ;;
  let alpha := (1 / (T * T)) in
  Ok (((((- 18) * t) + 6) * alpha),
      (vscal alpha (vadd (vsub (vadd (vadd (vscal t (vscal (- 6) p0)) (vscal 6 p0)) (vscal t (vscal 18 p1))) (vscal 12 p1)) (vscal t (vscal 6 p3))))).

(** include/hpp/bezier-com-traj/waypoints/waypoints_c0_dc0_c1.hh:49-62, computeConstantWaypoints. *)
Definition c0_dc0_c1_computeConstantWaypoints (pData : problem) (T : R) : outcome (list vec3) :=
  let n := 3 in
  Ok [ (c0 pData) ;
       (vadd (vdivs (vscal T (dc0 pData)) n) (c0 pData)) ;
       vzero ;
       (c1 pData) ].

(** include/hpp/bezier-com-traj/waypoints/waypoints_c0_dc0_c1.hh:64-107, computeWwaypoints. Blocks not assigned keep the zeros of initwp. *)
Definition c0_dc0_c1_computeWwaypoints (pData : problem) (T : R) : outcome (list wp6) :=
  pi <- c0_dc0_c1_computeConstantWaypoints pData T ;;
  let Cpi := map skew pi in
  g <- front_gravity pData ;;
  p0 <- get pi 0 ;;
  p1 <- get pi 1 ;;
  p3 <- get pi 3 ;;
  cp0 <- get Cpi 0 ;;
  cp1 <- get Cpi 1 ;;
  cp3 <- get Cpi 3 ;;
  let Cg := skew g in
  let T2 := (T * T) in
  let alpha := (1 / T2) in
  Ok [ W6 (mscal (6 * alpha) mid)
          (mscal alpha (mscal 6 cp0))
          (vscal alpha (vsub (vscal 6 p0) (vscal 12 p1)))
          (vscal alpha (vscal 1 (vsub (mvmul (mscal T2 (mscal 1 Cg)) p0) (mvmul (mscal 12 cp0) p1)))) ;
       W6 mzero
          (mscal alpha (mscal 1 (madd (mscal (- 6) cp0) (mscal 6 cp1))))
          (vscal alpha (vscal 1 (vadd (vsub (vscal 4 p0) (vscal 6 p1)) (vscal 2 p3))))
          (vscal alpha (vscal 1 (vadd (mvmul (mscal T2 (mscal 1 Cg)) p1) (mvmul (mscal 2 cp0) p3)))) ;
       W6 (mscal ((- 6) * alpha) mid)
          (mscal alpha (mscal 1 (msub (mscal T2 (mscal 1 Cg)) (mscal 6 cp1))))
          (vscal alpha (vscal 1 (vadd (vscal 2 p0) (vscal 4 p3))))
          (vscal alpha (vscal 1 (vadd (mvmul (mscal (- 2) cp0) p3) (mvmul (mscal 6 cp1) p3)))) ;
       W6 (mscal ((- 12) * alpha) mid)
          (mscal alpha (mscal (- 12) cp3))
          (vscal alpha (vadd (vscal 6 p1) (vscal 6 p3)))
          (vscal alpha (vscal 1 (vsub (mvmul (mscal T2 (mscal 1 Cg)) p3) (mvmul (mscal 6 cp1) p3)))) ].

(** include/hpp/bezier-com-traj/waypoints/waypoints_c0_dc0_c1.hh:109-115, computeFinalVelocityPoint. *)
Definition c0_dc0_c1_computeFinalVelocityPoint (pData : problem) (T : R) : outcome coefs :=
  Ok (((- 3) / T), (vdivs (vscal 3 (c1 pData)) T)).

(** include/hpp/bezier-com-traj/waypoints/waypoints_c0_dc0_dc1.hh:14-14, flag. *)
Definition c0_dc0_dc1_flag : Z := (fl_or (fl_or INIT_POS INIT_VEL) END_VEL).

(** include/hpp/bezier-com-traj/waypoints/waypoints_c0_dc0_dc1.hh:25-35, evaluateCurveAtTime. *)
Definition c0_dc0_dc1_evaluateCurveAtTime (pi : list vec3) (t : R) : outcome coefs :=
  p0 <- get pi 0 ;;
  p1 <- get pi 1 ;;
  let t2 := (t * t) in
  let t3 := (t2 * t) in
  Ok ((((- 2) * t3) + (3 * t2)),
      (vadd (vsub (vadd (vadd (vsub (vadd (vscal t3 (vscal (- 1) p0)) (vscal t2 (vscal 3 p0))) (vscal t (vscal 3 p0))) (vscal 1 p0)) (vscal t3 (vscal 3 p1))) (vscal t2 (vscal 6 p1))) (vscal t (vscal 3 p1)))).

(** include/hpp/bezier-com-traj/waypoints/waypoints_c0_dc0_dc1.hh:37-47, evaluateAccelerationCurveAtTime. *)
Definition c0_dc0_dc1_evaluateAccelerationCurveAtTime (pi : list vec3) (T t : R) : outcome coefs :=
  p0 <- get pi 0 ;;
  p1 <- get pi 1 ;;
  let alpha := (1 / (T * T)) in
  Ok (((((- 12) * t) + 6) * alpha),
      (vscal alpha (vsub (vadd (vadd (vscal t (vscal (- 6) p0)) (vscal 6 p0)) (vscal t (vscal 18 p1))) (vscal 12 p1)))).

(** include/hpp/bezier-com-traj/waypoints/waypoints_c0_dc0_dc1.hh:49-63, computeConstantWaypoints. The guard [dc1_.norm() != 0.] is the comparison of the exact norm with 0. *)
Definition c0_dc0_dc1_computeConstantWaypoints (pData : problem) (T : R) : outcome (list vec3) :=
  if Req_EM_T (vnorm (dc1 pData)) 0 then
  Ok [ (c0 pData) ;
       (vadd (vdivs (vscal T (dc0 pData)) 3) (c0 pData)) ;
       vzero ;
       vzero ]
  else Throw.

(** include/hpp/bezier-com-traj/waypoints/waypoints_c0_dc0_dc1.hh:65-113, computeWwaypoints. Blocks not assigned keep the zeros of initwp. *)
Definition c0_dc0_dc1_computeWwaypoints (pData : problem) (T : R) : outcome (list wp6) :=
  pi <- c0_dc0_dc1_computeConstantWaypoints pData T ;;
  let Cpi := map skew pi in
  g <- front_gravity pData ;;
  p0 <- get pi 0 ;;
  p1 <- get pi 1 ;;
  cp0 <- get Cpi 0 ;;
  let Cg := skew g in
  let T2 := (T * T) in
  let alpha := (1 / T2) in
  Ok [ W6 (mscal (6 * alpha) mid)
          (mscal alpha (mscal 6 cp0))
          (vscal alpha (vsub (vscal 6 p0) (vscal 12 p1)))
          (mvmul (mopp cp0) (vadd (vscal alpha (vscal 12 p1)) g)) ;
       W6 (mscal (3 * alpha) mid)
          (mscal alpha (skew (vscal (15 / 10) (vsub (vscal 3 p1) p0))))
          (vscal ((15 / 10) * alpha) (vsub (vscal 3 p0) (vscal 5 p1)))
          (vadd (vcross (vscal (3 * alpha) p0) (vopp p1)) (vscal (25 / 100) (mvmul Cg (vadd (vscal 3 p1) p0)))) ;
       W6 (mscal (0 * alpha) mid)
          (skew (vadd (vsub (vscal (5 / 10) g) (vscal (3 * alpha) p0)) (vscal (3 * alpha) p1)))
          (vscal (3 * alpha) (vsub p0 p1))
          (mvmul (mscal (5 / 10) Cg) p1) ;
       W6 (mscal ((- 3) * alpha) mid)
          (skew (vsub g (vscal ((15 / 10) * alpha) (vadd p1 p0))))
          (vscal ((15 / 10) * alpha) (vadd p1 p0))
          vzero ;
       W6 (mscal ((- 6) * alpha) mid)
          (skew (vsub g (vscal (6 * alpha) p1)))
          (vscal alpha (vscal 6 p1))
          vzero ].

(** include/hpp/bezier-com-traj/waypoints/waypoints_c0_dc0_dc1.hh:115-122, computeFinalVelocityPoint. *)
Definition c0_dc0_dc1_computeFinalVelocityPoint (pData : problem) (T : R) : outcome coefs :=
  pi <- c0_dc0_dc1_computeConstantWaypoints pData T ;;
  Ok (0, vzero).

(** include/hpp/bezier-com-traj/waypoints/waypoints_c0_dc0_dc1_c1.hh:14-14, flag. *)
Definition c0_dc0_dc1_c1_flag : Z := (fl_or (fl_or (fl_or INIT_POS INIT_VEL) END_POS) END_VEL).

(** include/hpp/bezier-com-traj/waypoints/waypoints_c0_dc0_dc1_c1.hh:25-37, evaluateCurveAtTime. *)
Definition c0_dc0_dc1_c1_evaluateCurveAtTime (pi : list vec3) (t : R) : outcome coefs :=
  p0 <- get pi 0 ;;
  p1 <- get pi 1 ;;
  p3 <- get pi 3 ;;
  p4 <- get pi 4 ;;
  let t2 := (t * t) in
  let t3 := (t2 * t) in
  let t4 := (t3 * t) in
  Ok ((((6 * t4) - (12 * t3)) + (6 * t2)),
      (vadd (vadd (vsub (vadd (vsub (vadd (vsub (vadd (vsub (vadd (vsub (vscal t4 (vscal 1 p0)) (vscal t3 (vscal 4 p0))) (vscal t2 (vscal 6 p0))) (vscal t (vscal 4 p0))) (vscal 1 p0)) (vscal t4 (vscal 4 p1))) (vscal t3 (vscal 12 p1))) (vscal t2 (vscal 12 p1))) (vscal t (vscal 4 p1))) (vscal t4 (vscal 4 p3))) (vscal t3 (vscal 4 p3))) (vscal t4 (vscal 1 p4)))).

(** include/hpp/bezier-com-traj/waypoints/waypoints_c0_dc0_dc1_c1.hh:39-50, evaluateAccelerationCurveAtTime. *)
Definition c0_dc0_dc1_c1_evaluateAccelerationCurveAtTime (pi : list vec3) (T t : R) : outcome coefs :=
  p0 <- get pi 0 ;;
  p1 <- get pi 1 ;;
  p3 <- get pi 3 ;;
  p4 <- get pi 4 ;;
  let alpha := (1 / (T * T)) in
  Ok ((((((72 * t) * t) - (72 * t)) + 12) * alpha),
      (vscal alpha (vadd (vadd (vsub (vsub (vadd (vsub (vadd (vsub (vscal t (vscal t (vscal 12 p0))) (vscal t (vscal 24 p0))) (vscal 12 p0)) (vscal t (vscal t (vscal 48 p1)))) (vscal t (vscal 72 p1))) (vscal 24 p1)) (vscal t (vscal t (vscal 48 p3)))) (vscal t (vscal 24 p3))) (vscal t (vscal t (vscal 12 p4)))))).

(** include/hpp/bezier-com-traj/waypoints/waypoints_c0_dc0_dc1_c1.hh:52-65, computeConstantWaypoints. *)
Definition c0_dc0_dc1_c1_computeConstantWaypoints (pData : problem) (T : R) : outcome (list vec3) :=
  let n := 4 in
  Ok [ (c0 pData) ;
       (vadd (vdivs (vscal T (dc0 pData)) n) (c0 pData)) ;
       vzero ;
       (vadd (vdivs (vscal T (vopp (dc1 pData))) n) (c1 pData)) ;
       (c1 pData) ].

(** include/hpp/bezier-com-traj/waypoints/waypoints_c0_dc0_dc1_c1.hh:67-127, computeWwaypoints. Blocks not assigned keep the zeros of initwp. *)
Definition c0_dc0_dc1_c1_computeWwaypoints (pData : problem) (T : R) : outcome (list wp6) :=
  pi <- c0_dc0_dc1_c1_computeConstantWaypoints pData T ;;
  let Cpi := map skew pi in
  g <- front_gravity pData ;;
  p0 <- get pi 0 ;;
  p1 <- get pi 1 ;;
  p3 <- get pi 3 ;;
  p4 <- get pi 4 ;;
  cp0 <- get Cpi 0 ;;
  cp1 <- get Cpi 1 ;;
  cp3 <- get Cpi 3 ;;
  cp4 <- get Cpi 4 ;;
  let Cg := skew g in
  let T2 := (T * T) in
  let alpha := (1 / T2) in
  Ok [ W6 (mscal (12 * alpha) mid)
          (mscal (12 * alpha) cp0)
          (vscal alpha (vsub (vscal 12 p0) (vscal 24 p1)))
          (vsub (mvmul (mscal 1 Cg) p0) (vscal alpha (mvmul (mscal 24 cp0) p1))) ;
       W6 (mscal ((- (24 / 10)) * alpha) mid)
          (mscal alpha (madd (mscal (- 12) cp0) (mscal (96 / 10) cp1)))
          (vscal alpha (vadd (vsub (vscal (72 / 10) p0) (vscal (96 / 10) p1)) (vscal (48 / 10) p3)))
          (vscal alpha (vadd (vadd (mvmul (mscal T2 (mscal (2 / 10) Cg)) p0) (mvmul (mscal T2 (mscal (8 / 10) Cg)) p1)) (mvmul (mscal (48 / 10) cp0) p3))) ;
       W6 (mscal ((- (96 / 10)) * alpha) mid)
          (mscal alpha (msub (mscal T2 (mscal (6 / 10) Cg)) (mscal (96 / 10) cp1)))
          (vscal alpha (vadd (vadd (vscal (36 / 10) p0) (vscal (48 / 10) p3)) (vscal (12 / 10) p4)))
          (vscal alpha (vadd (vadd (vsub (mvmul (mscal T2 (mscal (4 / 10) Cg)) p1) (mvmul (mscal (48 / 10) cp0) p3)) (mvmul (mscal (12 / 10) cp0) p4)) (mvmul (mscal (96 / 10) cp1) p3))) ;
       W6 (mscal ((- (96 / 10)) * alpha) mid)
          (mscal alpha (msub (mscal T2 (mscal (6 / 10) Cg)) (mscal (96 / 10) cp3)))
          (vscal alpha (vadd (vadd (vscal (12 / 10) p0) (vscal (48 / 10) p1)) (vscal (36 / 10) p4)))
          (vscal alpha (vadd (vsub (vsub (mvmul (mscal T2 (mscal (4 / 10) Cg)) p3) (mvmul (mscal (12 / 10) cp0) p4)) (mvmul (mscal (96 / 10) cp1) p3)) (mvmul (mscal (48 / 10) cp1) p4))) ;
       W6 (mscal ((- (24 / 10)) * alpha) mid)
          (mscal alpha (msub (mscal (96 / 10) cp3) (mscal 12 cp4)))
          (vscal alpha (vadd (vsub (vscal (48 / 10) p1) (vscal (96 / 10) p3)) (vscal (72 / 10) p4)))
          (vscal alpha (vsub (vadd (mvmul (mscal T2 (mscal (8 / 10) Cg)) p3) (mvmul (mscal T2 (mscal (2 / 10) Cg)) p4)) (mvmul (mscal (48 / 10) cp1) p4))) ;
       W6 (mscal (12 * alpha) mid)
          (mscal alpha (mscal 12 cp4))
          (vscal alpha (vadd (vscal (- 24) p3) (vscal 12 p4)))
          (vscal alpha (vadd (mvmul (mscal T2 Cg) p4) (mvmul (mscal 24 cp3) p4))) ].

(** include/hpp/bezier-com-traj/waypoints/waypoints_c0_dc0_dc1_c1.hh:129-136, computeFinalVelocityPoint. *)
Definition c0_dc0_dc1_c1_computeFinalVelocityPoint (pData : problem) (T : R) : outcome coefs :=
  pi <- c0_dc0_dc1_c1_computeConstantWaypoints pData T ;;
  p3 <- get pi 3 ;;
  p4 <- get pi 4 ;;
  Ok (0, (vdivs (vadd (vscal (- 4) p3) (vscal 4 p4)) T)).

(** include/hpp/bezier-com-traj/waypoints/waypoints_c0_dc0_ddc0.hh:14-14, flag. *)
Definition c0_dc0_ddc0_flag : Z := (fl_or (fl_or INIT_POS INIT_VEL) INIT_ACC).

(** include/hpp/bezier-com-traj/waypoints/waypoints_c0_dc0_ddc0.hh:26-39, evaluateCurveAtTime. *)
Definition c0_dc0_ddc0_evaluateCurveAtTime (pi : list vec3) (t : R) : outcome coefs :=
  p0 <- get pi 0 ;;
  p1 <- get pi 1 ;;
  p2 <- get pi 2 ;;
  let t2 := (t * t) in
  let t3 := (t2 * t) in
  Ok (t3,
      (vadd (vadd (vadd (vscal t3 (vsub (vscal 3 (vsub p1 p2)) p0)) (vscal t2 (vsub (vscal 3 (vadd p0 p2)) (vscal 6 p1)))) (vscal (3 * t) (vsub p1 p0))) p0)).

(** include/hpp/bezier-com-traj/waypoints/waypoints_c0_dc0_ddc0.hh:41-52, evaluateAccelerationCurveAtTime. *)
Definition c0_dc0_ddc0_evaluateAccelerationCurveAtTime (pi : list vec3) (T t : R) : outcome coefs :=
  p0 <- get pi 0 ;;
  p1 <- get pi 1 ;;
  p2 <- get pi 2 ;;
  let alpha := (1 / (T * T)) in
  Ok (((6 * t) * alpha),
      (vadd (vscal t (vscal alpha (vsub (vscal 18 (vsub p1 p2)) (vscal 6 p0)))) (vscal alpha (vsub (vscal 6 (vadd p0 p2)) (vscal 12 p1))))).

(** include/hpp/bezier-com-traj/waypoints/waypoints_c0_dc0_ddc0.hh:54-67, computeConstantWaypoints. *)
Definition c0_dc0_ddc0_computeConstantWaypoints (pData : problem) (T : R) : outcome (list vec3) :=
  let n := 3 in
  Ok [ (c0 pData) ;
       (vadd (vdivs (vscal T (dc0 pData)) n) (c0 pData)) ;
       (vadd (vadd (vdivs (vscal T (vscal T (ddc0 pData))) (n * (n - 1))) (vdivs (vscal T (vscal 2 (dc0 pData))) n)) (c0 pData)) ;
       vzero ].

(** include/hpp/bezier-com-traj/waypoints/waypoints_c0_dc0_ddc0.hh:69-116, computeWwaypoints. Blocks not assigned keep the zeros of initwp. *)
Definition c0_dc0_ddc0_computeWwaypoints (pData : problem) (T : R) : outcome (list wp6) :=
  pi <- c0_dc0_ddc0_computeConstantWaypoints pData T ;;
  let Cpi := map skew pi in
  g <- front_gravity pData ;;
  p0 <- get pi 0 ;;
  p1 <- get pi 1 ;;
  p2 <- get pi 2 ;;
  cp0 <- get Cpi 0 ;;
  cp1 <- get Cpi 1 ;;
  cp2 <- get Cpi 2 ;;
  let Cg := skew g in
  let Id := mid in
  let T2 := (T * T) in
  let alpha := (1 / T2) in
  Ok [ W6 mzero
          mzero
          (vscal alpha (vadd (vsub (vscal 6 p0) (vscal 12 p1)) (vscal 6 p2)))
          (vscal alpha (vscal 1 (vadd (vsub (mvmul (mscal T2 (mscal 1 Cg)) p0) (mvmul (mscal 12 cp0) p1)) (mvmul (mscal 6 cp0) p2)))) ;
       W6 (mscal (2 * alpha) Id)
          (mscal alpha (mscal 2 cp0))
          (vscal alpha (vscal 1 (vsub (vscal 4 p0) (vscal 6 p1))))
          (vscal alpha (vscal 1 (vadd (vsub (mvmul (mscal T2 (mscal 1 Cg)) p1) (mvmul (mscal 6 cp0) p2)) (mvmul (mscal 6 cp1) p2)))) ;
       W6 (mscal (4 * alpha) Id)
          (mscal alpha (mscal 1 (madd (mscal (- 2) cp0) (mscal 6 cp1))))
          (vscal alpha (vscal 1 (vsub (vscal 2 p0) (vscal 6 p2))))
          (vscal alpha (vscal 1 (vsub (mvmul (mscal T2 (mscal 1 Cg)) p2) (mvmul (mscal 6 cp1) p2)))) ;
       W6 (mscal (6 * alpha) Id)
          (mscal alpha (mscal 1 (madd (msub (mscal T2 (mscal 1 Cg)) (mscal 6 cp1)) (mscal 12 cp2))))
          (vscal alpha (vsub (vscal 6 p1) (vscal 12 p2)))
          vzero ].

(** include/hpp/bezier-com-traj/waypoints/waypoints_c0_dc0_ddc0.hh:118-126, computeFinalVelocityPoint. *)
Definition c0_dc0_ddc0_computeFinalVelocityPoint (pData : problem) (T : R) : outcome coefs :=
  pi <- c0_dc0_ddc0_computeConstantWaypoints pData T ;;
  p2 <- get pi 2 ;;
  Ok ((3 / T), (vdivs (vscal (- 3) p2) T)).

(** include/hpp/bezier-com-traj/waypoints/waypoints_c0_dc0_ddc0_c1.hh:14-14, flag. *)
Definition c0_dc0_ddc0_c1_flag : Z := (fl_or (fl_or (fl_or INIT_POS INIT_VEL) INIT_ACC) END_POS).

(** include/hpp/bezier-com-traj/waypoints/waypoints_c0_dc0_ddc0_c1.hh:26-39, evaluateCurveAtTime. *)
Definition c0_dc0_ddc0_c1_evaluateCurveAtTime (pi : list vec3) (t : R) : outcome coefs :=
  p0 <- get pi 0 ;;
  p1 <- get pi 1 ;;
  p2 <- get pi 2 ;;
  p4 <- get pi 4 ;;
  let t2 := (t * t) in
  let t3 := (t2 * t) in
  let t4 := (t3 * t) in
  Ok ((((- 4) * t4) + (4 * t3)),
      (vadd (vadd (vsub (vadd (vadd (vsub (vadd (vsub (vadd (vsub (vadd (vsub (vscal t4 (vscal 1 p0)) (vscal t3 (vscal 4 p0))) (vscal t2 (vscal 6 p0))) (vscal t (vscal 4 p0))) (vscal 1 p0)) (vscal t4 (vscal 4 p1))) (vscal t3 (vscal 12 p1))) (vscal t2 (vscal 12 p1))) (vscal t (vscal 4 p1))) (vscal t4 (vscal 6 p2))) (vscal t3 (vscal 12 p2))) (vscal t2 (vscal 6 p2))) (vscal t4 (vscal 1 p4)))).

(** include/hpp/bezier-com-traj/waypoints/waypoints_c0_dc0_ddc0_c1.hh:41-54, evaluateAccelerationCurveAtTime. *)
Definition c0_dc0_ddc0_c1_evaluateAccelerationCurveAtTime (pi : list vec3) (T t : R) : outcome coefs :=
  p0 <- get pi 0 ;;
  p1 <- get pi 1 ;;
  p2 <- get pi 2 ;;
  p4 <- get pi 4 ;;
  let alpha := (1 / (T * T)) in
  let t2 := (t * t) in
  Ok (((((- 48) * t2) + (24 * t)) * alpha),
      (vscal alpha (vadd (vadd (vsub (vadd (vsub (vadd (vsub (vadd (vsub (vscal t2 (vscal 12 p0)) (vscal t (vscal 24 p0))) (vscal 12 p0)) (vscal t2 (vscal 48 p1))) (vscal t (vscal 72 p1))) (vscal 24 p1)) (vscal t2 (vscal 72 p2))) (vscal t (vscal 72 p2))) (vscal 12 p2)) (vscal t2 (vscal 12 p4))))).

(** include/hpp/bezier-com-traj/waypoints/waypoints_c0_dc0_ddc0_c1.hh:56-70, computeConstantWaypoints. *)
Definition c0_dc0_ddc0_c1_computeConstantWaypoints (pData : problem) (T : R) : outcome (list vec3) :=
  let n := 4 in
  Ok [ (c0 pData) ;
       (vadd (vdivs (vscal T (dc0 pData)) n) (c0 pData)) ;
       (vadd (vadd (vdivs (vscal T (vscal T (ddc0 pData))) (n * (n - 1))) (vdivs (vscal T (vscal 2 (dc0 pData))) n)) (c0 pData)) ;
       vzero ;
       (c1 pData) ].

(** include/hpp/bezier-com-traj/waypoints/waypoints_c0_dc0_ddc0_c1.hh:72-140, computeWwaypoints. Blocks not assigned keep the zeros of initwp. *)
Definition c0_dc0_ddc0_c1_computeWwaypoints (pData : problem) (T : R) : outcome (list wp6) :=
  pi <- c0_dc0_ddc0_c1_computeConstantWaypoints pData T ;;
  let Cpi := map skew pi in
  g <- front_gravity pData ;;
  p0 <- get pi 0 ;;
  p1 <- get pi 1 ;;
  p2 <- get pi 2 ;;
  p4 <- get pi 4 ;;
  cp0 <- get Cpi 0 ;;
  cp1 <- get Cpi 1 ;;
  cp2 <- get Cpi 2 ;;
  cp4 <- get Cpi 4 ;;
  let Cg := skew g in
  let T2 := (T * T) in
  let alpha := (1 / T2) in
  Ok [ W6 mzero
          mzero
          (vscal alpha (vadd (vsub (vscal 12 p0) (vscal 24 p1)) (vscal 12 p2)))
          (vscal alpha (vscal 1 (vadd (vsub (mvmul (mscal T2 (mscal 1 Cg)) p0) (mvmul (mscal 24 cp0) p1)) (mvmul (mscal 12 cp0) p2)))) ;
       W6 (mscal ((48 / 10) * alpha) mid)
          (mscal alpha (mscal (48 / 10) cp0))
          (vscal alpha (vscal 1 (vsub (vsub (vscal (72 / 10) p0) (vscal (96 / 10) p1)) (vscal (24 / 10) p2))))
          (vscal alpha (vscal 1 (vadd (vsub (vadd (mvmul (mscal T2 (mscal (2 / 10) Cg)) p0) (mvmul (mscal T2 (mscal (8 / 10) Cg)) p1)) (mvmul (mscal 12 cp0) p2)) (mvmul (mscal (96 / 10) cp1) p2)))) ;
       W6 (mscal ((48 / 10) * alpha) mid)
          (mscal alpha (mscal 1 (madd (mscal (- (48 / 10)) cp0) (mscal (96 / 10) cp1))))
          (vscal alpha (vscal 1 (vadd (vsub (vscal (36 / 10) p0) (vscal (96 / 10) p2)) (vscal (12 / 10) p4))))
          (vscal alpha (vscal 1 (vsub (vadd (vadd (mvmul (mscal T2 (mscal (4 / 10) Cg)) p1) (mvmul (mscal T2 (mscal (6 / 10) Cg)) p2)) (mvmul (mscal (12 / 10) cp0) p4)) (mvmul (mscal (96 / 10) cp1) p2)))) ;
       W6 mzero
          (mscal alpha (mscal 1 (madd (msub (mscal T2 (mscal (4 / 10) Cg)) (mscal (96 / 10) cp1)) (mscal (96 / 10) cp2))))
          (vscal alpha (vscal 1 (vadd (vsub (vadd (vscal (12 / 10) p0) (vscal (48 / 10) p1)) (vscal (96 / 10) p2)) (vscal (36 / 10) p4))))
          (vscal alpha (vscal 1 (vadd (vsub (mvmul (mscal T2 (mscal (6 / 10) Cg)) p2) (mvmul (mscal (12 / 10) cp0) p4)) (mvmul (mscal (48 / 10) cp1) p4)))) ;
       W6 (mscal ((- (96 / 10)) * alpha) mid)
          (mscal alpha (mscal 1 (msub (mscal T2 (mscal (8 / 10) Cg)) (mscal (96 / 10) cp2))))
          (vscal alpha (vscal 1 (vadd (vsub (vscal (48 / 10) p1) (vscal (24 / 10) p2)) (vscal (72 / 10) p4))))
          (vscal alpha (vscal 1 (vadd (vsub (mvmul (mscal T2 (mscal (2 / 10) Cg)) p4) (mvmul (mscal (48 / 10) cp1) p4)) (mvmul (mscal 12 cp2) p4)))) ;
       W6 (mscal ((- 24) * alpha) mid)
          (mscal alpha (mscal 1 (mscal (- 24) cp4)))
          (vscal alpha (vadd (vscal 12 p2) (vscal 12 p4)))
          (vscal alpha (vscal 1 (vsub (mvmul (mscal T2 (mscal 1 Cg)) p4) (mvmul (mscal 12 cp2) p4)))) ].

(** include/hpp/bezier-com-traj/waypoints/waypoints_c0_dc0_ddc0_c1.hh:142-148, computeFinalVelocityPoint. *)
Definition c0_dc0_ddc0_c1_computeFinalVelocityPoint (pData : problem) (T : R) : outcome coefs :=
  Ok (((- 4) / T), (vdivs (vscal 4 (c1 pData)) T)).

(** include/hpp/bezier-com-traj/waypoints/waypoints_c0_dc0_ddc0_dc1_c1.hh:14-15, flag. *)
Definition c0_dc0_ddc0_dc1_c1_flag : Z := (fl_or (fl_or (fl_or (fl_or INIT_POS INIT_VEL) INIT_ACC) END_VEL) END_POS).

(** include/hpp/bezier-com-traj/waypoints/waypoints_c0_dc0_ddc0_dc1_c1.hh:28-43, evaluateCurveAtTime. *)
Definition c0_dc0_ddc0_dc1_c1_evaluateCurveAtTime (pi : list vec3) (t : R) : outcome coefs :=
  p0 <- get pi 0 ;;
  p1 <- get pi 1 ;;
  p2 <- get pi 2 ;;
  p4 <- get pi 4 ;;
  p5 <- get pi 5 ;;
  let t2 := (t * t) in
  let t3 := (t2 * t) in
  let t4 := (t3 * t) in
  let t5 := (t4 * t) in
  Ok ((((10 * t5) - (20 * t4)) + (10 * t3)),
      (vadd (vadd (vsub (vadd (vsub (vadd (vsub (vadd (vsub (vadd (vsub (vadd (vadd (vsub (vadd (vsub (vadd (vscal t5 (vscal (- 1) p0)) (vscal t4 (vscal 5 p0))) (vscal t3 (vscal 10 p0))) (vscal t2 (vscal 10 p0))) (vscal t (vscal 5 p0))) (vscal 1 p0)) (vscal t5 (vscal 5 p1))) (vscal t4 (vscal 20 p1))) (vscal t3 (vscal 30 p1))) (vscal t2 (vscal 20 p1))) (vscal t (vscal 5 p1))) (vscal t5 (vscal 10 p2))) (vscal t4 (vscal 30 p2))) (vscal t3 (vscal 30 p2))) (vscal t2 (vscal 10 p2))) (vscal t5 (vscal 5 p4))) (vscal t4 (vscal 5 p4))) (vscal t5 (vscal 1 p5)))).

(** include/hpp/bezier-com-traj/waypoints/waypoints_c0_dc0_ddc0_dc1_c1.hh:45-61, evaluateAccelerationCurveAtTime. *)
Definition c0_dc0_ddc0_dc1_c1_evaluateAccelerationCurveAtTime (pi : list vec3) (T t : R) : outcome coefs :=
  p0 <- get pi 0 ;;
  p1 <- get pi 1 ;;
  p2 <- get pi 2 ;;
  p4 <- get pi 4 ;;
  p5 <- get pi 5 ;;
  let alpha := (1 / (T * T)) in
  let t2 := (t * t) in
  let t3 := (t2 * t) in
  Ok (((((200 * t3) - (240 * t2)) + (60 * t)) * alpha),
      (vscal alpha (vscal 1 (vadd (vadd (vsub (vadd (vsub (vadd (vsub (vsub (vadd (vsub (vadd (vadd (vsub (vadd (vscal t3 (vscal (- 20) p0)) (vscal t2 (vscal 60 p0))) (vscal t (vscal 60 p0))) (vscal 20 p0)) (vscal t3 (vscal 100 p1))) (vscal t2 (vscal 240 p1))) (vscal t (vscal 180 p1))) (vscal 40 p1)) (vscal t3 (vscal 200 p2))) (vscal t2 (vscal 360 p2))) (vscal t (vscal 180 p2))) (vscal 20 p2)) (vscal t3 (vscal 100 p4))) (vscal t2 (vscal 60 p4))) (vscal t3 (vscal 20 p5)))))).

(** include/hpp/bezier-com-traj/waypoints/waypoints_c0_dc0_ddc0_dc1_c1.hh:63-78, computeConstantWaypoints. *)
Definition c0_dc0_ddc0_dc1_c1_computeConstantWaypoints (pData : problem) (T : R) : outcome (list vec3) :=
  let n := 5 in
  Ok [ (c0 pData) ;
       (vadd (vdivs (vscal T (dc0 pData)) n) (c0 pData)) ;
       (vadd (vadd (vdivs (vscal T (vscal T (ddc0 pData))) (n * (n - 1))) (vdivs (vscal T (vscal 2 (dc0 pData))) n)) (c0 pData)) ;
       vzero ;
       (vadd (vdivs (vscal T (vopp (dc1 pData))) n) (c1 pData)) ;
       (c1 pData) ].

(** include/hpp/bezier-com-traj/waypoints/waypoints_c0_dc0_ddc0_dc1_c1.hh:80-207, computeWwaypoints. Blocks not assigned keep the zeros of initwp. *)
Definition c0_dc0_ddc0_dc1_c1_computeWwaypoints (pData : problem) (T : R) : outcome (list wp6) :=
  pi <- c0_dc0_ddc0_dc1_c1_computeConstantWaypoints pData T ;;
  let Cpi := map skew pi in
  g <- front_gravity pData ;;
  p0 <- get pi 0 ;;
  p1 <- get pi 1 ;;
  p2 <- get pi 2 ;;
  p4 <- get pi 4 ;;
  p5 <- get pi 5 ;;
  cp0 <- get Cpi 0 ;;
  cp1 <- get Cpi 1 ;;
  cp2 <- get Cpi 2 ;;
  cp4 <- get Cpi 4 ;;
  cp5 <- get Cpi 5 ;;
  let Cg := skew g in
  let T2 := (T * T) in
  let alpha := (1 / T2) in
  Ok [ W6 mzero
          mzero
          (vscal alpha (vadd (vsub (vscal 20 p0) (vscal 40 p1)) (vscal 20 p2)))
          (vscal alpha (vscal 1 (vadd (vsub (mvmul (mscal T2 (mscal 1 Cg)) p0) (mvmul (mscal 40 cp0) p1)) (mvmul (mscal 20 cp0) p2)))) ;
       W6 (mscal ((857142857142857 / 100000000000000) * alpha) mid)
          (mscal alpha (mscal (857142857142857 / 100000000000000) cp0))
          (vscal alpha (vscal 1 (vsub (vsub (vscal (114285714285714 / 10000000000000) p0) (vscal (142857142857143 / 10000000000000) p1)) (vscal (571428571428572 / 100000000000000) p2))))
          (vscal alpha (vscal 1 (vadd (vsub (vadd (mvmul (mscal T2 (mscal (285714285714286 / 1000000000000000) Cg)) p0) (mvmul (mscal T2 (mscal (714285714285714 / 1000000000000000) Cg)) p1)) (mvmul (mscal 20 cp0) p2)) (mvmul (mscal (142857142857143 / 10000000000000) cp1) p2)))) ;
       W6 (mscal ((571428571428571 / 100000000000000) * alpha) mid)
          (mscal alpha (mscal 1 (madd (mscal (- (857142857142857 / 100000000000000)) cp0) (mscal (142857142857143 / 10000000000000) cp1))))
          (vscal alpha (vscal 1 (vadd (vsub (vscal (571428571428571 / 100000000000000) p0) (vscal (142857142857143 / 10000000000000) p2)) (vscal (285714285714286 / 100000000000000) p4))))
          (vscal alpha (vscal 1 (vsub (vadd (vadd (vadd (mvmul (mscal T2 (mscal (476190476190479 / 10000000000000000) Cg)) p0) (mvmul (mscal T2 (mscal (476190476190476 / 1000000000000000) Cg)) p1)) (mvmul (mscal T2 (mscal (476190476190476 / 1000000000000000) Cg)) p2)) (mvmul (mscal (285714285714286 / 100000000000000) cp0) p4)) (mvmul (mscal (142857142857143 / 10000000000000) cp1) p2)))) ;
       W6 (mscal ((- (285714285714286 / 100000000000000)) * alpha) mid)
          (mscal alpha (mscal 1 (madd (msub (mscal T2 (mscal (285714285714286 / 1000000000000000) Cg)) (mscal (142857142857143 / 10000000000000) cp1)) (mscal (114285714285714 / 10000000000000) cp2))))
          (vscal alpha (vscal 1 (vadd (vadd (vsub (vadd (vscal (228571428571429 / 100000000000000) p0) (vscal (571428571428571 / 100000000000000) p1)) (vscal (114285714285714 / 10000000000000) p2)) (vscal (571428571428571 / 100000000000000) p4)) (vscal (571428571428571 / 1000000000000000) p5))))
          (vscal alpha (vscal 1 (vadd (vadd (vsub (vadd (mvmul (mscal T2 (mscal (142857142857143 / 1000000000000000) Cg)) p1) (mvmul (mscal T2 (mscal (571428571428571 / 1000000000000000) Cg)) p2)) (mvmul (mscal (285714285714286 / 100000000000000) cp0) p4)) (mvmul (mscal (571428571428571 / 1000000000000000) cp0) p5)) (mvmul (mscal (857142857142857 / 100000000000000) cp1) p4)))) ;
       W6 (mscal ((- (114285714285714 / 10000000000000)) * alpha) mid)
          (mscal alpha (mscal 1 (msub (mscal T2 (mscal (571428571428571 / 1000000000000000) Cg)) (mscal (114285714285714 / 10000000000000) cp2))))
          (vscal alpha (vscal 1 (vadd (vadd (vsub (vadd (vscal (571428571428571 / 1000000000000000) p0) (vscal (571428571428571 / 100000000000000) p1)) (vscal (285714285714286 / 100000000000000) p2)) (vscal (571428571428571 / 100000000000000) p4)) (vscal (228571428571429 / 100000000000000) p5))))
          (vscal alpha (vscal 1 (vadd (vadd (vsub (vsub (vadd (mvmul (mscal T2 (mscal (285714285714286 / 1000000000000000) Cg)) p2) (mvmul (mscal T2 (mscal (142857142857143 / 1000000000000000) Cg)) p4)) (mvmul (mscal (571428571428572 / 1000000000000000) cp0) p5)) (mvmul (mscal (857142857142857 / 100000000000000) cp1) p4)) (mvmul (mscal (285714285714286 / 100000000000000) cp1) p5)) (mvmul (mscal (142857142857143 / 10000000000000) cp2) p4)))) ;
       W6 (mscal ((- (142857142857143 / 10000000000000)) * alpha) mid)
          (mscal alpha (mscal 1 (msub (mscal T2 (mscal (476190476190476 / 1000000000000000) Cg)) (mscal (142857142857143 / 10000000000000) cp4))))
          (vscal alpha (vscal 1 (vadd (vadd (vscal (285714285714286 / 100000000000000) p1) (vscal (571428571428571 / 100000000000000) p2)) (vscal (571428571428571 / 100000000000000) p5))))
          (vscal alpha (vscal 1 (vadd (vsub (vsub (vadd (mvmul (mscal T2 (mscal (476190476190476 / 1000000000000000) Cg)) p4) (mvmul (mscal T2 (mscal (476190476190476 / 10000000000000000) Cg)) p5)) (mvmul (mscal (285714285714286 / 100000000000000) cp1) p5)) (mvmul (mscal (142857142857143 / 10000000000000) cp2) p4)) (mvmul (mscal (857142857142857 / 100000000000000) cp2) p5)))) ;
       W6 (mscal ((- (571428571428572 / 100000000000000)) * alpha) mid)
          (mscal alpha (mscal 1 (msub (mscal (142857142857143 / 10000000000000) cp4) (mscal 20 cp5))))
          (vscal alpha (vscal 1 (vadd (vsub (vscal (857142857142857 / 100000000000000) p2) (vscal (142857142857143 / 10000000000000) p4)) (vscal (114285714285714 / 10000000000000) p5))))
          (vscal alpha (vscal 1 (vsub (vadd (mvmul (mscal T2 (mscal (714285714285714 / 1000000000000000) Cg)) p4) (mvmul (mscal T2 (mscal (285714285714286 / 1000000000000000) Cg)) p5)) (mvmul (mscal (857142857142858 / 100000000000000) cp2) p5)))) ;
       W6 (mscal (20 * alpha) mid)
          (mscal alpha (mscal 1 (mscal 20 cp5)))
          (vscal alpha (vadd (vscal (- 40) p4) (vscal 20 p5)))
          (vscal alpha (vscal 1 (vadd (mvmul (mscal T2 (mscal 1 Cg)) p5) (mvmul (mscal 40 cp4) p5)))) ].

(** include/hpp/bezier-com-traj/waypoints/waypoints_c0_dc0_ddc0_dc1_c1.hh:209-216, computeFinalVelocityPoint. *)
Definition c0_dc0_ddc0_dc1_c1_computeFinalVelocityPoint (pData : problem) (T : R) : outcome coefs :=
  pi <- c0_dc0_ddc0_dc1_c1_computeConstantWaypoints pData T ;;
  p4 <- get pi 4 ;;
  p5 <- get pi 5 ;;
  Ok (0, (vdivs (vadd (vscal (- 5) p4) (vscal 5 p5)) T)).

(** include/hpp/bezier-com-traj/waypoints/waypoints_c0_dc0_ddc0_ddc1_dc1_c1.hh:14-15, flag. *)
Definition c0_dc0_ddc0_ddc1_dc1_c1_flag : Z := (fl_or (fl_or (fl_or (fl_or (fl_or INIT_POS INIT_VEL) INIT_ACC) END_ACC) END_VEL) END_POS).

(** include/hpp/bezier-com-traj/waypoints/waypoints_c0_dc0_ddc0_ddc1_dc1_c1.hh:28-46, evaluateCurveAtTime. *)
Definition c0_dc0_ddc0_ddc1_dc1_c1_evaluateCurveAtTime (pi : list vec3) (t : R) : outcome coefs :=
  p0 <- get pi 0 ;;
  p1 <- get pi 1 ;;
  p2 <- get pi 2 ;;
  p4 <- get pi 4 ;;
  p5 <- get pi 5 ;;
  p6 <- get pi 6 ;;
  let t2 := (t * t) in
  let t3 := (t2 * t) in
  let t4 := (t3 * t) in
  let t5 := (t4 * t) in
  let t6 := (t5 * t) in
  Ok ((((((- 20) * t6) + (60 * t5)) - (60 * t4)) + (20 * t3)),
      (vadd (vadd (vsub (vadd (vsub (vadd (vadd (vsub (vadd (vsub (vadd (vadd (vsub (vadd (vsub (vadd (vsub (vadd (vsub (vadd (vsub (vadd (vsub (vscal t6 (vscal 1 p0)) (vscal t5 (vscal 6 p0))) (vscal t4 (vscal 15 p0))) (vscal t3 (vscal 20 p0))) (vscal t2 (vscal 15 p0))) (vscal t (vscal 6 p0))) (vscal 1 p0)) (vscal t6 (vscal 6 p1))) (vscal t5 (vscal 30 p1))) (vscal t4 (vscal 60 p1))) (vscal t3 (vscal 60 p1))) (vscal t2 (vscal 30 p1))) (vscal t (vscal 6 p1))) (vscal t6 (vscal 15 p2))) (vscal t5 (vscal 60 p2))) (vscal t4 (vscal 90 p2))) (vscal t3 (vscal 60 p2))) (vscal t2 (vscal 15 p2))) (vscal t6 (vscal 15 p4))) (vscal t5 (vscal 30 p4))) (vscal t4 (vscal 15 p4))) (vscal t6 (vscal 6 p5))) (vscal t5 (vscal 6 p5))) (vscal t6 (vscal 1 p6)))).

(** include/hpp/bezier-com-traj/waypoints/waypoints_c0_dc0_ddc0_ddc1_dc1_c1.hh:48-67, evaluateAccelerationCurveAtTime. *)
Definition c0_dc0_ddc0_ddc1_dc1_c1_evaluateAccelerationCurveAtTime (pi : list vec3) (T t : R) : outcome coefs :=
  p0 <- get pi 0 ;;
  p1 <- get pi 1 ;;
  p2 <- get pi 2 ;;
  p4 <- get pi 4 ;;
  p5 <- get pi 5 ;;
  p6 <- get pi 6 ;;
  let alpha := (1 / (T * T)) in
  let t2 := (t * t) in
  let t3 := (t2 * t) in
  let t4 := (t3 * t) in
  Ok (((1 * (((((- 600) * t4) + (1200 * t3)) - (720 * t2)) + (120 * t))) * alpha),
      (vscal alpha (vscal 1 (vadd (vadd (vsub (vadd (vsub (vadd (vadd (vsub (vadd (vsub (vadd (vsub (vadd (vsub (vadd (vsub (vadd (vsub (vadd (vsub (vscal t4 (vscal 30 p0)) (vscal t3 (vscal 120 p0))) (vscal t2 (vscal 180 p0))) (vscal t (vscal 120 p0))) (vscal 30 p0)) (vscal t4 (vscal 180 p1))) (vscal t3 (vscal 600 p1))) (vscal t2 (vscal 720 p1))) (vscal t (vscal 360 p1))) (vscal 60 p1)) (vscal t4 (vscal 450 p2))) (vscal t3 (vscal 1200 p2))) (vscal t2 (vscal 1080 p2))) (vscal t (vscal 360 p2))) (vscal 30 p2)) (vscal t4 (vscal 450 p4))) (vscal t3 (vscal 600 p4))) (vscal t2 (vscal 180 p4))) (vscal t4 (vscal 180 p5))) (vscal t3 (vscal 120 p5))) (vscal t4 (vscal 30 p6)))))).

(** include/hpp/bezier-com-traj/waypoints/waypoints_c0_dc0_ddc0_ddc1_dc1_c1.hh:69-86, computeConstantWaypoints. *)
Definition c0_dc0_ddc0_ddc1_dc1_c1_computeConstantWaypoints (pData : problem) (T : R) : outcome (list vec3) :=
  let n := 6 in
  Ok [ (c0 pData) ;
       (vadd (vdivs (vscal T (dc0 pData)) n) (c0 pData)) ;
       (vadd (vadd (vdivs (vscal T (vscal T (ddc0 pData))) (n * (n - 1))) (vdivs (vscal T (vscal 2 (dc0 pData))) n)) (c0 pData)) ;
       vzero ;
       (vadd (vsub (vdivs (vscal T (vscal T (ddc1 pData))) (n * (n - 1))) (vdivs (vscal T (vscal 2 (dc1 pData))) n)) (c1 pData)) ;
       (vadd (vdivs (vscal T (vopp (dc1 pData))) n) (c1 pData)) ;
       (c1 pData) ].

(** include/hpp/bezier-com-traj/waypoints/waypoints_c0_dc0_ddc0_ddc1_dc1_c1.hh:88-245, computeWwaypoints. Blocks not assigned keep the zeros of initwp. *)
Definition c0_dc0_ddc0_ddc1_dc1_c1_computeWwaypoints (pData : problem) (T : R) : outcome (list wp6) :=
  pi <- c0_dc0_ddc0_ddc1_dc1_c1_computeConstantWaypoints pData T ;;
  let Cpi := map skew pi in
  g <- front_gravity pData ;;
  p0 <- get pi 0 ;;
  p1 <- get pi 1 ;;
  p2 <- get pi 2 ;;
  p4 <- get pi 4 ;;
  p5 <- get pi 5 ;;
  p6 <- get pi 6 ;;
  cp0 <- get Cpi 0 ;;
  cp1 <- get Cpi 1 ;;
  cp2 <- get Cpi 2 ;;
  cp4 <- get Cpi 4 ;;
  cp5 <- get Cpi 5 ;;
  cp6 <- get Cpi 6 ;;
  let Cg := skew g in
  let T2 := (T * T) in
  let alpha := (1 / T2) in
  Ok [ W6 mzero
          mzero
          (vscal alpha (vadd (vsub (vscal 30 p0) (vscal 60 p1)) (vscal 30 p2)))
          (vscal alpha (vscal 1 (vadd (vsub (mvmul (mscal T2 (mscal 1 Cg)) p0) (mvmul (mscal 60 cp0) p1)) (mvmul (mscal 30 cp0) p2)))) ;
       W6 (mscal ((133333333333333 / 10000000000000) * alpha) mid)
          (mscal alpha (mscal (133333333333333 / 10000000000000) cp0))
          (vscal alpha (vscal 1 (vsub (vsub (vscal (166666666666667 / 10000000000000) p0) (vscal 20 p1)) (vscal 10 p2))))
          (vscal alpha (vscal 1 (vadd (vsub (vadd (mvmul (mscal T2 (mscal (333333333333333 / 1000000000000000) Cg)) p0) (mvmul (mscal T2 (mscal (666666666666667 / 1000000000000000) Cg)) p1)) (mvmul (mscal 30 cp0) p2)) (mvmul (mscal 20 cp1) p2)))) ;
       W6 (mscal ((666666666666667 / 100000000000000) * alpha) mid)
          (mscal alpha (mscal 1 (madd (mscal (- (133333333333333 / 10000000000000)) cp0) (mscal 20 cp1))))
          (vscal alpha (vscal 1 (vadd (vsub (vscal (833333333333333 / 100000000000000) p0) (vscal 20 p2)) (vscal 5 p4))))
          (vscal alpha (vscal 1 (vsub (vadd (vadd (vadd (mvmul (mscal T2 (mscal (833333333333334 / 10000000000000000) Cg)) p0) (mvmul (mscal T2 (mscal (5 / 10) Cg)) p1)) (mvmul (mscal T2 (mscal (416666666666667 / 1000000000000000) Cg)) p2)) (mvmul (mscal 5 cp0) p4)) (mvmul (mscal 20 cp1) p2)))) ;
       W6 (mscal ((- (571428571428572 / 100000000000000)) * alpha) mid)
          (mscal alpha (mscal 1 (madd (msub (mscal T2 (mscal (238095238095238 / 1000000000000000) Cg)) (mscal 20 cp1)) (mscal (142857142857143 / 10000000000000) cp2))))
          (vscal alpha (vscal 1 (vadd (vadd (vsub (vadd (vscal (357142857142857 / 100000000000000) p0) (vscal (714285714285714 / 100000000000000) p1)) (vscal (142857142857143 / 10000000000000) p2)) (vscal (785714285714286 / 100000000000000) p4)) (vscal (142857142857143 / 100000000000000) p5))))
          (vscal alpha (vscal 1 (vadd (vadd (vsub (vadd (vadd (mvmul (mscal T2 (mscal (119047619047619 / 10000000000000000) Cg)) p0) (mvmul (mscal T2 (mscal (214285714285714 / 1000000000000000) Cg)) p1)) (mvmul (mscal T2 (mscal (535714285714286 / 1000000000000000) Cg)) p2)) (mvmul (mscal 5 cp0) p4)) (mvmul (mscal (142857142857143 / 100000000000000) cp0) p5)) (mvmul (mscal (128571428571429 / 10000000000000) cp1) p4)))) ;
       W6 (mscal ((- (142857142857143 / 10000000000000)) * alpha) mid)
          (mscal alpha (mscal 1 (msub (mscal T2 (mscal (476190476190476 / 1000000000000000) Cg)) (mscal (142857142857143 / 10000000000000) cp2))))
          (vscal alpha (vscal 1 (vadd (vadd (vadd (vsub (vadd (vscal (119047619047619 / 100000000000000) p0) (vscal (714285714285714 / 100000000000000) p1)) (vscal (357142857142857 / 100000000000000) p2)) (vscal 5 p4)) (vscal (428571428571429 / 100000000000000) p5)) (vscal (238095238095238 / 1000000000000000) p6))))
          (vscal alpha (vscal 1 (vadd (vadd (vsub (vadd (vsub (vadd (vadd (mvmul (mscal T2 (mscal (476190476190471 / 10000000000000000) Cg)) p1) (mvmul (mscal T2 (mscal (357142857142857 / 1000000000000000) Cg)) p2)) (mvmul (mscal T2 (mscal (119047619047619 / 1000000000000000) Cg)) p4)) (mvmul (mscal (142857142857143 / 100000000000000) cp0) p5)) (mvmul (mscal (238095238095238 / 1000000000000000) cp0) p6)) (mvmul (mscal (128571428571429 / 10000000000000) cp1) p4)) (mvmul (mscal (571428571428571 / 100000000000000) cp1) p5)) (mvmul (mscal (178571428571429 / 10000000000000) cp2) p4)))) ;
       W6 (mscal ((- (142857142857143 / 10000000000000)) * alpha) mid)
          (mscal alpha (mscal 1 (msub (mscal T2 (mscal (476190476190476 / 1000000000000000) Cg)) (mscal (142857142857143 / 10000000000000) cp4))))
          (vscal alpha (vscal 1 (vadd (vadd (vsub (vadd (vadd (vscal (238095238095238 / 1000000000000000) p0) (vscal (428571428571429 / 100000000000000) p1)) (vscal 5 p2)) (vscal (357142857142857 / 100000000000000) p4)) (vscal (714285714285714 / 100000000000000) p5)) (vscal (119047619047619 / 100000000000000) p6))))
          (vscal alpha (vscal 1 (vadd (vsub (vadd (vsub (vsub (vadd (vadd (mvmul (mscal T2 (mscal (11904761904762 / 100000000000000) Cg)) p2) (mvmul (mscal T2 (mscal (357142857142857 / 1000000000000000) Cg)) p4)) (mvmul (mscal T2 (mscal (476190476190476 / 10000000000000000) Cg)) p5)) (mvmul (mscal (238095238095238 / 1000000000000000) cp0) p6)) (mvmul (mscal (571428571428572 / 100000000000000) cp1) p5)) (mvmul (mscal (142857142857143 / 100000000000000) cp1) p6)) (mvmul (mscal (178571428571429 / 10000000000000) cp2) p4)) (mvmul (mscal (128571428571429 / 10000000000000) cp2) p5)))) ;
       W6 (mscal ((- (571428571428571 / 100000000000000)) * alpha) mid)
          (mscal alpha (mscal 1 (msub (madd (mscal T2 (mscal (238095238095238 / 1000000000000000) Cg)) (mscal (142857142857143 / 10000000000000) cp4)) (mscal 20 cp5))))
          (vscal alpha (vscal 1 (vadd (vadd (vsub (vadd (vscal (142857142857143 / 100000000000000) p1) (vscal (785714285714286 / 100000000000000) p2)) (vscal (142857142857143 / 10000000000000) p4)) (vscal (714285714285715 / 100000000000000) p5)) (vscal (357142857142857 / 100000000000000) p6))))
          (vscal alpha (vscal 1 (vadd (vsub (vsub (vadd (vadd (mvmul (mscal T2 (mscal (535714285714286 / 1000000000000000) Cg)) p4) (mvmul (mscal T2 (mscal (214285714285714 / 1000000000000000) Cg)) p5)) (mvmul (mscal T2 (mscal (119047619047619 / 10000000000000000) Cg)) p6)) (mvmul (mscal (142857142857143 / 100000000000000) cp1) p6)) (mvmul (mscal (128571428571429 / 10000000000000) cp2) p5)) (mvmul (mscal 5 cp2) p6)))) ;
       W6 (mscal ((666666666666667 / 100000000000000) * alpha) mid)
          (mscal alpha (mscal 1 (msub (mscal 20 cp5) (mscal (133333333333333 / 10000000000000) cp6))))
          (vscal alpha (vscal 1 (vadd (vsub (vscal 5 p2) (vscal 20 p4)) (vscal (833333333333333 / 100000000000000) p6))))
          (vscal alpha (vscal 1 (vadd (vsub (vadd (vadd (mvmul (mscal T2 (mscal (416666666666667 / 1000000000000000) Cg)) p4) (mvmul (mscal T2 (mscal (5 / 10) Cg)) p5)) (mvmul (mscal T2 (mscal (833333333333333 / 10000000000000000) Cg)) p6)) (mvmul (mscal 5 cp2) p6)) (mvmul (mscal 20 cp4) p5)))) ;
       W6 (mscal ((133333333333333 / 10000000000000) * alpha) mid)
          (mscal alpha (mscal 1 (mscal (133333333333333 / 10000000000000) cp6)))
          (vscal alpha (vscal 1 (vadd (vsub (vscal (- (999999999999999 / 100000000000000)) p4) (vscal 20 p5)) (vscal (166666666666667 / 10000000000000) p6))))
          (vscal alpha (vscal 1 (vadd (vsub (vadd (mvmul (mscal T2 (mscal (666666666666667 / 1000000000000000) Cg)) p5) (mvmul (mscal T2 (mscal (333333333333333 / 1000000000000000) Cg)) p6)) (mvmul (mscal 20 cp4) p5)) (mvmul (mscal 30 cp4) p6)))) ;
       W6 mzero
          mzero
          (vscal alpha (vadd (vsub (vscal 30 p4) (vscal 60 p5)) (vscal 30 p6)))
          (vscal alpha (vscal 1 (vadd (vsub (mvmul (mscal T2 (mscal 1 Cg)) p6) (mvmul (mscal 30 cp4) p6)) (mvmul (mscal 60 cp5) p6)))) ].

(** include/hpp/bezier-com-traj/waypoints/waypoints_c0_dc0_ddc0_ddc1_dc1_c1.hh:247-254, computeFinalVelocityPoint. *)
Definition c0_dc0_ddc0_ddc1_dc1_c1_computeFinalVelocityPoint (pData : problem) (T : R) : outcome coefs :=
  pi <- c0_dc0_ddc0_ddc1_dc1_c1_computeConstantWaypoints pData T ;;
  p5 <- get pi 5 ;;
  p6 <- get pi 6 ;;
  Ok (0, (vdivs (vadd (vscal (- 6) p5) (vscal 6 p6)) T)).
