(** The coefficients of a sample in double arithmetic: evaluateCurveAtTime and evaluateAccelerationCurveAtTime of
    the seven flags of the centre of mass, /repo/include/hpp/bezier-com-traj/waypoints/*.hh, and their dispatch,
    /repo/src/waypoints_definition.cpp.  Conventions of ModelPtsDouble.v; obtained mechanically from the exact
    versions (ModelWaypoints.v), operation by operation.  In the source the vector is on the left of a product with
    t, t2 ...; the product of two doubles does not depend on the order. *)
From Flocq Require Import Core BinarySingleNaN.
From Coq Require Import List.
From Verif Require Import Vec ModelData ModelWaypoints ModelDispatch Double ModelDouble ModelPtsDouble.
Import ListNotations.
Open Scope Z_scope.

(** coefs_t *)
Definition fcoefs : Type := (f64 * fvec)%type.

(** waypoints_c0_dc0_c1.hh:25-35 *)
Definition c0_dc0_c1_evaluateCurveAtTime_f (pi : list fvec) (t : f64) : outcome fcoefs :=
  p0 <- get pi 0 ;;
  p1 <- get pi 1 ;;
  p3 <- get pi 3 ;;
  let t2 := (fmul t t) in
  let t3 := (fmul t2 t) in
  Ok ((fadd (fmul #(-3) t3) (fmul #3 t2)),
      (fv_add (fv_add (fv_sub (fv_add (fv_add (fv_sub (fv_add (fv_scal t3 (fv_scal #(-1) p0)) (fv_scal t2 (fv_scal #3 p0))) (fv_scal t (fv_scal #3 p0))) (fv_scal #1 p0)) (fv_scal t3 (fv_scal #3 p1))) (fv_scal t2 (fv_scal #6 p1))) (fv_scal t (fv_scal #3 p1))) (fv_scal t3 (fv_scal #1 p3)))).

(** waypoints_c0_dc0_c1.hh:37-47 *)
Definition c0_dc0_c1_evaluateAccelerationCurveAtTime_f (pi : list fvec) (T t : f64) : outcome fcoefs :=
  p0 <- get pi 0 ;;
  p1 <- get pi 1 ;;
  p3 <- get pi 3 ;;
  let alpha := (fdiv #1 (fmul T T)) in
  Ok ((fmul (fadd (fmul #(-18) t) #6) alpha),
      (fv_scal alpha (fv_add (fv_sub (fv_add (fv_add (fv_scal t (fv_scal #(-6) p0)) (fv_scal #6 p0)) (fv_scal t (fv_scal #18 p1))) (fv_scal #12 p1)) (fv_scal t (fv_scal #6 p3))))).

(** waypoints_c0_dc0_dc1.hh:25-35 *)
Definition c0_dc0_dc1_evaluateCurveAtTime_f (pi : list fvec) (t : f64) : outcome fcoefs :=
  p0 <- get pi 0 ;;
  p1 <- get pi 1 ;;
  let t2 := (fmul t t) in
  let t3 := (fmul t2 t) in
  Ok ((fadd (fmul #(-2) t3) (fmul #3 t2)),
      (fv_add (fv_sub (fv_add (fv_add (fv_sub (fv_add (fv_scal t3 (fv_scal #(-1) p0)) (fv_scal t2 (fv_scal #3 p0))) (fv_scal t (fv_scal #3 p0))) (fv_scal #1 p0)) (fv_scal t3 (fv_scal #3 p1))) (fv_scal t2 (fv_scal #6 p1))) (fv_scal t (fv_scal #3 p1)))).

(** waypoints_c0_dc0_dc1.hh:37-47 *)
Definition c0_dc0_dc1_evaluateAccelerationCurveAtTime_f (pi : list fvec) (T t : f64) : outcome fcoefs :=
  p0 <- get pi 0 ;;
  p1 <- get pi 1 ;;
  let alpha := (fdiv #1 (fmul T T)) in
  Ok ((fmul (fadd (fmul #(-12) t) #6) alpha),
      (fv_scal alpha (fv_sub (fv_add (fv_add (fv_scal t (fv_scal #(-6) p0)) (fv_scal #6 p0)) (fv_scal t (fv_scal #18 p1))) (fv_scal #12 p1)))).

(** waypoints_c0_dc0_dc1_c1.hh:25-37 *)
Definition c0_dc0_dc1_c1_evaluateCurveAtTime_f (pi : list fvec) (t : f64) : outcome fcoefs :=
  p0 <- get pi 0 ;;
  p1 <- get pi 1 ;;
  p3 <- get pi 3 ;;
  p4 <- get pi 4 ;;
  let t2 := (fmul t t) in
  let t3 := (fmul t2 t) in
  let t4 := (fmul t3 t) in
  Ok ((fadd (fsub (fmul #6 t4) (fmul #12 t3)) (fmul #6 t2)),
      (fv_add (fv_add (fv_sub (fv_add (fv_sub (fv_add (fv_sub (fv_add (fv_sub (fv_add (fv_sub (fv_scal t4 (fv_scal #1 p0)) (fv_scal t3 (fv_scal #4 p0))) (fv_scal t2 (fv_scal #6 p0))) (fv_scal t (fv_scal #4 p0))) (fv_scal #1 p0)) (fv_scal t4 (fv_scal #4 p1))) (fv_scal t3 (fv_scal #12 p1))) (fv_scal t2 (fv_scal #12 p1))) (fv_scal t (fv_scal #4 p1))) (fv_scal t4 (fv_scal #4 p3))) (fv_scal t3 (fv_scal #4 p3))) (fv_scal t4 (fv_scal #1 p4)))).

(** waypoints_c0_dc0_dc1_c1.hh:39-50 *)
Definition c0_dc0_dc1_c1_evaluateAccelerationCurveAtTime_f (pi : list fvec) (T t : f64) : outcome fcoefs :=
  p0 <- get pi 0 ;;
  p1 <- get pi 1 ;;
  p3 <- get pi 3 ;;
  p4 <- get pi 4 ;;
  let alpha := (fdiv #1 (fmul T T)) in
  Ok ((fmul (fadd (fsub (fmul (fmul #72 t) t) (fmul #72 t)) #12) alpha),
      (fv_scal alpha (fv_add (fv_add (fv_sub (fv_sub (fv_add (fv_sub (fv_add (fv_sub (fv_scal t (fv_scal t (fv_scal #12 p0))) (fv_scal t (fv_scal #24 p0))) (fv_scal #12 p0)) (fv_scal t (fv_scal t (fv_scal #48 p1)))) (fv_scal t (fv_scal #72 p1))) (fv_scal #24 p1)) (fv_scal t (fv_scal t (fv_scal #48 p3)))) (fv_scal t (fv_scal #24 p3))) (fv_scal t (fv_scal t (fv_scal #12 p4)))))).

(** waypoints_c0_dc0_ddc0.hh:26-39 *)
Definition c0_dc0_ddc0_evaluateCurveAtTime_f (pi : list fvec) (t : f64) : outcome fcoefs :=
  p0 <- get pi 0 ;;
  p1 <- get pi 1 ;;
  p2 <- get pi 2 ;;
  let t2 := (fmul t t) in
  let t3 := (fmul t2 t) in
  Ok (t3,
      (fv_add (fv_add (fv_add (fv_scal t3 (fv_sub (fv_scal #3 (fv_sub p1 p2)) p0)) (fv_scal t2 (fv_sub (fv_scal #3 (fv_add p0 p2)) (fv_scal #6 p1)))) (fv_scal (fmul #3 t) (fv_sub p1 p0))) p0)).

(** waypoints_c0_dc0_ddc0.hh:41-52 *)
Definition c0_dc0_ddc0_evaluateAccelerationCurveAtTime_f (pi : list fvec) (T t : f64) : outcome fcoefs :=
  p0 <- get pi 0 ;;
  p1 <- get pi 1 ;;
  p2 <- get pi 2 ;;
  let alpha := (fdiv #1 (fmul T T)) in
  Ok ((fmul (fmul #6 t) alpha),
      (fv_add (fv_scal t (fv_scal alpha (fv_sub (fv_scal #18 (fv_sub p1 p2)) (fv_scal #6 p0)))) (fv_scal alpha (fv_sub (fv_scal #6 (fv_add p0 p2)) (fv_scal #12 p1))))).

(** waypoints_c0_dc0_ddc0_c1.hh:26-39 *)
Definition c0_dc0_ddc0_c1_evaluateCurveAtTime_f (pi : list fvec) (t : f64) : outcome fcoefs :=
  p0 <- get pi 0 ;;
  p1 <- get pi 1 ;;
  p2 <- get pi 2 ;;
  p4 <- get pi 4 ;;
  let t2 := (fmul t t) in
  let t3 := (fmul t2 t) in
  let t4 := (fmul t3 t) in
  Ok ((fadd (fmul #(-4) t4) (fmul #4 t3)),
      (fv_add (fv_add (fv_sub (fv_add (fv_add (fv_sub (fv_add (fv_sub (fv_add (fv_sub (fv_add (fv_sub (fv_scal t4 (fv_scal #1 p0)) (fv_scal t3 (fv_scal #4 p0))) (fv_scal t2 (fv_scal #6 p0))) (fv_scal t (fv_scal #4 p0))) (fv_scal #1 p0)) (fv_scal t4 (fv_scal #4 p1))) (fv_scal t3 (fv_scal #12 p1))) (fv_scal t2 (fv_scal #12 p1))) (fv_scal t (fv_scal #4 p1))) (fv_scal t4 (fv_scal #6 p2))) (fv_scal t3 (fv_scal #12 p2))) (fv_scal t2 (fv_scal #6 p2))) (fv_scal t4 (fv_scal #1 p4)))).

(** waypoints_c0_dc0_ddc0_c1.hh:41-54 *)
Definition c0_dc0_ddc0_c1_evaluateAccelerationCurveAtTime_f (pi : list fvec) (T t : f64) : outcome fcoefs :=
  p0 <- get pi 0 ;;
  p1 <- get pi 1 ;;
  p2 <- get pi 2 ;;
  p4 <- get pi 4 ;;
  let alpha := (fdiv #1 (fmul T T)) in
  let t2 := (fmul t t) in
  Ok ((fmul (fadd (fmul #(-48) t2) (fmul #24 t)) alpha),
      (fv_scal alpha (fv_add (fv_add (fv_sub (fv_add (fv_sub (fv_add (fv_sub (fv_add (fv_sub (fv_scal t2 (fv_scal #12 p0)) (fv_scal t (fv_scal #24 p0))) (fv_scal #12 p0)) (fv_scal t2 (fv_scal #48 p1))) (fv_scal t (fv_scal #72 p1))) (fv_scal #24 p1)) (fv_scal t2 (fv_scal #72 p2))) (fv_scal t (fv_scal #72 p2))) (fv_scal #12 p2)) (fv_scal t2 (fv_scal #12 p4))))).

(** waypoints_c0_dc0_ddc0_dc1_c1.hh:28-43 *)
Definition c0_dc0_ddc0_dc1_c1_evaluateCurveAtTime_f (pi : list fvec) (t : f64) : outcome fcoefs :=
  p0 <- get pi 0 ;;
  p1 <- get pi 1 ;;
  p2 <- get pi 2 ;;
  p4 <- get pi 4 ;;
  p5 <- get pi 5 ;;
  let t2 := (fmul t t) in
  let t3 := (fmul t2 t) in
  let t4 := (fmul t3 t) in
  let t5 := (fmul t4 t) in
  Ok ((fadd (fsub (fmul #10 t5) (fmul #20 t4)) (fmul #10 t3)),
      (fv_add (fv_add (fv_sub (fv_add (fv_sub (fv_add (fv_sub (fv_add (fv_sub (fv_add (fv_sub (fv_add (fv_add (fv_sub (fv_add (fv_sub (fv_add (fv_scal t5 (fv_scal #(-1) p0)) (fv_scal t4 (fv_scal #5 p0))) (fv_scal t3 (fv_scal #10 p0))) (fv_scal t2 (fv_scal #10 p0))) (fv_scal t (fv_scal #5 p0))) (fv_scal #1 p0)) (fv_scal t5 (fv_scal #5 p1))) (fv_scal t4 (fv_scal #20 p1))) (fv_scal t3 (fv_scal #30 p1))) (fv_scal t2 (fv_scal #20 p1))) (fv_scal t (fv_scal #5 p1))) (fv_scal t5 (fv_scal #10 p2))) (fv_scal t4 (fv_scal #30 p2))) (fv_scal t3 (fv_scal #30 p2))) (fv_scal t2 (fv_scal #10 p2))) (fv_scal t5 (fv_scal #5 p4))) (fv_scal t4 (fv_scal #5 p4))) (fv_scal t5 (fv_scal #1 p5)))).

(** waypoints_c0_dc0_ddc0_dc1_c1.hh:45-61 *)
Definition c0_dc0_ddc0_dc1_c1_evaluateAccelerationCurveAtTime_f (pi : list fvec) (T t : f64) : outcome fcoefs :=
  p0 <- get pi 0 ;;
  p1 <- get pi 1 ;;
  p2 <- get pi 2 ;;
  p4 <- get pi 4 ;;
  p5 <- get pi 5 ;;
  let alpha := (fdiv #1 (fmul T T)) in
  let t2 := (fmul t t) in
  let t3 := (fmul t2 t) in
  Ok ((fmul (fadd (fsub (fmul #200 t3) (fmul #240 t2)) (fmul #60 t)) alpha),
      (fv_scal alpha (fv_scal #1 (fv_add (fv_add (fv_sub (fv_add (fv_sub (fv_add (fv_sub (fv_sub (fv_add (fv_sub (fv_add (fv_add (fv_sub (fv_add (fv_scal t3 (fv_scal #(-20) p0)) (fv_scal t2 (fv_scal #60 p0))) (fv_scal t (fv_scal #60 p0))) (fv_scal #20 p0)) (fv_scal t3 (fv_scal #100 p1))) (fv_scal t2 (fv_scal #240 p1))) (fv_scal t (fv_scal #180 p1))) (fv_scal #40 p1)) (fv_scal t3 (fv_scal #200 p2))) (fv_scal t2 (fv_scal #360 p2))) (fv_scal t (fv_scal #180 p2))) (fv_scal #20 p2)) (fv_scal t3 (fv_scal #100 p4))) (fv_scal t2 (fv_scal #60 p4))) (fv_scal t3 (fv_scal #20 p5)))))).

(** waypoints_c0_dc0_ddc0_ddc1_dc1_c1.hh:28-46 *)
Definition c0_dc0_ddc0_ddc1_dc1_c1_evaluateCurveAtTime_f (pi : list fvec) (t : f64) : outcome fcoefs :=
  p0 <- get pi 0 ;;
  p1 <- get pi 1 ;;
  p2 <- get pi 2 ;;
  p4 <- get pi 4 ;;
  p5 <- get pi 5 ;;
  p6 <- get pi 6 ;;
  let t2 := (fmul t t) in
  let t3 := (fmul t2 t) in
  let t4 := (fmul t3 t) in
  let t5 := (fmul t4 t) in
  let t6 := (fmul t5 t) in
  Ok ((fadd (fsub (fadd (fmul #(-20) t6) (fmul #60 t5)) (fmul #60 t4)) (fmul #20 t3)),
      (fv_add (fv_add (fv_sub (fv_add (fv_sub (fv_add (fv_add (fv_sub (fv_add (fv_sub (fv_add (fv_add (fv_sub (fv_add (fv_sub (fv_add (fv_sub (fv_add (fv_sub (fv_add (fv_sub (fv_add (fv_sub (fv_scal t6 (fv_scal #1 p0)) (fv_scal t5 (fv_scal #6 p0))) (fv_scal t4 (fv_scal #15 p0))) (fv_scal t3 (fv_scal #20 p0))) (fv_scal t2 (fv_scal #15 p0))) (fv_scal t (fv_scal #6 p0))) (fv_scal #1 p0)) (fv_scal t6 (fv_scal #6 p1))) (fv_scal t5 (fv_scal #30 p1))) (fv_scal t4 (fv_scal #60 p1))) (fv_scal t3 (fv_scal #60 p1))) (fv_scal t2 (fv_scal #30 p1))) (fv_scal t (fv_scal #6 p1))) (fv_scal t6 (fv_scal #15 p2))) (fv_scal t5 (fv_scal #60 p2))) (fv_scal t4 (fv_scal #90 p2))) (fv_scal t3 (fv_scal #60 p2))) (fv_scal t2 (fv_scal #15 p2))) (fv_scal t6 (fv_scal #15 p4))) (fv_scal t5 (fv_scal #30 p4))) (fv_scal t4 (fv_scal #15 p4))) (fv_scal t6 (fv_scal #6 p5))) (fv_scal t5 (fv_scal #6 p5))) (fv_scal t6 (fv_scal #1 p6)))).

(** waypoints_c0_dc0_ddc0_ddc1_dc1_c1.hh:48-67 *)
Definition c0_dc0_ddc0_ddc1_dc1_c1_evaluateAccelerationCurveAtTime_f (pi : list fvec) (T t : f64) : outcome fcoefs :=
  p0 <- get pi 0 ;;
  p1 <- get pi 1 ;;
  p2 <- get pi 2 ;;
  p4 <- get pi 4 ;;
  p5 <- get pi 5 ;;
  p6 <- get pi 6 ;;
  let alpha := (fdiv #1 (fmul T T)) in
  let t2 := (fmul t t) in
  let t3 := (fmul t2 t) in
  let t4 := (fmul t3 t) in
  Ok ((fmul (fmul #1 (fadd (fsub (fadd (fmul #(-600) t4) (fmul #1200 t3)) (fmul #720 t2)) (fmul #120 t))) alpha),
      (fv_scal alpha (fv_scal #1 (fv_add (fv_add (fv_sub (fv_add (fv_sub (fv_add (fv_add (fv_sub (fv_add (fv_sub (fv_add (fv_sub (fv_add (fv_sub (fv_add (fv_sub (fv_add (fv_sub (fv_add (fv_sub (fv_scal t4 (fv_scal #30 p0)) (fv_scal t3 (fv_scal #120 p0))) (fv_scal t2 (fv_scal #180 p0))) (fv_scal t (fv_scal #120 p0))) (fv_scal #30 p0)) (fv_scal t4 (fv_scal #180 p1))) (fv_scal t3 (fv_scal #600 p1))) (fv_scal t2 (fv_scal #720 p1))) (fv_scal t (fv_scal #360 p1))) (fv_scal #60 p1)) (fv_scal t4 (fv_scal #450 p2))) (fv_scal t3 (fv_scal #1200 p2))) (fv_scal t2 (fv_scal #1080 p2))) (fv_scal t (fv_scal #360 p2))) (fv_scal #30 p2)) (fv_scal t4 (fv_scal #450 p4))) (fv_scal t3 (fv_scal #600 p4))) (fv_scal t2 (fv_scal #180 p4))) (fv_scal t4 (fv_scal #180 p5))) (fv_scal t3 (fv_scal #120 p5))) (fv_scal t4 (fv_scal #30 p6)))))).

(** src/waypoints_definition.cpp:47-58, 67-76, without the flag of the end effector *)
Definition evaluateCurveAtTime_f (flag : Z) (pi : list fvec) (t : f64) : outcome fcoefs :=
  f <- find_flag
    [ (c0_dc0_c1_flag, c0_dc0_c1_evaluateCurveAtTime_f);
      (c0_dc0_dc1_flag, c0_dc0_dc1_evaluateCurveAtTime_f);
      (c0_dc0_dc1_c1_flag, c0_dc0_dc1_c1_evaluateCurveAtTime_f);
      (c0_dc0_ddc0_flag, c0_dc0_ddc0_evaluateCurveAtTime_f);
      (c0_dc0_ddc0_c1_flag, c0_dc0_ddc0_c1_evaluateCurveAtTime_f);
      (c0_dc0_ddc0_dc1_c1_flag, c0_dc0_ddc0_dc1_c1_evaluateCurveAtTime_f);
      (c0_dc0_ddc0_ddc1_dc1_c1_flag, c0_dc0_ddc0_ddc1_dc1_c1_evaluateCurveAtTime_f) ] flag ;;
  f pi t.
(** src/waypoints_definition.cpp:82-95, 103-114, likewise *)
Definition evaluateAccelerationCurveAtTime_f (flag : Z) (pi : list fvec) (T t : f64) : outcome fcoefs :=
  f <- find_flag
    [ (c0_dc0_c1_flag, c0_dc0_c1_evaluateAccelerationCurveAtTime_f);
      (c0_dc0_dc1_flag, c0_dc0_dc1_evaluateAccelerationCurveAtTime_f);
      (c0_dc0_dc1_c1_flag, c0_dc0_dc1_c1_evaluateAccelerationCurveAtTime_f);
      (c0_dc0_ddc0_flag, c0_dc0_ddc0_evaluateAccelerationCurveAtTime_f);
      (c0_dc0_ddc0_c1_flag, c0_dc0_ddc0_c1_evaluateAccelerationCurveAtTime_f);
      (c0_dc0_ddc0_dc1_c1_flag, c0_dc0_ddc0_dc1_c1_evaluateAccelerationCurveAtTime_f);
      (c0_dc0_ddc0_ddc1_dc1_c1_flag, c0_dc0_ddc0_ddc1_dc1_c1_evaluateAccelerationCurveAtTime_f) ] flag ;;
  f pi T t.

(** common_solve_methods.inl:5-17, computeDiscretizedWaypoints; [unit_time] is line 13 *)
Definition computeDiscretizedWaypoints_f (d : fdata) (T : f64) (ta : list (f64 * Z)) : outcome (list fcoefs) :=
  pi <- points_f d T ;;
  mapM (fun tp => evaluateCurveAtTime_f (fd_flag d) pi (unit_time T (fst tp))) ta.
(** common_solve_methods.inl:19-31, computeDiscretizedAccelerationWaypoints *)
Definition computeDiscretizedAccelerationWaypoints_f (d : fdata) (T : f64) (ta : list (f64 * Z)) : outcome (list fcoefs) :=
  pi <- points_f d T ;;
  mapM (fun tp => evaluateAccelerationCurveAtTime_f (fd_flag d) pi T (unit_time T (fst tp))) ta.
