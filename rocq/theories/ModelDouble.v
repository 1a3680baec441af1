(** The time arithmetic of /repo in IEEE double arithmetic.  Everywhere else in the model numbers are
    exact. *)
From Flocq Require Import Core BinarySingleNaN.
From Verif Require Import Vec Double ModelData ModelCom.
Open Scope bool_scope.
Open Scope Z_scope.

(** [phaseTimings.sum()] and [Ts.sum()] (utils.cpp:85, computeCOMTraj.cpp:423, 538, 559) from left to
    right.  Eigen is free to choose another order ... *)
Definition seq_sum (l : list f64) : f64 := match l with [] => f0 | a :: l' => fold_left fadd l' a end.
(** ... and does: with packets of two numbers (SSE2, AVX off), four numbers are added like this
    (Eigen's Redux.h, from memory); less than four, from left to right. *)
Definition packet_sum4 (a b c d : f64) : f64 := fadd (fadd a c) (fadd b d).
(** With packets of four (AVX). *)
Definition packet_sum4_avx (a b c d : f64) : f64 := fadd (fadd a b) (fadd c d).

(** utils.cpp:81-98, computeDiscretizedTimeFixed; [t_total] is the sum.  Loop of lines 89-92 ... *)
Fixpoint fixed_inner_f (j : nat) (step : f64) (i : Z) (t : f64) (arr : list (f64 * Z)) : f64 * list (f64 * Z) :=
  match j with
  | O => (t, arr)
  | S j' => let t' := fadd t step in fixed_inner_f j' step i t' (arr ++ [(t', i)])
  end.
(** ... and of lines 87-93.  [pointsPerPhase] is an unsigned int, converted to double. *)
Fixpoint fixed_outer_f (Ts : list f64) (p : nat) (i : Z) (t : f64) (arr : list (f64 * Z)) : list (f64 * Z) :=
  match Ts with
  | [] => arr
  | d :: Ts' =>
      let step := fdiv d (of_Z (Z.of_nat p)) in
      let '(t', arr') := fixed_inner_f p step i t arr in
      fixed_outer_f Ts' p (i + 1) t' arr'
  end.
Definition computeDiscretizedTimeFixed_f (t_total : f64) (Ts : list f64) (p : nat) : list (f64 * Z) :=
  removelast (fixed_outer_f Ts p 0 f0 [(f0, 0)]) ++ [(t_total, Z.of_nat (length Ts) - 1)].

(** utils.cpp:100-118, computeDiscretizedTime: [fuel] bounds the iterations of each while loop; None: not
    finished. *)
Fixpoint while_push_f (fuel : nat) (t stop dt : f64) (i : Z) (arr : list (f64 * Z)) : option (list (f64 * Z)) :=
  match fuel with
  | O => None
  | S f => if flt t stop then while_push_f f (fadd t dt) stop dt i (arr ++ [(t, i)]) else Some arr
  end.
Fixpoint step_outer_f (fuel : nat) (Ts : list f64) (dt : f64) (i : Z) (current : f64) (arr : list (f64 * Z))
  : option (list (f64 * Z)) :=
  match Ts with
  | [] => Some arr
  | d :: Ts' =>
      let stop := fadd current d in
      match while_push_f fuel current stop dt i arr with
      | None => None
      | Some arr' => step_outer_f fuel Ts' dt (i + 1) stop (arr' ++ [(stop, i)])
      end
  end.
Definition computeDiscretizedTime_f (fuel : nat) (Ts : list f64) (dt : f64) : option (list (f64 * Z)) :=
  step_outer_f fuel Ts dt 0 f0 [].

(** common_solve_methods.inl:12 and 26, computeCOMTraj.cpp:32: the normalised time of a sample *)
Definition unit_time (T t : f64) : f64 := fmin (fdiv t T) f1.
(** ndcurves::Bern::operator() (external) throws unless this holds *)
Definition bern_accepts (u : f64) : bool := fle f0 u && fle u f1.

(** solve_0_step.cpp:111-113, computeNumSteps *)
Definition computeNumSteps_f (T timeStep : f64) : outcome Z :=
  if flt f0 timeStep then f_to_int (fdiv T timeStep) else Ok (-1).
(** common_solve_methods.cpp:11-16 (dt = 1./double(numSteps), i * dt for i <= numSteps), and
    solve_end_effector.hh:229-236, 253-256, 284-288, 316-321, 341-346 with numSteps = numPoints - 1 *)
Definition sample_f (numSteps i : Z) : f64 := fmul (of_Z i) (fdiv f1 (of_Z numSteps)).

(** computeCOMTraj.cpp:449, 461-465: the bounds of the extracted phases ... *)
Fixpoint ranges_f (current : f64) (Ts : list f64) : list (f64 * f64) :=
  match Ts with
  | [] => []
  | d :: Ts' => (current, fadd d current) :: ranges_f (fadd current d) Ts'
  end.
(** ... and the test of ndcurves' extract (external) on a curve over [0, T], which throws when it is false *)
Definition extract_accepts (T : f64) (r : f64 * f64) : bool :=
  negb (flt (fst r) f0 || flt T (fst r) || flt (snd r) f0 || flt T (snd r)).
Definition phases_f (T : f64) (Ts : list f64) : outcome (list (f64 * f64)) :=
  mapM (fun r => if extract_accepts T r then Ok r else Throw) (ranges_f f0 Ts).

(** The time at which the curve over [0, T] is evaluated for the sample [t]: the parameter of the Bernstein polynomials times T.  The
    multiplication is not in the code (the polynomials take the parameter); the model of the constraints divides by T again. *)
Definition eval_time (T t : f64) : R := (B2R (unit_time T t) * B2R T)%R.
(** computeConstraintsOneStep (computeCOMTraj.cpp:282-306, ModelCom.v) with times in double arithmetic; the points and rows are exact. *)
Definition constraints_f (pData : problem) (Ts : list f64) (T : f64) (ta : list (f64 * Z)) : outcome (list (vec3 * R)) :=
  computeConstraintsOneStep pData (map (fun d : f64 => B2R d) Ts) (B2R T) (map (fun a => (eval_time T (fst a), snd a)) ta).
