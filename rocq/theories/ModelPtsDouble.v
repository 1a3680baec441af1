(** The fixed control points of the curves in double arithmetic (the exact versions are in ModelWaypoints.v
    and ModelWaypointsJerk.v).  Operations on vectors are coefficientwise, as in Eigen; each expression is
    evaluated from left to right as written, without contraction. *)
From Flocq Require Import Core BinarySingleNaN.
From Coq Require Import List.
From Verif Require Import Vec ModelData ModelWaypoints ModelWaypointsJerk ModelDispatch ModelEff Double.
Import ListNotations.
Open Scope Z_scope.

Definition fsub (x y : f64) : f64 := Bminus mode_NE x y.
Definition fopp (x : f64) : f64 := Bopp x.
Definition fsqrt (x : f64) : f64 := Bsqrt mode_NE x.

(** Vector3 *)
Record fvec : Set := FV { fx : f64; fy : f64; fz : f64 }.
Definition fv_add (a b : fvec) : fvec := FV (fadd (fx a) (fx b)) (fadd (fy a) (fy b)) (fadd (fz a) (fz b)).
Definition fv_sub (a b : fvec) : fvec := FV (fsub (fx a) (fx b)) (fsub (fy a) (fy b)) (fsub (fz a) (fz b)).
Definition fv_opp (a : fvec) : fvec := FV (fopp (fx a)) (fopp (fy a)) (fopp (fz a)).
(** [v * k], [k * v], [v / k] *)
Definition fv_mul (a : fvec) (k : f64) : fvec := FV (fmul (fx a) k) (fmul (fy a) k) (fmul (fz a) k).
Definition fv_scal (k : f64) (a : fvec) : fvec := FV (fmul k (fx a)) (fmul k (fy a)) (fmul k (fz a)).
Definition fv_div (a : fvec) (k : f64) : fvec := FV (fdiv (fx a) k) (fdiv (fy a) k) (fdiv (fz a) k).
(** [Zero()] *)
Definition fv_zero : fvec := FV f0 f0 f0.
(** [norm()]: square root of the sum of the squares, from left to right *)
Definition fv_norm (a : fvec) : f64 := fsqrt (fadd (fadd (fmul (fx a) (fx a)) (fmul (fy a) (fy a))) (fmul (fz a) (fz a))).

(** data.hh, the members of ProblemData that matter here, and the flag of its constraints *)
Record fdata : Set := FD {
  fd_flag : Z;
  fd_c0 : fvec; fd_dc0 : fvec; fd_ddc0 : fvec; fd_j0 : fvec;
  fd_c1 : fvec; fd_dc1 : fvec; fd_ddc1 : fvec; fd_j1 : fvec }.

(** integer literals and variables converted to double *)
Notation "# n" := (of_Z n) (at level 1, n at level 0).

(** waypoints_c0_dc0_c1.hh:49-62, computeConstantWaypoints *)
Definition c0_dc0_c1_points (d : fdata) (T : f64) : outcome (list fvec) :=
  let n := #3 in
  Ok [ fd_c0 d;
       fv_add (fv_div (fv_mul (fd_dc0 d) T) n) (fd_c0 d);
       fv_zero;
       fd_c1 d ].
(** waypoints_c0_dc0_dc1.hh:49-63 *)
Definition c0_dc0_dc1_points (d : fdata) (T : f64) : outcome (list fvec) :=
  if negb (Beqb (fv_norm (fd_dc1 d)) f0) then Throw else
  Ok [ fd_c0 d;
       fv_add (fv_div (fv_mul (fd_dc0 d) T) #3) (fd_c0 d);
       fv_zero;
       fv_zero ].
(** waypoints_c0_dc0_dc1_c1.hh:52-65 *)
Definition c0_dc0_dc1_c1_points (d : fdata) (T : f64) : outcome (list fvec) :=
  let n := #4 in
  Ok [ fd_c0 d;
       fv_add (fv_div (fv_mul (fd_dc0 d) T) n) (fd_c0 d);
       fv_zero;
       fv_add (fv_div (fv_mul (fv_opp (fd_dc1 d)) T) n) (fd_c1 d);
       fd_c1 d ].
(** waypoints_c0_dc0_ddc0.hh:54-67 *)
Definition c0_dc0_ddc0_points (d : fdata) (T : f64) : outcome (list fvec) :=
  let n := #3 in
  Ok [ fd_c0 d;
       fv_add (fv_div (fv_mul (fd_dc0 d) T) n) (fd_c0 d);
       fv_add (fv_add (fv_div (fv_mul (fv_mul (fd_ddc0 d) T) T) (fmul n (fsub n #1)))
                      (fv_div (fv_mul (fv_scal #2 (fd_dc0 d)) T) n)) (fd_c0 d);
       fv_zero ].
(** waypoints_c0_dc0_ddc0_c1.hh:56-70 *)
Definition c0_dc0_ddc0_c1_points (d : fdata) (T : f64) : outcome (list fvec) :=
  let n := #4 in
  Ok [ fd_c0 d;
       fv_add (fv_div (fv_mul (fd_dc0 d) T) n) (fd_c0 d);
       fv_add (fv_add (fv_div (fv_mul (fv_mul (fd_ddc0 d) T) T) (fmul n (fsub n #1)))
                      (fv_div (fv_mul (fv_scal #2 (fd_dc0 d)) T) n)) (fd_c0 d);
       fv_zero;
       fd_c1 d ].
(** waypoints_c0_dc0_ddc0_dc1_c1.hh:63-78 *)
Definition c0_dc0_ddc0_dc1_c1_points (d : fdata) (T : f64) : outcome (list fvec) :=
  let n := #5 in
  Ok [ fd_c0 d;
       fv_add (fv_div (fv_mul (fd_dc0 d) T) n) (fd_c0 d);
       fv_add (fv_add (fv_div (fv_mul (fv_mul (fd_ddc0 d) T) T) (fmul n (fsub n #1)))
                      (fv_div (fv_mul (fv_scal #2 (fd_dc0 d)) T) n)) (fd_c0 d);
       fv_zero;
       fv_add (fv_div (fv_mul (fv_opp (fd_dc1 d)) T) n) (fd_c1 d);
       fd_c1 d ].
(** waypoints_c0_dc0_ddc0_ddc1_dc1_c1.hh:69-86 *)
Definition c0_dc0_ddc0_ddc1_dc1_c1_points (d : fdata) (T : f64) : outcome (list fvec) :=
  let n := #6 in
  Ok [ fd_c0 d;
       fv_add (fv_div (fv_mul (fd_dc0 d) T) n) (fd_c0 d);
       fv_add (fv_add (fv_div (fv_mul (fv_mul (fd_ddc0 d) T) T) (fmul n (fsub n #1)))
                      (fv_div (fv_mul (fv_scal #2 (fd_dc0 d)) T) n)) (fd_c0 d);
       fv_zero;
       fv_add (fv_sub (fv_div (fv_mul (fv_mul (fd_ddc1 d) T) T) (fmul n (fsub n #1)))
                      (fv_div (fv_mul (fv_scal #2 (fd_dc1 d)) T) n)) (fd_c1 d);
       fv_add (fv_div (fv_mul (fv_opp (fd_dc1 d)) T) n) (fd_c1 d);
       fd_c1 d ].
(** The three functions for the end effector differ by [n] and the number of free points:
    waypoints_c0_dc0_ddc0_j0_j1_ddc1_dc1_c1.hh:182-206, ..._j0_x3_j1_...hh:221-247, ..._j0_x5_j1_...hh:237-265 *)
Definition jerk_points (n : f64) (free : nat) (d : fdata) (T : f64) : outcome (list fvec) :=
  Ok ([ fd_c0 d;
        fv_add (fv_div (fv_mul (fd_dc0 d) T) n) (fd_c0 d);
        fv_add (fv_add (fv_div (fv_mul (fv_mul (fd_ddc0 d) T) T) (fmul n (fsub n #1)))
                       (fv_div (fv_mul (fv_scal #2 (fd_dc0 d)) T) n)) (fd_c0 d);
        fv_add (fv_add (fv_add (fv_div (fv_mul (fv_mul (fv_mul (fd_j0 d) T) T) T) (fmul (fmul n (fsub n #1)) (fsub n #2)))
                               (fv_div (fv_mul (fv_mul (fv_scal #3 (fd_ddc0 d)) T) T) (fmul n (fsub n #1))))
                       (fv_div (fv_mul (fv_scal #3 (fd_dc0 d)) T) n)) (fd_c0 d) ]
      ++ repeat fv_zero free ++
      [ fv_add (fv_sub (fv_add (fv_div (fv_mul (fv_mul (fv_mul (fv_opp (fd_j1 d)) T) T) T) (fmul (fmul n (fsub n #1)) (fsub n #2)))
                               (fv_div (fv_mul (fv_mul (fv_scal #3 (fd_ddc1 d)) T) T) (fmul n (fsub n #1))))
                       (fv_div (fv_mul (fv_scal #3 (fd_dc1 d)) T) n)) (fd_c1 d);
        fv_add (fv_sub (fv_div (fv_mul (fv_mul (fd_ddc1 d) T) T) (fmul n (fsub n #1)))
                       (fv_div (fv_mul (fv_scal #2 (fd_dc1 d)) T) n)) (fd_c1 d);
        fv_add (fv_div (fv_mul (fv_opp (fd_dc1 d)) T) n) (fd_c1 d);
        fd_c1 d ]).

(** src/waypoints_definition.cpp:263-295, computeConstantWaypoints *)
Definition points_f (d : fdata) (T : f64) : outcome (list fvec) :=
  f <- find_flag
    [ (c0_dc0_c1_flag, c0_dc0_c1_points);
      (c0_dc0_dc1_flag, c0_dc0_dc1_points);
      (c0_dc0_dc1_c1_flag, c0_dc0_dc1_c1_points);
      (c0_dc0_ddc0_flag, c0_dc0_ddc0_points);
      (c0_dc0_ddc0_c1_flag, c0_dc0_ddc0_c1_points);
      (c0_dc0_ddc0_dc1_c1_flag, c0_dc0_ddc0_dc1_c1_points);
      (c0_dc0_ddc0_ddc1_dc1_c1_flag, c0_dc0_ddc0_ddc1_dc1_c1_points);
      (j0j1_flag, jerk_points #8 1);
      (x3_flag, jerk_points #10 3);
      (x5_flag, jerk_points #12 5) ] (fd_flag d) ;;
  f d T.

(** The vector of real numbers that a Vector3 denotes. *)
Definition fv_R (a : fvec) : vec3 := V3 (B2R (fx a)) (B2R (fy a)) (B2R (fz a)).

(** utils.hh:112-157, computeBezierCurve copies the points: the curve of a centre of mass, as a function
    of the exact time.  The free point is any point. *)
Definition com_curve_f (d : fdata) (T : f64) (x : vec3) : outcome bcurve :=
  pi <- points_f d T ;;
  computeBezierCurve (fd_flag d) (B2R T) (map fv_R pi) x.
(** include/hpp/bezier-com-traj/solve_end_effector.hh:261-280, computeC_of_T copies the free points over the fixed ones at
    positions 4, 5 ... *)
Fixpoint put_free (pts : list vec3) (i : nat) (xs : list vec3) : outcome (list vec3) :=
  match xs with
  | [] => Ok pts
  | x :: xs' => pts <- set_wp pts i x ;; put_free pts (S i) xs'
  end.
Definition eff_curve_f (d : fdata) (T : f64) (xs : list vec3) : outcome bcurve :=
  pi <- points_f d T ;;
  pts <- put_free (map fv_R pi) 4 xs ;;
  mk_bezier pts (B2R T).
