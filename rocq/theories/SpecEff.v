(** Specification vocabulary for end-effector trajectories. *)
From Verif Require Import Vec SpecBezier ModelData ModelDispatch ModelCont ModelEff SpecCom SpecTraj Spec0Step.
Open Scope R_scope.

(** Number of free control points of an end-effector flag. *)
Definition eff_free (flag : Z) : nat :=
  if Z.eqb flag F_jerk then 1 else if Z.eqb flag F_x3 then 3 else 5.
(** The decision variables for the free points [xs]. *)
Definition flat (xs : list vec3) : list R := concat (map l3 xs).
(** The curve built for the free points [xs]. *)
Definition eff_curve (pData : problem) (T : R) (xs : list vec3) : outcome bcurve := computeC_of_T pData T (flat xs).

(** Position, velocity, acceleration and jerk at both ends of [0,T]. *)
Definition meets_all (pData : problem) (T : R) (f : R -> vec3) : Prop :=
  f 0 = c0 pData /\ is_deriv_n 1 f 0 (dc0 pData) /\ is_deriv_n 2 f 0 (ddc0 pData) /\ is_deriv_n 3 f 0 (j0 pData) /\
  f T = c1 pData /\ is_deriv_n 1 f T (dc1 pData) /\ is_deriv_n 2 f T (ddc1 pData) /\ is_deriv_n 3 f T (j1 pData).

(** Value at the free points [xs] of an affine expression
    [first * (xs_1, xs_2, ...) + second]. *)
Fixpoint ev_blocks (bs : list mat3) (xs : list vec3) : vec3 :=
  match bs, xs with b :: bs', x :: xs' => vadd (mvmul b x) (ev_blocks bs' xs') | _, _ => vzero end.
Definition ev_wpn (w : wpn) (xs : list vec3) : vec3 := vadd (ev_blocks (wn_blocks w) xs) (wn_pt w).
Definition at_free (xs : list vec3) (ws : list wpn) : list vec3 := map (fun w => ev_wpn w xs) ws.

(** [P] are the control points of the [k]-th derivative of [f] on [0,T]. *)
Definition deriv_points (k : nat) (f : R -> vec3) (T : R) (P : list vec3) : Prop :=
  forall t, is_deriv_n k f t (curve P T t).

(** [l] with a copy of its element [i] inserted after it. *)
Definition repeat_at {A} (i : nat) (l : list A) : list A := firstn (S i) l ++ skipn i l.
(** [l] with [v] added to its element [i]. *)
Definition shift_at (i : nat) (v : vec3) (l : list vec3) : list vec3 :=
  firstn i l ++ match skipn i l with [] => [] | a :: l' => vadd a v :: l' end.
Definition point_of (cv : bcurve) (i : nat) : vec3 := nth i (bc_pts cv) vzero.

(** What computeAccelerationWaypoints returns for the control points [l] of the
    second derivative of the curve with control points [P]: one free point, entry 3
    is off by 56/T^2 (P8 - P5); three, entry 2 is off by 90/T^2 P3 and entry 7
    occurs twice; five, entries 2 and 7 are off and entry 9 occurs twice. *)
Definition acc_errs (flag : Z) (T : R) (P : list vec3) (l : list vec3) : list vec3 :=
  let p i := nth i P vzero in
  if Z.eqb flag F_jerk then shift_at 3 (vscal (56 / (T * T)) (vsub (p 8%nat) (p 5%nat))) l
  else if Z.eqb flag F_x3 then repeat_at 7 (shift_at 2 (vscal (90 / (T * T)) (p 3%nat)) l)
  else repeat_at 9 (shift_at 7 (vscal (- (132 / (T * T))) (p 9%nat))
                      (shift_at 2 (vscal (132 / (T * T)) (p 3%nat)) l)).

(** Coefficient of [s^k] in the Bezier polynomial with control points [P]. *)
Definition mono1 (P : list R) (k : nat) : R :=
  INR (binom (pred (length P)) k) * sumf (S k) (fun j => (-1) ^ (k - j) * INR (binom k j) * nth j P 0).
Definition mono (P : list vec3) (k : nat) : vec3 :=
  V3 (mono1 (map vx P) k) (mono1 (map vy P) k) (mono1 (map vz P) k).
(** What is added to a polynomial when the coefficient [k] is applied to
    [s^(nth k sigma)] instead of [s^k]. *)
Definition moved (sigma : list nat) (P : list vec3) (s : R) : vec3 :=
  fold_right vadd vzero
    (map (fun k => vscal (s ^ (nth k sigma k) - s ^ k) (mono P k)) (seq 0 (length sigma))).
(** Where evaluateVelocity/AccelerationCurveWaypointAtTime put the powers. *)
Definition sigma_vel : list nat := [0;1;2;4;6;7;8;9;3;5]%nat.
Definition sigma_acc : list nat := [0;1;2;4;5;6;7;8;3]%nat.

(** Componentwise order. *)
Definition le3 (a b : vec3) : Prop := vx a <= vx b /\ vy a <= vy b /\ vz a <= vz b.
(** A waypoint depends on the free points: one of its coefficients is above
    2^-52 in absolute value. *)
Definition coefficients (w : wpn) : list R :=
  concat (map (fun m => l3 (row0 m) ++ l3 (row1 m) ++ l3 (row2 m)) (wn_blocks w)).
Definition dependsb (w : wpn) : bool :=
  existsb (fun a => if Rlt_dec (/ 2 ^ 52) (Rabs a) then true else false) (coefficients w).
(** The value of [w] at [xs] is between [lo] and [up] if it depends on [xs]. *)
Definition bounded (lo up : vec3) (xs : list vec3) (w : wpn) : Prop :=
  dependsb w = true -> le3 lo (ev_wpn w xs) /\ le3 (ev_wpn w xs) up.

Definition eff_degree (flag : Z) : R :=
  if Z.eqb flag F_jerk then 8 else if Z.eqb flag F_x3 then 10 else 12.
(** First control points of the velocity of a curve of degree [n] starting with
    velocity [d], acceleration [a] and jerk [j]; at its end they are the same
    with [- T]. *)
Definition end_velocities (n T : R) (d a j : vec3) : list vec3 :=
  [d; vadd d (vscal (T / (n - 1)) a);
   vadd (vadd d (vscal (2 * T / (n - 1)) a)) (vscal (T * T / ((n - 1) * (n - 2))) j)].
(** Same for the positions. *)
Definition end_positions (n T : R) (c d a j : vec3) : list vec3 :=
  [c; vadd c (vscal (T / n) d);
   vadd (vadd c (vscal (2 * T / n) d)) (vscal (T * T / (n * (n - 1))) a);
   vadd (vadd (vadd c (vscal (3 * T / n) d)) (vscal (3 * T * T / (n * (n - 1))) a))
        (vscal (T * T * T / (n * (n - 1) * (n - 2))) j)].
(** The boundary conditions allow a curve with velocity and jerk below [B]. *)
Definition boundary_within (B : R) (pData : problem) (T : R) : Prop :=
  let n := eff_degree (flag_of pData) in
  Forall (within B) (end_velocities n T (dc0 pData) (ddc0 pData) (j0 pData)) /\
  Forall (within B) (end_velocities n (- T) (dc1 pData) (ddc1 pData) (j1 pData)) /\
  within B (j0 pData) /\ within B (j1 pData).
Definition boundary_above (m : R) (pData : problem) (T : R) : Prop :=
  let n := eff_degree (flag_of pData) in
  Forall (fun p => m <= vz p) (end_positions n T (c0 pData) (dc0 pData) (ddc0 pData) (j0 pData)) /\
  Forall (fun p => m <= vz p) (end_positions n (- T) (c1 pData) (dc1 pData) (ddc1 pData) (j1 pData)).

(** What evaluateCurveWaypointAtTime adds to the curve at parameter [s]. *)
Definition eval_shift (pData : problem) (s : R) : vec3 :=
  if Z.eqb (flag_of pData) F_jerk then vscal ((1 - s) ^ 8) (vsub (c1 pData) (c0 pData)) else vzero.
(** Sum over [N] equally spaced samples of the squared distance between the
    curve (with that addition) and the points [p 0], ..., [p (N-1)]. *)
Definition path_gap (N : nat) (pData : problem) (T : R) (cv : bcurve) (p : nat -> vec3) : R :=
  sum_list (map (fun i => let s := INR i * (1 / (INR N - 1)) in
    vnorm2 (vsub (vadd (cv_fun cv (s * T)) (eval_shift pData s)) (p i))) (seq 0 N)).
(** Relative error of the decimal constants of the velocity cost. *)
Definition velocity_eps (flag : Z) : R :=
  if Z.eqb flag F_jerk then / 10 ^ 9 else if Z.eqb flag F_x3 then / 10 ^ 6 else / 10 ^ 4.
(** [i] is the integral over [0,T] of the squared speed. *)
Definition speed_integral (cv : bcurve) (T i : R) : Prop :=
  exists d, (forall t, is_deriv_n 1 (cv_fun cv) t (d t)) /\ integral (fun t => vnorm2 (d t)) 0 T i.
