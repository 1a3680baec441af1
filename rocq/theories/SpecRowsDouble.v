(** Specification vocabulary for the rows of the constraints in double arithmetic. *)
From Flocq Require Import Core BinarySingleNaN.
From Coq Require Import List Permutation.
From Verif Require Import Vec SpecBezier ModelData ModelDispatch SpecCom Double ModelPtsDouble ModelRowsDouble SpecDouble SpecPtsDouble SpecCoefDouble.
Import ListNotations.
Open Scope R_scope.

(** [x] is a sum of the numbers in the list in some order, with any brackets; 0 may be added, and the sum of the opposite numbers
    may be computed and negated. *)
Inductive sums_to : list f64 -> f64 -> Prop :=
| sum_one a : sums_to [a] a
| sum_two l m x y : sums_to l x -> sums_to m y -> sums_to (l ++ m) (fadd x y)
| sum_perm l m x : Permutation l m -> sums_to l x -> sums_to m x
| sum_zero l x : sums_to l x -> sums_to l (fadd f0 x)
| sum_opp l x : sums_to (map fopp l) x -> sums_to l (fopp x).
(** [sub k K b] is [k - K.b] evaluated in some order. *)
Definition subtracts (sub : f64 -> fvec -> fvec -> f64) : Prop := forall k K b,
  sums_to [k; fopp (fmul (fx K) (fx b)); fopp (fmul (fy K) (fy b)); fopp (fmul (fz K) (fz b))] (sub k K b).

(** The kinematic data: finite, at most 2^200, as many rows in both at least where they are read. *)
Definition mild_contact (c : fcontact) : Prop :=
  Forall mild3 (fc_Kin c) /\ Forall mild (fc_kin c) /\ (length (fc_kin c) <= length (fc_Kin c))%nat.
(** Times in blocks, one per phase: phase [i] is in force at the times of its block and at the last of the block before. *)
Definition in_force (bs : list (list f64)) (i : nat) (t : f64) : Prop :=
  (exists b, nth_error bs i = Some b /\ In t b) \/
  (exists j b b', i = S j /\ nth_error bs j = Some (b ++ [t]) /\ nth_error bs i = Some b').
(** [(K, k)] is a row of the kinematic constraints [Kin_ c <= kin_] of the phase. *)
Definition kin_of (c : fcontact) (K : fvec) (k : f64) : Prop :=
  exists j, nth_error (fc_Kin c) j = Some K /\ nth_error (fc_kin c) j = Some k.

(** A row, read as exact numbers, holds at [x] up to [del]. *)
Definition holds (del : R) (r : fvec * f64) (x : vec3) : Prop := vdot (fv_R (fst r)) x <= B2R (snd r) + del.
Definition finite_row (r : fvec * f64) : Prop := finite3 (fst r) /\ is_finite (snd r) = true.

(** How much a row can differ from the constraint it stands for: curve of degree [n]. *)
Definition kin_err (n : nat) (T : R) (pData : problem) (x : vec3) (K : vec3) (k : R) : R :=
  let e ax := 2 * Rabs (ax K) * pos_err n T (extent T pData x ax) in
  e vx + e vy + e vz + 4 * u53 * Rabs k + 4 * eta * (1 + Rabs (vx x) + Rabs (vy x) + Rabs (vz x)).
Definition accel_err (n : nat) (T : R) (pData : problem) (x : vec3) (amax : R) (ax : vec3 -> R) : R :=
  2 * acc_err n T (extent T pData x ax) + 2 * u53 * Rabs amax.
