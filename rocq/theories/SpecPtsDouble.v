(** Specification vocabulary for the fixed control points in double arithmetic. *)
From Flocq Require Import Core BinarySingleNaN.
From Coq Require Import List.
From Verif Require Import Vec SpecBezier ModelData ModelDispatch SpecCom Double ModelPtsDouble SpecDouble.
Import ListNotations.
Open Scope R_scope.

(** The problem whose exact data are the doubles. *)
Definition denotes (d : fdata) (pData : problem) : Prop :=
  flag_of pData = fd_flag d /\
  c0 pData = fv_R (fd_c0 d) /\ dc0 pData = fv_R (fd_dc0 d) /\ ddc0 pData = fv_R (fd_ddc0 d) /\ j0 pData = fv_R (fd_j0 d) /\
  c1 pData = fv_R (fd_c1 d) /\ dc1 pData = fv_R (fd_dc1 d) /\ ddc1 pData = fv_R (fd_ddc1 d) /\ j1 pData = fv_R (fd_j1 d).

(** Finite, at most 2^200 in absolute value. *)
Definition mild (x : f64) : Prop := is_finite x = true /\ Rabs (B2R x) <= 2 ^ 200.
Definition mild3 (v : fvec) : Prop := mild (fx v) /\ mild (fy v) /\ mild (fz v).
Definition mild_data (d : fdata) : Prop :=
  mild3 (fd_c0 d) /\ mild3 (fd_dc0 d) /\ mild3 (fd_ddc0 d) /\ mild3 (fd_j0 d) /\
  mild3 (fd_c1 d) /\ mild3 (fd_dc1 d) /\ mild3 (fd_ddc1 d) /\ mild3 (fd_j1 d).

(** The state selected by the flag at the start and at the end: position, velocity ... *)
Definition when (flag bit : Z) (v : vec3) : list vec3 := if fl_has flag bit then [v] else [].
Definition start_state (pData : problem) : list vec3 :=
  let f := flag_of pData in c0 pData :: when f INIT_VEL (dc0 pData) ++ when f INIT_ACC (ddc0 pData) ++ when f INIT_JERK (j0 pData).
Definition end_state (pData : problem) : list vec3 :=
  let f := flag_of pData in
  if fl_has f END_POS then c1 pData :: when f END_VEL (dc1 pData) ++ when f END_ACC (ddc1 pData) ++ when f END_JERK (j1 pData) else [].

(** |c| + T |c'| + T^2 |c''| + ... *)
Fixpoint reach (T : R) (l : list R) : R := match l with [] => 0 | a :: l' => Rabs a + T * reach T l' end.
(** Half the smallest positive double. *)
Definition eta : R := / 2 ^ 1075.
(** Error of one coordinate of a control point: relative to the reach of the data it depends on. *)
Definition pt_err (T : R) (l : list R) : R := 8 * u53 * reach T l + 8 * eta * (1 + T) ^ 2.

Definition axis (ax : vec3 -> R) : Prop := ax = vx \/ ax = vy \/ ax = vz.
(** [v] and [w] differ by at most [e ax] along each axis. *)
Definition apart (e : (vec3 -> R) -> R) (v w : vec3) : Prop := forall ax, axis ax -> Rabs (ax v - ax w) <= e ax.

(** Error of the point number [i] from an end with state [s]: it depends on the first [i + 1] data. *)
Definition end_err (T : R) (s : list vec3) (i : nat) (ax : vec3 -> R) : R := pt_err T (map ax (firstn (S i) s)).
(** The points [P] are the points [Q] up to these errors; those at the ends of the list and the free ones are equal. *)
Definition points_near (T : R) (s e : list vec3) (P Q : list vec3) : Prop :=
  length P = length Q /\
  nth 0 P vzero = nth 0 Q vzero /\
  (forall i, (i < length s)%nat -> apart (end_err T s i) (nth i P vzero) (nth i Q vzero)) /\
  (e <> [] -> nth (length P - 1) P vzero = nth (length P - 1) Q vzero) /\
  (forall i, (i < length e)%nat -> apart (end_err T e i) (nth (length P - 1 - i) P vzero) (nth (length P - 1 - i) Q vzero)) /\
  (forall i, (length s <= i < length P - length e)%nat -> nth i P vzero = nth i Q vzero).

(** The boundary conditions selected by the flag, on a curve of degree [n] on [0,T]: positions exactly, derivatives up
    to the errors of the control points. *)
Definition boundary_near (n : R) (pData : problem) (T : R) (f : R -> vec3) : Prop :=
  let has b := fl_has (flag_of pData) b = true in
  let s := end_err T (start_state pData) in
  let e := end_err T (end_state pData) in
  let vel (w : nat -> (vec3 -> R) -> R) ax := n / T * w 1%nat ax in
  let acc (w : nat -> (vec3 -> R) -> R) ax := n * (n - 1) / T ^ 2 * (w 2%nat ax + 2 * w 1%nat ax) in
  let jerk (w : nat -> (vec3 -> R) -> R) ax := n * (n - 1) * (n - 2) / T ^ 3 * (w 3%nat ax + 3 * w 2%nat ax + 3 * w 1%nat ax) in
  (has INIT_POS -> f 0 = c0 pData) /\
  (has INIT_VEL -> exists v, is_deriv_n 1 f 0 v /\ apart (vel s) v (dc0 pData)) /\
  (has INIT_ACC -> exists v, is_deriv_n 2 f 0 v /\ apart (acc s) v (ddc0 pData)) /\
  (has INIT_JERK -> exists v, is_deriv_n 3 f 0 v /\ apart (jerk s) v (j0 pData)) /\
  (has END_POS -> f T = c1 pData) /\
  (has END_VEL -> exists v, is_deriv_n 1 f T v /\ apart (vel e) v (dc1 pData)) /\
  (has END_ACC -> exists v, is_deriv_n 2 f T v /\ apart (acc e) v (ddc1 pData)) /\
  (has END_JERK -> exists v, is_deriv_n 3 f T v /\ apart (jerk e) v (j1 pData)).

(** A Vector3 with finite coordinates. *)
Definition finite3 (v : fvec) : Prop := is_finite (fx v) = true /\ is_finite (fy v) = true /\ is_finite (fz v) = true.

(** Largest error of a control point, which bounds the distance between the two curves. *)
Definition curve_err (T : R) (s e : list vec3) (ax : vec3 -> R) : R := Rmax (pt_err T (map ax s)) (pt_err T (map ax e)).
