(** 3-vectors, 3x3 matrices, and the outcome of a C++ call.
    Eigen (external, not in /repo) is modelled by exact real arithmetic. *)
From Coq Require Export Reals List ZArith Lia Lra.
Export ListNotations.
Open Scope R_scope.

(** Outcome of running a C++ function: a value, an exception, or undefined
    behaviour (out-of-range access, null dereference, violated Eigen size
    precondition, use of an uninitialised value). *)
Inductive outcome (A : Type) : Type :=
| Ok (a : A)
| Throw
| UB.
Arguments Ok {A} _.
Arguments Throw {A}.
Arguments UB {A}.

Definition bind {A B} (m : outcome A) (f : A -> outcome B) : outcome B :=
  match m with Ok a => f a | Throw => Throw | UB => UB end.
Notation "x <- m ;; k" := (bind m (fun x => k))
  (at level 61, m at next level, right associativity).
Notation "' pat <- m ;; k" := (bind m (fun z => match z with pat => k end))
  (at level 61, pat pattern, m at next level, right associativity).

(** [v[i]] on a std::vector: out of range is undefined behaviour. *)
Definition get {A} (l : list A) (i : nat) : outcome A :=
  match nth_error l i with Some a => Ok a | None => UB end.

(** Left-to-right traversal. *)
Fixpoint mapM {A B} (f : A -> outcome B) (l : list A) : outcome (list B) :=
  match l with
  | [] => Ok []
  | a :: l' => b <- f a ;; bs <- mapM f l' ;; Ok (b :: bs)
  end.

(** Eigen::Vector3d (point_t, point3_t, Vector3 in
    /repo/include/hpp/bezier-com-traj/local_config.hh, definitions.hh). *)
Record vec3 : Set := V3 { vx : R; vy : R; vz : R }.

Definition vzero : vec3 := V3 0 0 0.
Definition vadd (a b : vec3) := V3 (vx a + vx b) (vy a + vy b) (vz a + vz b).
Definition vsub (a b : vec3) := V3 (vx a - vx b) (vy a - vy b) (vz a - vz b).
Definition vopp (a : vec3) := V3 (- vx a) (- vy a) (- vz a).
Definition vscal (k : R) (a : vec3) := V3 (k * vx a) (k * vy a) (k * vz a).
Definition vdivs (a : vec3) (k : R) := V3 (vx a / k) (vy a / k) (vz a / k).
Definition vdot (a b : vec3) : R := vx a * vx b + vy a * vy b + vz a * vz b.
Definition vcross (a b : vec3) : vec3 :=
  V3 (vy a * vz b - vz a * vy b)
     (vz a * vx b - vx a * vz b)
     (vx a * vy b - vy a * vx b).
Definition vnorm2 (a : vec3) : R := vdot a a.
Definition vnorm (a : vec3) : R := sqrt (vnorm2 a).

(** Eigen::Matrix3d, by rows. *)
Record mat3 : Set := M3 { row0 : vec3; row1 : vec3; row2 : vec3 }.

Definition mzero : mat3 := M3 vzero vzero vzero.
Definition mid : mat3 := M3 (V3 1 0 0) (V3 0 1 0) (V3 0 0 1).
Definition madd (a b : mat3) :=
  M3 (vadd (row0 a) (row0 b)) (vadd (row1 a) (row1 b)) (vadd (row2 a) (row2 b)).
Definition msub (a b : mat3) :=
  M3 (vsub (row0 a) (row0 b)) (vsub (row1 a) (row1 b)) (vsub (row2 a) (row2 b)).
Definition mopp (a : mat3) := M3 (vopp (row0 a)) (vopp (row1 a)) (vopp (row2 a)).
Definition mscal (k : R) (a : mat3) :=
  M3 (vscal k (row0 a)) (vscal k (row1 a)) (vscal k (row2 a)).
Definition mdivs (a : mat3) (k : R) :=
  M3 (vdivs (row0 a) k) (vdivs (row1 a) k) (vdivs (row2 a) k).
Definition mvmul (a : mat3) (v : vec3) : vec3 :=
  V3 (vdot (row0 a) v) (vdot (row1 a) v) (vdot (row2 a) v).

(** /repo/src/utils.cpp:62-71, skew. *)
Definition skew (x : vec3) : mat3 :=
  M3 (V3 0 (- vz x) (vy x))
     (V3 (vz x) 0 (- vx x))
     (V3 (- vy x) (vx x) 0).
