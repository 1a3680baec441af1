(** Specification of Bezier curves and of their derivatives.
    This file is independent of the model of the code. *)
From Verif Require Import Vec.
Open Scope R_scope.

(** Pascal's triangle. *)
Fixpoint binom (n k : nat) {struct n} : nat :=
  match n, k with
  | _, O => 1%nat
  | O, S _ => 0%nat
  | S n', S k' => (binom n' k' + binom n' (S k'))%nat
  end.

(** [sumf n f] is [f 0 + ... + f (n-1)]. *)
Fixpoint sumf (n : nat) (f : nat -> R) : R :=
  match n with
  | O => 0
  | S m => sumf m f + f m
  end.

(** Bernstein polynomial. *)
Definition bern (n i : nat) (s : R) : R :=
  INR (binom n i) * s ^ i * (1 - s) ^ (n - i).

(** Value at parameter [s] of the scalar curve of degree [n] with control
    points [f 0 .. f n]. *)
Definition bez (n : nat) (f : nat -> R) (s : R) : R :=
  sumf (S n) (fun i => bern n i s * f i).

(** Same for a non-empty list of control points. *)
Definition bezl (P : list R) (s : R) : R :=
  bez (pred (length P)) (fun i => nth i P 0) s.

Definition bez3 (P : list vec3) (s : R) : vec3 :=
  V3 (bezl (map vx P) s) (bezl (map vy P) s) (bezl (map vz P) s).

(** The curve on [0,T] with control points [P]. *)
Definition curve (P : list vec3) (T : R) (t : R) : vec3 := bez3 P (t / T).

(** [is_deriv f t l]: [l] is the derivative of [f] at [t] (limit of difference
    quotients of every component, standard library definition). *)
Definition is_deriv (f : R -> vec3) (t : R) (l : vec3) : Prop :=
  derivable_pt_lim (fun u => vx (f u)) t (vx l) /\
  derivable_pt_lim (fun u => vy (f u)) t (vy l) /\
  derivable_pt_lim (fun u => vz (f u)) t (vz l).

(** [is_deriv_n k f t l]: [l] is the [k]-th derivative of [f] at [t]. *)
Fixpoint is_deriv_n (k : nat) (f : R -> vec3) (t : R) (l : vec3) : Prop :=
  match k with
  | O => f t = l
  | S k' => exists f' : R -> vec3,
      (forall u, is_deriv f u (f' u)) /\ is_deriv_n k' f' t l
  end.

(** Control points of the derivative: differences of consecutive control
    points, times degree / duration. *)
Fixpoint vdiffs (P : list vec3) : list vec3 :=
  match P with
  | a :: ((b :: _) as P') => vsub b a :: vdiffs P'
  | _ => []
  end.
Definition hodo (T : R) (P : list vec3) : list vec3 :=
  map (vscal (INR (pred (length P)) / T)) (vdiffs P).
