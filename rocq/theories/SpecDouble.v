(** Specification vocabulary for times in double arithmetic.  Independent of the model. *)
From Flocq Require Import Core BinarySingleNaN.
From Verif Require Import Vec Double.
Open Scope R_scope.

(** Half the distance from 1 to the next double: the relative error of one operation. *)
Definition u53 : R := / IZR (2 ^ 53).

(** A positive finite double. *)
Definition posf (x : f64) : Prop := is_finite x = true /\ 0 < B2R x.

(** Start and end of phase [i], durations being added one after the other. *)
Definition start_f (Ts : list f64) (i : nat) : f64 := fold_left fadd (firstn i Ts) f0.
Definition end_f (Ts : list f64) (i : nat) : f64 := start_f Ts (S i).

(** Per-phase lists of times, concatenated, each time tagged with its phase. *)
Fixpoint tagged_f (i : Z) (bs : list (list f64)) : list (f64 * Z) :=
  match bs with
  | [] => []
  | b :: bs' => map (fun t => (t, i)) b ++ tagged_f (i + 1) bs'
  end.

(** Times of a phase from [s] to [e] by steps of [dt]: they increase, from [s] to [e], and a time is the
    sum of the one before and [dt] up to rounding, except the last, which may come sooner. *)
Definition walk (s e dt : f64) (b : list f64) : Prop :=
  hd_error b = Some s /\ (exists b', b = b' ++ [e]) /\
  (forall t, In t b -> is_finite t = true /\ B2R s <= B2R t <= B2R e) /\
  (forall k t t', nth_error b k = Some t -> nth_error b (S k) = Some t' ->
     B2R t < B2R t' <= (B2R t + B2R dt) * (1 + u53) /\
     ((S (S k) < length b)%nat -> (B2R t + B2R dt) * (1 - u53) <= B2R t')).

(** [a / b] rounded to the nearest double, and 2^-54. *)
Definition dec_f (a b : Z) : f64 := fdiv (of_Z a) (of_Z b).
Definition tiny : f64 := @B754_finite 53 1024 false 4503599627370496 (-106) eq_refl.
