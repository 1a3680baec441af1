(** Specification vocabulary for constraints at rounded times.  Independent of the model. *)
From Flocq Require Import Core BinarySingleNaN.
From Verif Require Import Vec Double SpecDouble.
Open Scope R_scope.

(** [ev t] is where a curve over [0, T] is evaluated for the sample [t]: in [0, T]; at T if [t] is not
    before T; else at [t] up to one rounding of t / T. *)
Definition evaluates (T : f64) (ev : f64 -> R) : Prop :=
  forall t, is_finite t = true -> 0 <= B2R t ->
    0 <= ev t <= B2R T /\
    (B2R T <= B2R t -> ev t = B2R T) /\
    (B2R t <= B2R T -> Rabs (ev t - B2R t) <= u53 * B2R t + / IZR (2 ^ 1074) * B2R T).
