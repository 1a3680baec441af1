(** Specification vocabulary for constraints between samples taken at rounded times.  Independent of the model. *)
From Flocq Require Import Core BinarySingleNaN.
From Verif Require Import Vec Double SpecDouble.
Open Scope R_scope.

(** Largest distance between the places where a curve over [0, T] is evaluated for two successive samples:
    steps of [dt]; a duration [d] cut in [p], for [n] phases of total duration [D], T being within [del] of [D]. *)
Definition gap_step (T dt : R) : R := dt + u53 * (dt + 4 * T).
Definition gap_fixed (n p : nat) (D del T d : R) : R := d / INR p + 2 * (2 * INR (n * p + 1) * u53 * D + del) + 3 * u53 * T.
