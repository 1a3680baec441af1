(** Specification: the wrench of a zero-step plan between two samples.  Independent of the model. *)
From Verif Require Import Vec SpecGap.
Open Scope R_scope.

(** Tolerance for an angular momentum that is a cubic curve over [0, T] with control points of coordinates of at
    most [L], for samples [h] apart. *)
Definition gap_momentum (T L h : R) : R := 3 * rate 3 3 T L * (h * h) / 8.
