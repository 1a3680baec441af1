(** IEEE double arithmetic: Flocq's binary64 numbers, rounding to nearest even, infinities and NaN
    included (one NaN: payloads are not observed). *)
From Flocq Require Import Core BinarySingleNaN.
From Verif Require Import Vec.
Open Scope bool_scope.
Open Scope Z_scope.

Definition f64 : Set := binary_float 53 1024.
Global Instance prec_pos : Prec_gt_0 53 := eq_refl.
Global Instance prec_emax : Prec_lt_emax 53 1024 := eq_refl.

(** operators and constants of double *)
Definition fadd (x y : f64) : f64 := Bplus mode_NE x y.
Definition fmul (x y : f64) : f64 := Bmult mode_NE x y.
Definition fdiv (x y : f64) : f64 := Bdiv mode_NE x y.
Definition flt (x y : f64) : bool := Bltb x y.
Definition fle (x y : f64) : bool := Bleb x y.
Definition f0 : f64 := B754_zero false.
Definition f1 : f64 := Bone.
(** conversion of an integer *)
Definition of_Z (n : Z) : f64 := binary_normalize 53 1024 prec_pos prec_emax mode_NE n 0 false.
(** [std::min(a, b)] is [(b < a) ? b : a] *)
Definition fmin (a b : f64) : f64 := if flt b a then b else a.
(** conversion to int: towards zero; infinities, NaN and what does not fit are undefined *)
Definition f_to_int (x : f64) : outcome Z :=
  if is_finite x then
    let z := Btrunc x in
    if (-2147483648 <=? z) && (z <=? 2147483647) then Ok z else UB
  else UB.
