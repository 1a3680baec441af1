(** Specification vocabulary for samples of the curve computed in double arithmetic. *)
From Flocq Require Import Core BinarySingleNaN.
From Coq Require Import List.
From Verif Require Import Vec SpecBezier ModelData ModelDispatch SpecCom Double ModelPtsDouble SpecDouble SpecPtsDouble.
Import ListNotations.
Open Scope R_scope.

(** Largest coordinate, along an axis, that the required states and the free point can give to a control point. *)
Definition extent (T : R) (pData : problem) (x : vec3) (ax : vec3 -> R) : R :=
  Rmax (reach T (map ax (start_state pData))) (reach T (map ax (end_state pData))) + Rabs (ax x).

(** Error of a sampled position, of a sampled acceleration: curve of degree [n], duration [T], extent [S]. *)
Definition pos_err (n : nat) (T S : R) : R := 2 ^ (2 * n + 3) * u53 * S + 2 ^ 40 * eta * ((1 + T) ^ 2 + S).
Definition acc_err (n : nat) (T S : R) : R := 2 ^ (3 * n + 1) * u53 * (S / T ^ 2) + 2 ^ 40 * eta * ((1 + / T ^ 2) * ((1 + T) ^ 2 + S)).

(** The point [a x + b] of two coefficients in doubles, in exact arithmetic. *)
Definition at_free (c : f64 * fvec) (x : vec3) : vec3 := vadd (vscal (B2R (fst c)) x) (fv_R (snd c)).
Definition finite_coefs (c : f64 * fvec) : Prop := is_finite (fst c) = true /\ finite3 (snd c).

(** Sample times: finite, not negative. *)
Definition times_ok (ta : list (f64 * Z)) : Prop := Forall (fun tp => is_finite (fst tp) = true /\ 0 <= B2R (fst tp)) ta.

Definition degree (cv : bcurve) : nat := length (bc_pts cv) - 1.
