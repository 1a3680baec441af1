(** Specification vocabulary for mixtures of motions. *)
From Verif Require Import Vec.
Open Scope R_scope.

(** The point that divides the way from [x] to [y] in the ratio l : 1 - l. *)
Definition mixed (l : R) (x y : vec3) : vec3 := vadd (vscal (1 - l) x) (vscal l y).
