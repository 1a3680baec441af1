(** Specification vocabulary for the end-effector curve with five free points (see SpecEff.v). *)
From Coq Require Import List Reals.
From Verif Require Import Vec SpecBezier ModelData ModelDispatch ModelCont SpecCom SpecEff.
Import ListNotations.
Open Scope R_scope.

(** The curve of degree 10 that starts with the first four control points of [cv], goes on with the first three of the five
    free points [xs] and two points at the origin, and ends with the control points 9 and 10 of [cv] (which has 13). *)
Definition of_ten (cv : bcurve) (T : R) (xs : list vec3) : bcurve :=
  BCurve ([point_of cv 0; point_of cv 1; point_of cv 2; point_of cv 3] ++ firstn 3 xs ++
          [vzero; vzero; point_of cv 9; point_of cv 10]) T.
Definition sum_points (xs : list vec3) : vec3 := fold_right vadd vzero xs.
