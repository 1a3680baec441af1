(** Specification vocabulary for C109. *)
From Verif Require Import Vec ModelData ModelDispatch.
Open Scope R_scope.

(** The problem [q] is [p] with the start and end positions moved by [v]; velocities, accelerations, jerks and flag are those of [p]. *)
Definition moved_by (v : vec3) (p q : problem) : Prop :=
  flag_of q = flag_of p /\ c0 q = vadd (c0 p) v /\ dc0 q = dc0 p /\ ddc0 q = ddc0 p /\ j0 q = j0 p /\
  c1 q = vadd (c1 p) v /\ dc1 q = dc1 p /\ ddc1 q = ddc1 p /\ j1 q = j1 p.
