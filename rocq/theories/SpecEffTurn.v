(** Specification vocabulary for C108. *)
From Verif Require Import Vec ModelData ModelDispatch.
Open Scope R_scope.

(** A quarter turn about the vertical axis, and the reflection that changes the sign of the first coordinate. *)
Definition quarter_turn (u : vec3) : vec3 := V3 (- vy u) (vx u) (vz u).
Definition reflection (u : vec3) : vec3 := V3 (- vx u) (vy u) (vz u).
(** The problem [q] has the start and end states of [p] transformed by [g], and the same flag. *)
Definition transformed (g : vec3 -> vec3) (p q : problem) : Prop :=
  flag_of q = flag_of p /\ c0 q = g (c0 p) /\ dc0 q = g (dc0 p) /\ ddc0 q = g (ddc0 p) /\ j0 q = g (j0 p) /\
  c1 q = g (c1 p) /\ dc1 q = g (dc1 p) /\ ddc1 q = g (ddc1 p) /\ j1 q = g (j1 p).
