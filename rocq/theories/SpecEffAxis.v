(** Specification vocabulary for C107. *)
From Verif Require Import Vec ModelData ModelDispatch.
Open Scope R_scope.

(** [m] has the first coordinate of [p], the second of [q] and the third of [o]. *)
Definition combines (m p q o : vec3) : Prop := vx m = vx p /\ vy m = vy q /\ vz m = vz o.
(** The start and end states of the problem [m] combine those of [p], [q] and [o] like that. *)
Definition combined (m p q o : problem) : Prop :=
  combines (c0 m) (c0 p) (c0 q) (c0 o) /\ combines (dc0 m) (dc0 p) (dc0 q) (dc0 o) /\
  combines (ddc0 m) (ddc0 p) (ddc0 q) (ddc0 o) /\ combines (j0 m) (j0 p) (j0 q) (j0 o) /\
  combines (c1 m) (c1 p) (c1 q) (c1 o) /\ combines (dc1 m) (dc1 p) (dc1 q) (dc1 o) /\
  combines (ddc1 m) (ddc1 p) (ddc1 q) (ddc1 o) /\ combines (j1 m) (j1 p) (j1 q) (j1 o).
