(** Specification vocabulary for running a problem backwards in time. *)
From Coq Require Import List.
From Verif Require Import Vec ModelData.
Import ListNotations.
Open Scope R_scope.

(** Start and end exchanged, velocities and jerks reversed, phases in the other order. *)
Definition reverse (p : problem) : problem :=
  Problem (rev (contacts p)) (c1 p) (vopp (dc1 p)) (ddc1 p) (vopp (j1 p)) (c0 p) (vopp (dc0 p)) (ddc0 p) (vopp (j0 p))
    (l0 p) (useAngularMomentum p) (constr p) (costFunction p) (representation p).
