(** Specification vocabulary for moving a zero-step problem to another place (see SpecMove.v). *)
From Coq Require Import List Reals.
From Verif Require Import Vec ModelData.
Import ListNotations.
Open Scope R_scope.

(** The origin may be shifted by [v]: without angular momentum, or without rows in ang_; see C102_origin_refuted. *)
Definition z_shifts_freely (p : problem) (ct : contact) (v : vec3) : Prop :=
  v = vzero \/ useAngularMomentum p = false \/ cd_ang ct = [].
