(** Specification vocabulary for moving a problem to another place: a rotation followed by a translation of the world. *)
From Coq Require Import List.
From Verif Require Import Vec ModelData ModelTraj SpecCtr.
Import ListNotations.
Open Scope R_scope.

(** [Q] turns the world: it keeps products, and has an inverse. *)
Definition rotation (Q : mat3) : Prop :=
  (forall a b, vdot (mvmul Q a) (mvmul Q b) = vdot a b) /\
  (forall a b, mvmul Q (vcross a b) = vcross (mvmul Q a) (mvmul Q b)) /\
  exists Q', forall a, mvmul Q (mvmul Q' a) = a.
(** Where a point goes. *)
Definition place (Q : mat3) (v c : vec3) : vec3 := vadd (mvmul Q c) v.

(** A row H of a polytope of wrenches (force, moment about the origin) such that H'.w' = H.w for a wrench moved with the world;
    the generators G are such wrenches. *)
Definition move_row (Q : mat3) (v : vec3) (H : v6) : v6 := (vsub (mvmul Q (fst H)) (vcross (mvmul Q (snd H)) v), mvmul Q (snd H)).
Definition move_wrench (Q : mat3) (v : vec3) (w : v6) : v6 := (mvmul Q (fst w), vadd (mvmul Q (snd w)) (vcross v (mvmul Q (fst w)))).
Definition move_phase (Q : mat3) (v : vec3) (ph : cphase) : cphase :=
  CPhase (map (fun Hh => (move_row Q v (fst Hh), snd Hh)) (cp_poly ph)) (cp_mass ph) (mvmul Q (cp_gravity ph)) (map (move_wrench Q v) (cp_G ph)).
(** The rows K.c <= k become (Q K).c' <= k + (Q K).v *)
Definition move_contact (Q : mat3) (v : vec3) (c : contact) : contact :=
  Contact (option_map (move_phase Q v) (cd_phase c)) (map (mvmul Q) (cd_Kin c))
    (map (fun Kk => snd Kk + vdot (mvmul Q (fst Kk)) v) (combine (cd_Kin c) (cd_kin c))) (map (mvmul Q) (cd_Ang c)) (cd_ang c).
Definition move (Q : mat3) (v : vec3) (p : problem) : problem :=
  Problem (map (move_contact Q v) (contacts p)) (place Q v (c0 p)) (mvmul Q (dc0 p)) (mvmul Q (ddc0 p)) (mvmul Q (j0 p))
    (place Q v (c1 p)) (mvmul Q (dc1 p)) (mvmul Q (ddc1 p)) (mvmul Q (j1 p)) (mvmul Q (l0 p)) (useAngularMomentum p) (constr p) (costFunction p) (representation p).

(** No acceleration bound, unless the world is not turned: the code bounds each coordinate. *)
Definition turns_freely (p : problem) (Q : mat3) : Prop := k_constraintAcceleration (constr p) = true -> forall a, mvmul Q a = a.
(** The offsets of the rows are the margin (for instance, both zero), unless the origin stays. *)
Definition shifts_freely (p : problem) (v : vec3) : Prop :=
  v = vzero \/ forall c ph Hh, In c (contacts p) -> cd_phase c = Some ph -> In Hh (cp_poly ph) -> snd Hh = margin p.
