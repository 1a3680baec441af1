(** Specification vocabulary for changing the units of length and time. *)
From Coq Require Import List.
From Verif Require Import Vec ModelData SpecCtr SpecBest.
Import ListNotations.
Open Scope R_scope.

(** Lengths become [l] times, times [u] times as large as numbers; the mass keeps its unit.  Accelerations and the offsets
    and margin (force by mass) get the factor l / u^2; a row of a polytope applies to moments, which have one length more than
    forces. *)
Definition units_row (l : R) (H : v6) : v6 := (fst H, vscal (/ l) (snd H)).
Definition units_phase (l u : R) (ph : cphase) : cphase :=
  CPhase (map (fun Hh => (units_row l (fst Hh), l / u ^ 2 * snd Hh)) (cp_poly ph)) (cp_mass ph) (vscal (l / u ^ 2) (cp_gravity ph))
    (map (fun w => (vscal (l / u ^ 2) (fst w), vscal (l ^ 2 / u ^ 2) (snd w))) (cp_G ph)).
Definition units_contact (l u : R) (c : contact) : contact :=
  Contact (option_map (units_phase l u) (cd_phase c)) (cd_Kin c) (map (Rmult l) (cd_kin c)) (cd_Ang c) (map (Rmult (l ^ 2 / u)) (cd_ang c)).
Definition units (l u : R) (p : problem) : problem :=
  Problem (map (units_contact l u) (contacts p)) (vscal l (c0 p)) (vscal (l / u) (dc0 p)) (vscal (l / u ^ 2) (ddc0 p)) (vscal (l / u ^ 3) (j0 p))
    (vscal l (c1 p)) (vscal (l / u) (dc1 p)) (vscal (l / u ^ 2) (ddc1 p)) (vscal (l / u ^ 3) (j1 p)) (vscal (l ^ 2 / u) (l0 p)) (useAngularMomentum p)
    (Constraints (k_flag (constr p)) (k_constraintAcceleration (constr p)) (l / u ^ 2 * k_maxAcceleration (constr p)) (l / u ^ 2 * k_reduce_h (constr p)))
    (costFunction p) (representation p).
Definition units_mode (u : R) (m : mode) : mode := match m with Every dt => Every (u * dt) | PerPhase n => PerPhase n end.

(** The offsets of the rows are the margin (for instance, both zero), unless the unit of length stays. *)
Definition length_free (p : problem) (l : R) : Prop :=
  l = 1 \/ forall c ph Hh, In c (contacts p) -> cd_phase c = Some ph -> In Hh (cp_poly ph) -> snd Hh = margin p.
