(** Specification for C113: problems that differ only in what a planner does
    not look at. *)
From Verif Require Import Vec ModelData ModelDispatch SpecCom.
Open Scope R_scope.

(** Equal flag and states (up to jerk) at both ends. *)
Definition same_ends (p q : problem) : Prop :=
  flag_of p = flag_of q /\ c0 p = c0 q /\ dc0 p = dc0 q /\ ddc0 p = ddc0 q /\ j0 p = j0 q /\
  c1 p = c1 q /\ dc1 p = dc1 q /\ ddc1 p = ddc1 q /\ j1 p = j1 q.

(** Equal contacts, constraint flags and limits, cost and representation, initial
    position and velocity, and the state components that the flag selects; with
    the distance cost also the final position. *)
Definition same_com (p q : problem) : Prop :=
  contacts p = contacts q /\ constr p = constr q /\ costFunction p = costFunction q /\ representation p = representation q /\
  let has b := fl_has (flag_of p) b = true in
  c0 p = c0 q /\ dc0 p = dc0 q /\ (has INIT_ACC -> ddc0 p = ddc0 q) /\
  (has END_POS \/ costFunction p = DISTANCE_TRAVELED -> c1 p = c1 q) /\ (has END_VEL -> dc1 p = dc1 q) /\ (has END_ACC -> ddc1 p = ddc1 q) /\
  (has INIT_JERK -> j0 p = j0 q) /\ (has END_JERK -> j1 p = j1 q).

(** The problem with another final position. *)
Definition with_c1 (p : problem) (c : vec3) : problem :=
  Problem (contacts p) (c0 p) (dc0 p) (ddc0 p) (j0 p) c (dc1 p) (ddc1 p) (j1 p) (l0 p) (useAngularMomentum p) (constr p) (costFunction p) (representation p).
