(** Specification vocabulary for comparing plans of the zero-step problem. *)
From Coq Require Import List Reals.
From Verif Require Import Vec ModelData SpecCtr Spec0Step.
Open Scope R_scope.

(** The step [dt] is one that solve0step is defined for. *)
Definition z_sampling (T dt : R) : Prop := z_no_steps T dt \/ exists N, z_steps T dt N.
(** The free points [x], [xL] meet the constraints of the problem for the step [dt]. *)
Definition z_feasible (p : problem) (ct : contact) (ph : cphase) (T dt : R) (x xL : vec3) : Prop :=
  z_wrench_ok p ph T dt x xL /\ z_geom (useAngularMomentum p) ct x xL.
(** They are a best choice: feasible, and no feasible choice has a smaller criterion. *)
Definition z_least (p : problem) (ct : contact) (ph : cphase) (T dt : R) (x xL : vec3) : Prop :=
  z_feasible p ct ph T dt x xL /\
  forall y yL v w, z_feasible p ct ph T dt y yL -> z_criterion p T x xL v -> z_criterion p T y yL w -> v <= w.
(** The samples for the step [dt] are among those for the step [du]: every instant for no steps at all, else the number of
    steps for [du] is a multiple of that for [dt]. *)
Definition z_refines (T du dt : R) : Prop :=
  z_no_steps T du \/ exists N k, z_steps T dt N /\ (1 <= N)%nat /\ (1 <= k)%nat /\ z_steps T du (k * N).
