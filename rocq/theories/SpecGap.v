(** Specification: constraints that hold up to a tolerance between two samples.  Independent of the model. *)
From Verif Require Import Vec SpecBezier ModelData SpecCom SpecCtr.
Open Scope R_scope.

(** Bound on the [k]-th derivative of a curve of degree [n] over [0, T] whose control points have coordinates
    of at most [M]: differences double the bound, and each derivative multiplies by degree / duration. *)
Fixpoint rate (k n : nat) (T M : R) : R :=
  match k with
  | O => M
  | S k' => rate k' (pred n) T (2 * INR n / T * M)
  end.

(** Tolerances for two samples at most [h] apart: position, wrench (coordinates of gravity of at most [G]),
    acceleration. *)
Definition gap_pos (n : nat) (T M h : R) : R := rate 2 n T M * (h * h) / 8.
Definition gap_acc (n : nat) (T M h : R) : R := rate 4 n T M * (h * h) / 8.
Definition gap_wrench (G : R) (n : nat) (T M h : R) : R :=
  3 * (rate 4 n T M + (2 * rate 2 n T M * G + 4 * rate 1 n T M * rate 3 n T M + 2 * M * rate 4 n T M)) * (h * h) / 8.

Definition norm1 (v : vec3) : R := Rabs (vx v) + Rabs (vy v) + Rabs (vz v).

(** The constraints of contact [ct] hold at time [t] up to [dk] (kinematics) and [sl] (wrench). *)
Definition contact_near (pData : problem) (dk sl : R) (ct : contact) (f : R -> vec3) (t : R) : Prop :=
  (forall i K k, nth_error (cd_Kin ct) i = Some K -> nth_error (cd_kin ct) i = Some k -> vdot K (f t) <= k + norm1 K * dk) /\
  exists ph acc, cd_phase ct = Some ph /\ is_deriv_n 2 f t acc /\
    cone_ok (margin pData) sl ph (giw (cp_mass ph) (cp_gravity ph) (f t) acc).
Definition accel_near (pData : problem) (da : R) (f : R -> vec3) (t : R) : Prop :=
  k_constraintAcceleration (constr pData) = true ->
  exists acc, is_deriv_n 2 f t acc /\ within (k_maxAcceleration (constr pData) + da) acc.
