(** Specification vocabulary for the sampled costs of the end effector. *)
From Verif Require Import Vec SpecBezier ModelData ModelDispatch ModelCont ModelEff SpecCom SpecTraj Spec0Step SpecEff.
Open Scope R_scope.

(** The [k]-th of [N] equally spaced samples of [0,1]. *)
Definition sample (N k : nat) : R := INR k * (1 / (INR N - 1)).
(** Sum of the squared lengths of [v 0], ..., [v (N-1)]. *)
Definition sum_sq (N : nat) (v : nat -> vec3) : R := sum_list (map (fun k => vnorm2 (v k)) (seq 0 N)).
(** [v k] is what [eval] gives at the sample [k] for the free points [xs]. *)
Definition evaluated (eval : problem -> R -> list vec3 -> R -> outcome wpn) (pData : problem) (T : R) (N : nat)
  (xs : list vec3) (v : nat -> vec3) : Prop :=
  exists pi, computeConstantWaypoints pData T = Ok pi /\
    forall k, (k < N)%nat -> exists w, eval pData T pi (sample N k) = Ok w /\ v k = ev_wpn w xs.
(** [v k] is the [m]-th derivative of the motion [f] of duration [T] at the sample [k]. *)
Definition derivs (m : nat) (f : R -> vec3) (T : R) (N : nat) (v : nat -> vec3) : Prop :=
  forall k, (k < N)%nat -> is_deriv_n m f (sample N k * T) (v k).
(** [xs] with all points but the [i]-th moved to the origin. *)
Definition only (i : nat) (xs : list vec3) : list vec3 :=
  map (fun j => if Nat.eqb j i then nth j xs vzero else vzero) (seq 0 (length xs)).
Definition origin (n : nat) : list vec3 := repeat vzero n.
(** Sizes of a cost for [n] variables. *)
Definition cost_size (n : nat) (H : list (list R)) (g : list R) : Prop :=
  length H = n /\ Forall (fun r => length r = n) H /\ length g = n.
