(** Specification vocabulary for phase durations and sampled times.
    Independent of the model. *)
From Verif Require Import Vec.
Open Scope R_scope.

Fixpoint total (l : list R) : R := match l with [] => 0 | a :: l' => a + total l' end.

(** Phase [i] lasts from [phase_start Ts i] to [phase_end Ts i]. *)
Definition phase_start (Ts : list R) (i : nat) : R := total (firstn i Ts).
Definition phase_end (Ts : list R) (i : nat) : R := total (firstn (S i) Ts).

(** [e] is reached from [s] by [n] steps of [dt], and not by [n - 1]. *)
Definition steps_to (s e dt : R) (n : nat) : Prop :=
  e <= s + INR n * dt /\ forall k, (k < n)%nat -> s + INR k * dt < e.

(** Samples of a phase from [s] to [e], fixed step: s, s+dt, ... < e, then e. *)
Definition step_samples (s e dt : R) (n : nat) : list R :=
  map (fun k => s + INR k * dt) (seq 0 n) ++ [e].
(** Samples of a phase of duration [d] starting at [s], fixed count:
    fractions 1/p, ..., p/p. *)
Definition frac_samples (s d : R) (p : nat) : list R :=
  map (fun j => s + INR j / INR p * d) (seq 1 p).

(** Concatenation of per-phase lists of times, each tagged with its phase. *)
Fixpoint tagged_from (i : Z) (bs : list (list R)) : list (R * Z) :=
  match bs with
  | [] => []
  | b :: bs' => map (fun t => (t, i)) b ++ tagged_from (i + 1) bs'
  end.
Definition tagged (bs : list (list R)) : list (R * Z) := tagged_from 0 bs.

(** [t] is a sampled time of phase [i] (ends included). *)
Definition sampled_fixed (Ts : list R) (p i : nat) (t : R) : Prop :=
  exists j d, (j <= p)%nat /\ nth_error Ts i = Some d /\
    t = phase_start Ts i + INR j / INR p * d.
Definition sampled_step (Ts : list R) (dt : R) (i : nat) (t : R) : Prop :=
  (i < length Ts)%nat /\
  (t = phase_end Ts i \/
   exists k, t = phase_start Ts i + INR k * dt /\ t < phase_end Ts i).

(** [s] is the index of the last pair of [ta] tagged [i]. *)
Definition last_tagged (ta : list (R * Z)) (i : nat) (s : Z) : Prop :=
  exists k, s = Z.of_nat k /\ (exists t, nth_error ta k = Some (t, Z.of_nat i)) /\
    forall k' t', (k < k')%nat -> nth_error ta k' <> Some (t', Z.of_nat i).

