(** Specification: what the constraints of a plan mean. *)
From Verif Require Import Vec SpecBezier SpecTime ModelData ModelDispatch SpecCom.
Open Scope R_scope.

(** x satisfies A x <= b, row by row. *)
Definition sat (rows : list (vec3 * R)) (x : vec3) : Prop :=
  Forall (fun r => vdot (fst r) x <= snd r) rows.

Definition dot6 (a b : v6) : R := vdot (fst a) (fst b) + vdot (snd a) (snd b).
Definition norm6 (a : v6) : R := sqrt (dot6 a a).

(** Gravito-inertial wrench of a mass [m] at [c] with acceleration [acc]
    under gravity [g]: what the contacts have to balance. *)
Definition giw (m : R) (g c acc : vec3) : v6 :=
  (vscal m (vsub g acc), vscal m (vcross c (vsub g acc))).
(** Same with gravity [g] in the force part and [gm] in the moment part. *)
Definition giw2 (m : R) (g gm c acc : vec3) : v6 :=
  (vscal m (vsub g acc), vscal m (vcross c (vsub gm acc))).

(** Kinematic constraints Kin c <= kin of a contact phase. *)
Definition kin_ok (ct : contact) (c : vec3) : Prop :=
  forall i K k, nth_error (cd_Kin ct) i = Some K -> nth_error (cd_kin ct) i = Some k -> vdot K c <= k.

(** Wrench [w] is inside the polytope of the phase: for each row (H, h), with
    the margin [red] and slack [sl],
    H.w <= m |H| (h - red + sl).  (For h = 0, m = 1, |H| = 1: H.w <= -red.) *)
Definition cone_ok (red sl : R) (ph : cphase) (w : v6) : Prop :=
  Forall (fun Hh => dot6 (fst Hh) w <= cp_mass ph * norm6 (fst Hh) * (snd Hh - red + sl)) (cp_poly ph).
(** margin of a problem: reduce_h if positive *)
Definition margin (pData : problem) : R := Rmax 0 (k_reduce_h (constr pData)).

(** At time [t] the trajectory [f] satisfies all constraints of contact [ct]. *)
Definition contact_ok (pData : problem) (sl : R) (ct : contact) (f : R -> vec3) (t : R) : Prop :=
  kin_ok ct (f t) /\
  exists ph acc, cd_phase ct = Some ph /\ is_deriv_n 2 f t acc /\
    cone_ok (margin pData) sl ph (giw (cp_mass ph) (cp_gravity ph) (f t) acc).
(** acceleration bound, when requested *)
Definition accel_ok (pData : problem) (f : R -> vec3) (t : R) : Prop :=
  k_constraintAcceleration (constr pData) = true ->
  exists acc, is_deriv_n 2 f t acc /\ within (k_maxAcceleration (constr pData)) acc.

(** Inputs the code relies on: as many phases as durations, positive
    durations, no null contact phase, positive mass, no zero row in a polytope,
    at least as many rows in Kin_ as in kin_. *)
Definition contact_wf (c : contact) : Prop :=
  exists ph, cd_phase c = Some ph /\ 0 < cp_mass ph /\
    Forall (fun Hh => fst Hh <> (vzero, vzero)) (cp_poly ph) /\
    (length (cd_kin c) <= length (cd_Kin c))%nat.
Definition well_posed (pData : problem) (Ts : list R) : Prop :=
  In (flag_of pData) com_flags /\ (flag_of pData = F_capture -> dc1 pData = vzero) /\
  Ts <> [] /\ Forall (Rlt 0) Ts /\ length (contacts pData) = length Ts /\
  Forall contact_wf (contacts pData).
Definition same_gravity (pData : problem) (g : vec3) : Prop :=
  forall c ph, In c (contacts pData) -> cd_phase c = Some ph -> cp_gravity ph = g.

(** Number of inequality rows a discretised problem needs: each phase's rows at
    each of its [n i] sampled times, and six acceleration rows per time. *)
Fixpoint rows_needed (cs : list contact) (n : nat -> nat) (i : nat) : nat :=
  match cs with
  | [] => 0
  | c :: cs' =>
      ((match cd_phase c with Some ph => length (cp_poly ph) | None => 0 end + length (cd_kin c)) * n i
       + rows_needed cs' n (S i))%nat
  end.
(** Six acceleration rows at each of [m] sampled times, if requested. *)
Definition acc_needed (pData : problem) (m : nat) : nat :=
  if k_constraintAcceleration (constr pData) then (6 * m)%nat else 0%nat.
