(** Specification vocabulary for the continuous formulation. *)
From Verif Require Import Vec SpecBezier SpecTime ModelData ModelDispatch ModelCont SpecCom SpecWp SpecCtr.
Open Scope R_scope.

(** Value at [x] of an affine point, or of a waypoint with three columns. *)
Definition ev_aff (p : aff) (x : vec3) : vec3 := vadd (mvmul (fst p) x) (snd p).
Definition ev_sym (w : wpn) (x : vec3) : vec3 :=
  vadd (fold_right vadd vzero (map (fun m => mvmul m x) (wn_blocks w))) (wn_pt w).

(** No control point of the curve other than the free one is numerically zero. *)
Definition no_zero_point (cv : bcurve) (x : vec3) : Prop :=
  forall p, In p (bc_pts cv) -> vec_isZero p = true -> p = x.

(** ndcurves refuses to cut a curve less than 1/1000 before its end, unless the
    cut is less than 1/1000 after its start. *)
Definition splittable (Ts : list R) : Prop :=
  forall i, (i < length Ts)%nat ->
    phase_start Ts i < 1 / 1000 \/ 1 / 1000 <= total Ts - phase_start Ts i.

(** [t] is in phase [i]. *)
Definition in_phase (Ts : list R) (i : nat) (t : R) : Prop :=
  (i < length Ts)%nat /\ phase_start Ts i <= t <= phase_end Ts i.

(** Acceleration bounded by [B] in every coordinate. *)
Definition accel_within (B : R) (f : R -> vec3) (t : R) : Prop :=
  exists acc, is_deriv_n 2 f t acc /\ within B acc.

(** Number of inequality rows for curves with [n] (position) and [k] (wrench)
    control points. *)
Fixpoint cont_rows_needed (dd : bool) (n k : nat) (cs : list contact) : nat :=
  match cs with
  | [] => 0
  | c :: cs' =>
      (length (cd_kin c) * n
       + (if dd then match cd_phase c with Some ph => length (cp_poly ph) | None => 0 end * k else 0)
       + 6 * (n - 2) + cont_rows_needed dd n k cs')%nat
  end.

(** Equalities and lower bounds of any size. *)
Definition eqX (rows : list (list R * R)) (v : list R) : Prop :=
  Forall (fun r => rdot (fst r) v = snd r) rows.
Definition geX (lower v : list R) : Prop := Forall2 Rle lower v.

(** Non-negative combinations of generators. *)
Definition v6add (a b : v6) : v6 := (vadd (fst a) (fst b), vadd (snd a) (snd b)).
Fixpoint comb (G : list v6) (beta : list R) : v6 :=
  match G, beta with
  | g :: G', k :: beta' => v6add (vscal k (fst g), vscal k (snd g)) (comb G' beta')
  | _, _ => (vzero, vzero)
  end.
Definition in_cone (G : list v6) (w : v6) : Prop :=
  exists beta, length beta = length G /\ Forall (Rle 0) beta /\ comb G beta = w.

(** Generators of a phase, and their number. *)
Definition gens (c : contact) : list v6 := match cd_phase c with Some ph => cp_G ph | None => [] end.
Definition gen_count (c : contact) : nat := length (gens c).

(** The force formulation writes a control point shared by consecutive phases
    once: the last one of phase [i] is left to the next phase if that has no
    more generators; the first one is left to the previous phase if that has
    some but fewer generators. *)
Definition left_to_next (cs : list contact) (i : nat) : Prop :=
  exists c c', nth_error cs i = Some c /\ nth_error cs (S i) = Some c' /\ (gen_count c' <= gen_count c)%nat.
Definition left_to_prev (cs : list contact) (i : nat) : Prop :=
  exists j c c', i = S j /\ nth_error cs j = Some c /\ nth_error cs i = Some c' /\ (0 < gen_count c < gen_count c')%nat.
(** Numbers of control points and of generators of every phase in the force
    formulation, [k] control points in a phase. *)
Fixpoint force_counts (k prev : nat) (cs : list contact) : list (nat * nat) :=
  match cs with
  | [] => []
  | c :: cs' =>
      let n := gen_count c in
      ((k - (if (Nat.ltb 0 prev && Nat.ltb prev n)%bool then 1 else 0)
          - (match cs' with c2 :: _ => if Nat.leb (gen_count c2) n then 1 else 0 | [] => 0 end))%nat, n)
      :: force_counts k n cs'
  end.
Definition force_points (l : list (nat * nat)) : nat := fold_right (fun kn n => (fst kn + n)%nat) 0%nat l.
Definition force_vars (l : list (nat * nat)) : nat := fold_right (fun kn n => (fst kn * snd kn + n)%nat) 0%nat l.

(** Where a phase leaves a control point to its neighbour, the neighbour's
    generators span a smaller cone. *)
Definition cones_nested (cs : list contact) : Prop :=
  forall i c c', nth_error cs i = Some c -> nth_error cs (S i) = Some c' ->
    ((gen_count c' <= gen_count c)%nat -> forall w, in_cone (gens c') w -> in_cone (gens c) w) /\
    ((0 < gen_count c < gen_count c')%nat -> forall w, in_cone (gens c) w -> in_cone (gens c') w).

(** No phase shorter than the smallest piece ndcurves cuts. *)
Definition long_phases (Ts : list R) : Prop := Forall (Rle (1 / 1000)) Ts.

(** [P] are the control points on [[a,b]] of the curve [f], of its
    acceleration, or of the wrench [giw] along it. *)
Definition ctrl_pos (P : list vec3) (a b : R) (f : R -> vec3) : Prop :=
  forall t, f t = curve P (b - a) (t - a).
Definition ctrl_acc (P : list vec3) (a b : R) (f : R -> vec3) : Prop :=
  forall t acc, is_deriv_n 2 f t acc -> acc = curve P (b - a) (t - a).
Definition ctrl_giw (P : list v6) (a b : R) (ph : cphase) (f : R -> vec3) : Prop :=
  forall t acc, is_deriv_n 2 f t acc ->
    giw (cp_mass ph) (cp_gravity ph) (f t) acc = curve6 P (b - a) (t - a).

(** The same problem with constraintAcceleration_ set to [b]. *)
Definition with_acc_flag (pData : problem) (b : bool) : problem :=
  Problem (contacts pData) (c0 pData) (dc0 pData) (ddc0 pData) (j0 pData) (c1 pData) (dc1 pData) (ddc1 pData) (j1 pData)
    (l0 pData) (useAngularMomentum pData)
    (Constraints (k_flag (constr pData)) b (k_maxAcceleration (constr pData)) (k_reduce_h (constr pData)))
    (costFunction pData) (representation pData).

(** [v] is a convex combination of the points [P]. *)
Definition convex_comb (P : list vec3) (v : vec3) : Prop :=
  exists ws, length ws = length P /\ Forall (Rle 0) ws /\ fold_right Rplus 0 ws = 1 /\
    v = fold_right vadd vzero (map (fun wp => vscal (fst wp) (snd wp)) (combine ws P)).

(** Bound on the acceleration: maxAcceleration_ if the curve library puts the
    factor 1/T^2 of the second derivative in its control points, divided by T^2
    if it keeps that factor apart (see ModelNd.nd_derivate1). *)
Definition acc_bound (scaled : bool) (pData : problem) (Ts : list R) : R :=
  if scaled then k_maxAcceleration (constr pData) else k_maxAcceleration (constr pData) / (total Ts * total Ts).

(** Forces that respect the lower bounds handed to the solver (those of x play
    no role for the cones). *)
Definition ge_forces (out : cont_out) (beta : list R) : Prop := geX (skipn 3 (co_min out)) beta.
