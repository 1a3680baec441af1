(** Specification vocabulary for the zero-step capture problem. *)
From Verif Require Import Vec SpecBezier ModelData ModelDispatch ModelNd ModelCont SpecCom SpecWp SpecCtr ModelTraj Model0Step.
Open Scope R_scope.

(** Gravito-inertial wrench of a mass [m] at [c] with acceleration [acc] under
    gravity [g], when the angular momentum changes at the rate [dl]. *)
Definition giwL (m : R) (g c acc dl : vec3) : v6 :=
  (vscal m (vsub g acc), vsub (vscal m (vcross c (vsub g acc))) dl).
(** The wrench [w] is in the cone H w <= 0 of the phase. *)
Definition cone0 (ph : cphase) (w : v6) : Prop := Forall (fun Hh => dot6 (fst Hh) w <= 0) (cp_poly ph).

(** Motion and angular momentum that the two free points [x], [xL] stand for:
    cubic Bezier curves, the motion with given initial position and velocity and
    at rest at [x], the angular momentum going from l0 to 0, where it stays. *)
Definition z_motion (c0 dc0 : vec3) (T : R) (x : vec3) : R -> vec3 :=
  curve [c0; vadd c0 (vscal (T / 3) dc0); x; x] T.
Definition z_momentum (l0 : vec3) (T : R) (xL : vec3) : R -> vec3 := curve [l0; xL; vzero; vzero] T.
(** [dl] is the rate of change of the angular momentum at [t]: zero if it is not
    taken into account. *)
Definition z_rate (useAng : bool) (l0 : vec3) (T : R) (xL : vec3) (t : R) (dl : vec3) : Prop :=
  if useAng then is_deriv_n 1 (z_momentum l0 T xL) t dl else dl = vzero.
(** Vector of unknowns. *)
Definition z_vec (useAng : bool) (x xL : vec3) : list R := if useAng then l3 x ++ l3 xL else l3 x.
(** The inequalities of the problem as rows, one right-hand side each. *)
Definition z_ineqs (useAng : bool) (Ab : list zrow) : list (list R * R) :=
  map (fun r => (z_row_list useAng r, zr_b r)) Ab.

(** The wrench along the motion at time [t] is in the cone. *)
Definition z_stable (ph : cphase) (useAng : bool) (c0 dc0 l0 : vec3) (T : R) (x xL : vec3) (t : R) : Prop :=
  forall acc dl, is_deriv_n 2 (z_motion c0 dc0 T x) t acc -> z_rate useAng l0 T xL t dl ->
    cone0 ph (giwL (cp_mass ph) (cp_gravity ph) (z_motion c0 dc0 T x t) acc dl).
(** The five control points of the wrench, a curve of degree 4, are in the cone. *)
Definition z_stable_ctrl (ph : cphase) (useAng : bool) (c0 dc0 l0 : vec3) (T : R) (x xL : vec3) : Prop :=
  exists P, length P = 5%nat /\ Forall (cone0 ph) P /\
    forall t acc dl, is_deriv_n 2 (z_motion c0 dc0 T x) t acc -> z_rate useAng l0 T xL t dl ->
      giwL (cp_mass ph) (cp_gravity ph) (z_motion c0 dc0 T x t) acc dl = curve6 P T t.

(** The user's angular momentum constraint, on the free point. *)
Definition ang_ok (ct : contact) (xL : vec3) : Prop :=
  forall i A a, nth_error (cd_Ang ct) i = Some A -> nth_error (cd_ang ct) i = Some a -> vdot A xL <= a.
(** What is constrained in the place of Kin x <= kin and Ang xL <= ang when the
    angular momentum is taken into account: with nk and na rows in kin_ and ang_,
    nk + na rows of which row [j] has  Kin_j x  if j < nk,  Kin_(j-na) xL  if
    na <= j, and the right-hand side kin_(j-na) if na <= j, else kin_j if
    j < nk, else 0. *)
Definition z_mixed (ct : contact) (x xL : vec3) : Prop :=
  let nk := length (cd_kin ct) in
  let na := length (cd_ang ct) in
  let K j := nth j (cd_Kin ct) vzero in
  let k j := nth j (cd_kin ct) 0 in
  forall j, (j < nk + na)%nat ->
    (if Nat.ltb j nk then vdot (K j) x else 0)
    + (if Nat.leb na j then vdot (K (j - na)%nat) xL else 0)
    <= if Nat.leb na j then k (j - na)%nat else if Nat.ltb j nk then k j else 0.
Definition z_geom (useAng : bool) (ct : contact) (x xL : vec3) : Prop :=
  if useAng then z_mixed ct x xL else kin_ok ct x.

(** Value of the returned angular momentum derivative. *)
Definition dL_fun (cv : ndc vec3) (t : R) : vec3 :=
  vscal (nd_mult cv) (curve (nd_pts cv) (nd_max cv - nd_min cv) (t - nd_min cv)).
(** [v] is the integral of [f] over [a, b]. *)
Definition integral (f : R -> R) (a b v : R) : Prop := exists pr : Riemann_integrable f a b, RiemannInt pr = v.
Definition integral3 (f : R -> vec3) (a b : R) (v : vec3) : Prop :=
  integral (fun t => vx (f t)) a b (vx v) /\ integral (fun t => vy (f t)) a b (vy v) /\
  integral (fun t => vz (f t)) a b (vz v).
(** Same contact with other angular momentum constraints. *)
Definition with_ang (ct : contact) (Ang : list vec3) (ang : list R) : contact :=
  Contact (cd_phase ct) (cd_Kin ct) (cd_kin ct) Ang ang.

(** The result [r] is the motion and the angular momentum of [x] and [xL]. *)
Definition z_plan (pData : problem) (T : R) (r : result0) (x xL : vec3) : Prop :=
  let useAng := useAngularMomentum pData in
  r0_success r = true /\ r0_x r = z_vec useAng x xL /\
  bc_T (r0_c r) = T /\ (forall t, cv_fun (r0_c r) t = z_motion (c0 pData) (dc0 pData) T x t) /\
  nd_min (r0_dL r) = 0 /\ nd_max (r0_dL r) = T /\
  (forall t, z_rate useAng (l0 pData) T xL t (dL_fun (r0_dL r) t)).
(** Inputs the code relies on: one phase, one positive duration. *)
Definition z_posed (pData : problem) (Ts : list R) (ct : contact) (ph : cphase) (T : R) : Prop :=
  contacts pData = [ct] /\ Ts = [T] /\ 0 < T /\ contact_wf ct /\ cd_phase ct = Some ph.
(** The samples of a step [dt]: [N] steps. *)
Definition z_steps (T dt : R) (N : nat) : Prop :=
  0 < dt /\ INR N <= T / dt < INR N + 1 /\ (Z.of_nat N <= 2147483647)%Z.
(** No sampling: no positive step, or a step longer than the motion. *)
Definition z_no_steps (T dt : R) : Prop := dt <= 0 \/ z_steps T dt 0.
(** Constraints on the free points that the wrench is in the cone. *)
Definition z_wrench_ok (pData : problem) (ph : cphase) (T dt : R) (x xL : vec3) : Prop :=
  let useAng := useAngularMomentum pData in
  (z_no_steps T dt -> z_stable_ctrl ph useAng (c0 pData) (dc0 pData) (l0 pData) T x xL) /\
  (forall N, z_steps T dt N -> (1 <= N)%nat -> forall i, (i <= N)%nat ->
     z_stable ph useAng (c0 pData) (dc0 pData) (l0 pData) T x xL (INR i * (T / INR N))).
(** Weight of the distance in the criterion. *)
Definition z_weight (useAng : bool) : R := if useAng then 1 / 10000 else 1.
(** [v] is the criterion for [x], [xL]: weighted squared distance plus T times
    the integral of the squared rate of change of the angular momentum. *)
Definition z_criterion (pData : problem) (T : R) (x xL : vec3) (v : R) : Prop :=
  let useAng := useAngularMomentum pData in
  exists d i, (forall t, z_rate useAng (l0 pData) T xL t (d t)) /\ integral (fun t => vnorm2 (d t)) 0 T i /\
    v = z_weight useAng * vnorm2 (vsub x (c0 pData)) + T * i.
