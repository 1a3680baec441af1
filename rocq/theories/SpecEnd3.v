(** Specification vocabulary for the accuracy of the bundled QP solver and for the
    zero-step capture problem solved with it. *)
From Verif Require Import Vec SpecBezier ModelData ModelDispatch ModelCont ModelSolver ModelTraj Model0Step ModelQp
  SpecCom SpecWp SpecCtr SpecTraj Spec0Step.
Open Scope R_scope.

(** The accuracy of the solver for [n] variables, [m] inequality rows and a Hessian
    of trace [tr] that is at least [lam] times the identity. *)
Definition accuracy (n m : nat) (tr lam : R) : R := 100 * INR n * INR m * eps52 * tr / sqrt lam.

(** The zero-step problem is on the scale of the solver.  [M] bounds the initial
    position and the position it would have a third of the duration later, [kap] the
    rows of Kin_. *)
Definition z_steepness (pData : problem) (ph : cphase) (T M : R) : R :=
  cp_mass ph * (6 * (1 + M) / (T * T) + vnorm (cp_gravity ph)) + (if useAngularMomentum pData then 3 / T else 0).
Definition z_on_scale (pData : problem) (ct : contact) (ph : cphase) (T M kap : R) : Prop :=
  let lam := z_weight (useAngularMomentum pData) in
  let B := z_steepness pData ph T M in
  vnorm (c0 pData) <= M /\ vnorm (vadd (c0 pData) (vscal (T / 3) (dc0 pData))) <= M /\
  (forall K, In K (cd_Kin ct) -> vnorm K <= kap) /\
  eps52 * (B * B) < lam * lam /\ eps52 * (2 * (kap * kap)) < lam * lam.
(** Number of constraint rows for [k] points of the wrench. *)
Definition z_rows (useAng : bool) (ct : contact) (ph : cphase) (k : nat) : nat :=
  (k * length (cp_poly ph) + length (cd_kin ct) + (if useAng then length (cd_ang ct) else 0))%nat.
(** The tolerance of the plan for [n] constraint rows. *)
Definition z_tol (useAng : bool) (n : nat) : R := (if useAng then 216018 else 900) * INR n * eps52.

(** The wrench [w] is in the cone up to [tau], with the rows of unit length. *)
Definition cone0_near (tau : R) (ph : cphase) (w : v6) : Prop :=
  Forall (fun Hh => dot6 (fst Hh) w <= tau * norm6 (fst Hh)) (cp_poly ph).
(** Same contact with kin_ increased by [tau]. *)
Definition loosen (tau : R) (ct : contact) : contact :=
  Contact (cd_phase ct) (cd_Kin ct) (map (fun k => k + tau) (cd_kin ct)) (cd_Ang ct) (cd_ang ct).
(** The reported cost is the integral of the squared rate of change of the angular
    momentum times T, or the distance to the initial position. *)
Definition z_cost_reported (pData : problem) (T : R) (r : result0) (x : vec3) : Prop :=
  if useAngularMomentum pData then
    exists v, integral (fun t => vnorm2 (dL_fun (r0_dL r) t)) 0 T v /\ r0_cost r = T * v
  else r0_cost r = vnorm (vsub (c0 pData) x) /\ forall t, dL_fun (r0_dL r) t = vzero.
(** The QP: rows [r] of constraints fst r . x <= snd r. *)
Definition ineq_qp (H : list (list R)) (g : list R) (rows : list (list R * R)) : qp :=
  {| qp_H := H; qp_g := g; qp_CE := []; qp_ce0 := []; qp_CI := map (map Ropp) (map fst rows); qp_ci0 := map snd rows |}.
