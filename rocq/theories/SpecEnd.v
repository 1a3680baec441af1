(** Specification vocabulary for plans made with the bundled QP solver. *)
From Verif Require Import Vec SpecBezier SpecTime ModelData ModelDispatch ModelCont ModelSolver ModelTraj ModelQp
  SpecCom SpecCtr SpecTraj.
Open Scope R_scope.

(** The constraints of a contact phase, met up to [tau] for the kinematics and up to
    the slack [sl] for the cone. *)
Definition kin_near (tau : R) (ct : contact) (c : vec3) : Prop :=
  forall i K k, nth_error (cd_Kin ct) i = Some K -> nth_error (cd_kin ct) i = Some k -> vdot K c <= k + tau.
Definition contact_near (pData : problem) (tau sl : R) (ct : contact) (f : R -> vec3) (t : R) : Prop :=
  kin_near tau ct (f t) /\
  exists ph acc, cd_phase ct = Some ph /\ is_deriv_n 2 f t acc /\
    cone_ok (margin pData) sl ph (giw (cp_mass ph) (cp_gravity ph) (f t) acc).
Definition accel_near (pData : problem) (tau : R) (f : R -> vec3) (t : R) : Prop :=
  k_constraintAcceleration (constr pData) = true ->
  exists acc, is_deriv_n 2 f t acc /\ within (k_maxAcceleration (constr pData) + tau) acc.

(** Moving the free point changes the gravito-inertial wrench of a unit mass at the
    time [t] at most [B] times as much. *)
Definition wrench_rate (pData : problem) (T : R) (g : vec3) (B t : R) : Prop :=
  forall x y cvx cvy ax ay, com_curve pData T x = Ok cvx -> com_curve pData T y = Ok cvy ->
    is_deriv_n 2 (cv_fun cvx) t ax -> is_deriv_n 2 (cv_fun cvy) t ay ->
    norm6 (v6sub (giw 1 g (cv_fun cvx t) ax) (giw 1 g (cv_fun cvy t) ay)) <= B * vnorm (vsub x y).

(** The weight of the free point in the cost: 1 for the distance, and for the
    acceleration the sum over the times [ta] of the squared changes. *)
Definition cost_weight (pData : problem) (Ts : list R) (ta : list (R * Z)) (lam : R) : Prop :=
  (costFunction pData = DISTANCE_TRAVELED /\ lam = 1) \/
  (costFunction pData = ACCELERATION /\
   forall x y cvx cvy axs ays, com_curve pData (total Ts) x = Ok cvx -> com_curve pData (total Ts) y = Ok cvy ->
     Forall2 (fun tp a => is_deriv_n 2 (cv_fun cvx) (fst tp) a) ta axs ->
     Forall2 (fun tp a => is_deriv_n 2 (cv_fun cvy) (fst tp) a) ta ays ->
     sum_list (map (fun p => vnorm2 (vsub (fst p) (snd p))) (combine axs ays)) = lam * vnorm2 (vsub x y)).

(** The problem is on the scale of the solver: in units of the cost's weight, no
    constraint is steeper than 2^26.  [B] bounds the rate of the wrench, [kap] the
    length of the rows of the kinematic constraints. *)
Definition on_scale (pData : problem) (lam B kap : R) : Prop :=
  1 <= B /\ 1 <= kap /\ eps52 < lam /\ eps52 * (B * B) < lam * lam /\ eps52 * (kap * kap) < lam * lam /\
  forall c K, In c (contacts pData) -> In K (cd_Kin c) -> vnorm K <= kap.

(** The tolerance of the solver for [n] inequality rows. *)
Definition plan_tol (n : nat) (lam : R) : R := 900 * INR n * eps52 * sqrt lam.

(** The cost of the motion [f] with the free point [x]: for the distance that from
    [x] to the middle of the ends, for the acceleration the sum over the times [ta]. *)
Definition plan_cost (pData : problem) (ta : list (R * Z)) (x : vec3) (f : R -> vec3) (s : R) : Prop :=
  (costFunction pData = DISTANCE_TRAVELED /\ s = vnorm2 (vsub x (mid_of pData))) \/
  (costFunction pData = ACCELERATION /\ sum_acc2 f ta s).
(** No free point gives a motion of lower cost. *)
Definition cheapest (pData : problem) (Ts : list R) (ta : list (R * Z)) (x : vec3) (f : R -> vec3) : Prop :=
  forall y cv s s', com_curve pData (total Ts) y = Ok cv -> plan_cost pData ta x f s -> plan_cost pData ta y (cv_fun cv) s' -> s <= s'.
(** The QP of the planner: rows [r] of constraints fst r . x <= snd r. *)
Definition plan_qp (H : list (list R)) (g : list R) (rows : list (vec3 * R)) : qp :=
  {| qp_H := H; qp_g := g; qp_CE := []; qp_ce0 := [];
     qp_CI := map (fun r => l3 (vopp (fst r))) rows; qp_ci0 := map snd rows |}.
