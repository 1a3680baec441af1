(** Specification vocabulary for comparing discretised plans: the best motion, and
    problems with fewer or the same constraints. *)
From Verif Require Import Vec SpecBezier SpecTime ModelData ModelDispatch ModelUtils ModelCont ModelSolver ModelTraj
  SpecCom SpecCtr SpecTraj SpecEnd.
Open Scope R_scope.

(** How a plan is asked for: samples every [dt], or [p] samples per phase. *)
Inductive mode := Every (dt : R) | PerPhase (p : nat).
Definition proper (m : mode) : Prop := match m with Every dt => 0 < dt | PerPhase p => (1 <= p)%nat end.
Definition call (scaled wg : bool) quadprog glpk (pData : problem) (Ts : list R) (m : mode) : outcome resultCOM :=
  match m with
  | Every dt => computeCOMTraj scaled wg quadprog glpk pData Ts dt SOLVER_QUADPROG
  | PerPhase p => computeCOMTrajFixedSize scaled wg quadprog glpk pData Ts p
  end.
Definition sampled (Ts : list R) (m : mode) : nat -> R -> Prop :=
  match m with Every dt => sampled_step Ts dt | PerPhase p => sampled_fixed Ts p end.
(** The times of the acceleration cost. *)
Definition cost_times (Ts : list R) (m : mode) (ta : list (R * Z)) : Prop :=
  match m with Every dt => computeDiscretizedTime Ts dt = Ok ta | PerPhase p => ta = computeDiscretizedTimeFixed Ts p end.

(** The cost distinguishes the free points. *)
Definition cost_decides (pData : problem) (Ts : list R) (ta : list (R * Z)) : Prop :=
  costFunction pData = DISTANCE_TRAVELED \/ (costFunction pData = ACCELERATION /\ acc_depends pData Ts ta).

(** [x] with its motion [cv] is feasible, and no feasible motion costs less. *)
Definition best (pData : problem) (Ts : list R) (m : mode) (ta : list (R * Z)) (x : vec3) (cv : bcurve) : Prop :=
  com_curve pData (total Ts) x = Ok cv /\ plan_feasible pData (sampled Ts m) (cv_fun cv) /\
  forall y cvy s s', com_curve pData (total Ts) y = Ok cvy -> plan_feasible pData (sampled Ts m) (cv_fun cvy) ->
    plan_cost pData ta x (cv_fun cv) s -> plan_cost pData ta y (cv_fun cvy) s' -> s <= s'.

(** What all theorems here ask of the inputs. *)
Definition plannable (pData : problem) (Ts : list R) : Prop :=
  well_posed pData Ts /\ (exists g, same_gravity pData g) /\ In (flag_of pData) exact_w_flags.

(** The same motions at the same costs. *)
Definition same_motion (p q : problem) : Prop :=
  flag_of p = flag_of q /\ c0 p = c0 q /\ c1 p = c1 q /\ dc0 p = dc0 q /\ dc1 p = dc1 q /\ ddc0 p = ddc0 q /\ ddc1 p = ddc1 q /\
  j0 p = j0 q /\ j1 p = j1 q /\ costFunction p = costFunction q.

(** The contact [d] asks for no more than [c]: its kinematic constraints follow from those of [c]; the phases have
    the same gravity; every row of its polytope is, up to a positive factor, a row of that of [c] with no greater offset
    (the mass and the length of a row do not matter: C45). *)
Definition same_row (H K : v6) : Prop := exists s, 0 < s /\ fst K = vscal s (fst H) /\ snd K = vscal s (snd H).
Definition eases_contact (c d : contact) : Prop :=
  (forall v, kin_ok c v -> kin_ok d v) /\
  forall ph, cd_phase c = Some ph -> exists ph', cd_phase d = Some ph' /\ 0 < cp_mass ph /\ 0 < cp_mass ph' /\ cp_gravity ph' = cp_gravity ph /\
    forall K k, In (K, k) (cp_poly ph') -> exists H h, In (H, h) (cp_poly ph) /\ same_row H K /\ h <= k.
(** The problem [q] asks for no more than [p]. *)
Definition eases (p q : problem) : Prop :=
  same_motion p q /\ Forall2 eases_contact (contacts p) (contacts q) /\ margin q <= margin p /\
  (k_constraintAcceleration (constr q) = true ->
   k_constraintAcceleration (constr p) = true /\ k_maxAcceleration (constr p) <= k_maxAcceleration (constr q)).
(** Samples of [n] are samples of [m]. *)
Definition finer (m n : mode) : Prop :=
  match m, n with
  | Every dt, Every dt' => exists k, (1 <= k)%nat /\ dt' = INR k * dt
  | PerPhase p, PerPhase p' => exists k, (1 <= k)%nat /\ p = (k * p')%nat
  | _, _ => False
  end.
