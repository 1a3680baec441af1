(** Property theorems C25 - C28: the zero-step capture problem, solve0step.
    Vocabulary: Spec0Step.v, SpecTraj.v ([qp_sound], [qp_solves]).  With
    assertions off and inputs as in [z_posed]: one contact phase, one positive
    duration. *)
From Verif Require Import Vec SpecBezier ModelData ModelDispatch ModelCont ModelSolver ModelTraj Model0Step
  SpecCom SpecWp SpecCtr SpecSolver SpecTraj Spec0Step Proof0Step Proof0Step2 Proof0Step3.
Open Scope R_scope.

(** C25: without a positive time step (or with one longer than the motion). *)
Theorem C25_plan : forall with_glpk quadprog glpk pData Ts ct ph T dt, z_posed pData Ts ct ph T ->
  forall r, qp_sound quadprog -> z_no_steps T dt ->
  solve0step with_glpk quadprog glpk pData Ts dt = Ok r -> r0_success r = true -> exists x xL,
  z_plan pData T r x xL /\
  cv_fun (r0_c r) 0 = c0 pData /\ is_deriv_n 1 (cv_fun (r0_c r)) 0 (dc0 pData) /\
  cv_fun (r0_c r) T = x /\ is_deriv_n 1 (cv_fun (r0_c r)) T vzero /\
  (forall t acc, 0 <= t <= T -> is_deriv_n 2 (cv_fun (r0_c r)) t acc ->
    cone0 ph (giwL (cp_mass ph) (cp_gravity ph) (cv_fun (r0_c r) t) acc (dL_fun (r0_dL r) t))) /\
  z_geom (useAngularMomentum pData) ct x xL.
Proof. exact z_no_steps_all. Qed.
Print Assumptions C25_plan.

(** The inequalities mean exactly that the five control points of the wrench are
    in the cone, and the constraints [z_geom] on the free points. *)
Theorem C25_exact : forall useAng ct ph c0 dc0 l0 T, contact_wf ct -> cd_phase ct = Some ph -> 0 < T ->
  forall dt, z_no_steps T dt -> exists Ab,
  compute6dControlPointInequalities ct c0 dc0 l0 useAng T dt = Ok Ab /\
  length Ab = (5 * length (cp_poly ph) + length (cd_kin ct) + (if useAng then length (cd_ang ct) else 0))%nat /\
  forall x xL, satX (z_ineqs useAng Ab) (z_vec useAng x xL) <->
    z_stable_ctrl ph useAng c0 dc0 l0 T x xL /\ z_geom useAng ct x xL.
Proof. exact z_exact. Qed.
Print Assumptions C25_exact.

(** Kinematic constraints hold at the capture point without angular momentum
    ([z_geom false] is [kin_ok]), or when there are at least as many rows in ang_
    as in kin_ ... *)
Theorem C25_kinematics : forall ct x xL,
  (length (cd_kin ct) <= length (cd_ang ct))%nat -> (length (cd_kin ct) <= length (cd_Kin ct))%nat ->
  z_geom true ct x xL -> kin_ok ct x.
Proof. exact z_mixed_kin. Qed.
Print Assumptions C25_kinematics.
(** ... but not in general. *)
Theorem C25_kinematics_refuted : exists quadprog glpk pData ct ph r x xL, qp_sound quadprog /\ z_posed pData [1] ct ph 1 /\
  solve0step false quadprog glpk pData [1] (-1) = Ok r /\ r0_success r = true /\ z_plan pData 1 r x xL /\ ~ kin_ok ct x.
Proof. exact kin_refuted. Qed.
Print Assumptions C25_kinematics_refuted.

(** C26: [N] steps. *)
Theorem C26_plan : forall with_glpk quadprog glpk pData Ts ct ph T dt, z_posed pData Ts ct ph T ->
  forall r N, qp_sound quadprog -> z_steps T dt N -> (1 <= N)%nat ->
  solve0step with_glpk quadprog glpk pData Ts dt = Ok r -> r0_success r = true -> exists x xL,
  z_plan pData T r x xL /\
  cv_fun (r0_c r) 0 = c0 pData /\ is_deriv_n 1 (cv_fun (r0_c r)) 0 (dc0 pData) /\
  cv_fun (r0_c r) T = x /\ is_deriv_n 1 (cv_fun (r0_c r)) T vzero /\
  (forall i acc, (i <= N)%nat -> let t := INR i * (T / INR N) in is_deriv_n 2 (cv_fun (r0_c r)) t acc ->
    cone0 ph (giwL (cp_mass ph) (cp_gravity ph) (cv_fun (r0_c r) t) acc (dL_fun (r0_dL r) t))) /\
  z_geom (useAngularMomentum pData) ct x xL.
Proof. exact z_steps_all. Qed.
Print Assumptions C26_plan.

Theorem C26_exact : forall useAng ct ph c0 dc0 l0 T, contact_wf ct -> cd_phase ct = Some ph -> 0 < T ->
  forall dt N, z_steps T dt N -> (1 <= N)%nat -> exists Ab,
  compute6dControlPointInequalities ct c0 dc0 l0 useAng T dt = Ok Ab /\
  length Ab = ((N + 1) * length (cp_poly ph) + length (cd_kin ct) + (if useAng then length (cd_ang ct) else 0))%nat /\
  forall x xL, satX (z_ineqs useAng Ab) (z_vec useAng x xL) <->
    (forall i, (i <= N)%nat -> z_stable ph useAng c0 dc0 l0 T x xL (INR i * (T / INR N))) /\ z_geom useAng ct x xL.
Proof. exact z_exact_disc. Qed.
Print Assumptions C26_exact.

(** C27 *)
Theorem C27_momentum : forall pData Ts ct ph T, z_posed pData Ts ct ph T ->
  forall r x xL, z_plan pData T r x xL -> useAngularMomentum pData = true ->
  (forall t, is_deriv_n 1 (z_momentum (l0 pData) T xL) t (dL_fun (r0_dL r) t)) /\
  z_momentum (l0 pData) T xL 0 = l0 pData /\ z_momentum (l0 pData) T xL T = vzero /\
  dL_fun (r0_dL r) T = vzero /\ integral3 (dL_fun (r0_dL r)) 0 T (vopp (l0 pData)).
Proof. exact z_plan_momentum. Qed.
Print Assumptions C27_momentum.

Theorem C27_cost : forall with_glpk quadprog glpk pData Ts ct ph T dt, z_posed pData Ts ct ph T ->
  forall r, qp_sound quadprog -> (z_no_steps T dt \/ exists N, z_steps T dt N) ->
  solve0step with_glpk quadprog glpk pData Ts dt = Ok r -> r0_success r = true -> exists x xL,
  z_plan pData T r x xL /\
  (useAngularMomentum pData = true ->
     exists v, integral (fun t => vnorm2 (dL_fun (r0_dL r) t)) 0 T v /\ r0_cost r = T * v) /\
  (useAngularMomentum pData = false ->
     r0_cost r = vnorm (vsub (c0 pData) x) /\ forall t, dL_fun (r0_dL r) t = vzero).
Proof. exact z_plan_cost. Qed.
Print Assumptions C27_cost.

(** The objective is the criterion [z_criterion] up to a constant. *)
Theorem C27_objective : forall pData T, 0 < T ->
  exists H g K, z_cost (c0 pData) (l0 pData) (useAngularMomentum pData) = Ok (H, g) /\
  forall x xL v, z_criterion pData T x xL v <->
    v = quad H (z_vec (useAngularMomentum pData) x xL) + 2 * rdot g (z_vec (useAngularMomentum pData) x xL) + K.
Proof. exact z_objective. Qed.
Print Assumptions C27_objective.

(** With a back end that solves strictly convex problems, a plan is returned
    whenever there is one, and it has the least criterion. *)
Theorem C27_optimal : forall with_glpk quadprog glpk pData Ts ct ph T dt, z_posed pData Ts ct ph T ->
  forall x xL, qp_solves quadprog -> (z_no_steps T dt \/ exists N, z_steps T dt N) ->
  z_wrench_ok pData ph T dt x xL -> z_geom (useAngularMomentum pData) ct x xL -> exists r x' xL',
  solve0step with_glpk quadprog glpk pData Ts dt = Ok r /\ z_plan pData T r x' xL' /\
  z_wrench_ok pData ph T dt x' xL' /\ z_geom (useAngularMomentum pData) ct x' xL' /\
  forall y yL v v', z_wrench_ok pData ph T dt y yL -> z_geom (useAngularMomentum pData) ct y yL ->
    z_criterion pData T x' xL' v' -> z_criterion pData T y yL v -> v' <= v.
Proof. exact z_best. Qed.
Print Assumptions C27_optimal.

(** C28: Ang_ and the values of ang_ have no effect (the exact constraint that
    takes their place is [z_mixed], C25_exact and C26_exact). *)
Theorem C28_ignored : forall with_glpk quadprog glpk pData Ts dt ct Ang ang,
  contacts pData = [ct] -> length ang = length (cd_ang ct) ->
  solve0step with_glpk quadprog glpk
    (Problem [with_ang ct Ang ang] (c0 pData) (dc0 pData) (ddc0 pData) (j0 pData) (c1 pData) (dc1 pData) (ddc1 pData) (j1 pData)
       (l0 pData) (useAngularMomentum pData) (constr pData) (costFunction pData) (representation pData)) Ts dt
  = solve0step with_glpk quadprog glpk pData Ts dt.
Proof. exact z_ang_indep_plan. Qed.
Print Assumptions C28_ignored.

Theorem C28_angular_refuted : exists quadprog glpk pData ct ph r x xL, qp_sound quadprog /\ z_posed pData [1] ct ph 1 /\
  solve0step false quadprog glpk pData [1] (-1) = Ok r /\ r0_success r = true /\ z_plan pData 1 r x xL /\ kin_ok ct x /\ ~ ang_ok ct xL.
Proof. exact ang_refuted. Qed.
Print Assumptions C28_angular_refuted.

Theorem C28_foreign : exists pData ct ph Ab x xL, z_posed pData [1] ct ph 1 /\ useAngularMomentum pData = true /\
  compute6dControlPointInequalities ct (c0 pData) (dc0 pData) (l0 pData) true 1 (-1) = Ok Ab /\
  z_wrench_ok pData ph 1 (-1) x xL /\ kin_ok ct x /\ ang_ok ct xL /\ ~ satX (z_ineqs true Ab) (z_vec true x xL).
Proof. exact foreign_refuted. Qed.
Print Assumptions C28_foreign.
