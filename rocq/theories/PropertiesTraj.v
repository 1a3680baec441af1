(** Property theorems C16, C17 and C18 for plans, C22 - C24, C51, C52: costs
    and results of computeCOMTraj and computeCOMTrajFixedSize.  Vocabulary:
    SpecTraj.v.  [scaled] is the behaviour of the curve library's derivative,
    [with_glpk] whether the library was built with GLPK. *)
From Verif Require Import Vec SpecBezier SpecTime ModelData ModelDispatch ModelUtils ModelCom ModelCont ModelSolver ModelTraj
  SpecCom SpecWp SpecCtr SpecCont SpecSolver SpecTraj ProofTraj ProofTraj2 ProofTraj3.
Open Scope R_scope.

(** C16 *)
Theorem C16_plan_step : forall scaled with_glpk quadprog glpk, qp_sound quadprog -> lp_sound glpk ->
  forall pData Ts dt solver g r, well_posed pData Ts -> 0 < dt -> same_gravity pData g -> In (flag_of pData) exact_w_flags ->
  computeCOMTraj scaled with_glpk quadprog glpk pData Ts dt solver = Ok r -> rc_success r = true ->
  plan_curve pData Ts r /\
  forall i c t, nth_error (contacts pData) i = Some c -> sampled_step Ts dt i t ->
    contact_ok pData 0 c (cv_fun (rc_c r)) t /\ accel_ok pData (cv_fun (rc_c r)) t.
Proof. exact c16_step. Qed.
Print Assumptions C16_plan_step.

Theorem C16_plan_step_decimal : forall scaled with_glpk quadprog glpk, qp_sound quadprog -> lp_sound glpk ->
  forall pData Ts dt solver g G r M, well_posed pData Ts -> 0 < dt -> same_gravity pData g -> within G g ->
  In (flag_of pData) dec_w_flags ->
  computeCOMTraj scaled with_glpk quadprog glpk pData Ts dt solver = Ok r -> rc_success r = true -> Forall (within M) (bc_pts (rc_c r)) ->
  plan_curve pData Ts r /\
  forall i c t, nth_error (contacts pData) i = Some c -> sampled_step Ts dt i t ->
    contact_ok pData (3 * (err_force M (total Ts) + err_moment G M (total Ts))) c (cv_fun (rc_c r)) t /\ accel_ok pData (cv_fun (rc_c r)) t.
Proof. exact c16_step_dec. Qed.
Print Assumptions C16_plan_step_decimal.

Theorem C16_plan_fixed : forall scaled with_glpk quadprog glpk, qp_sound quadprog -> lp_sound glpk ->
  forall pData Ts p g r, well_posed pData Ts -> (1 <= p)%nat -> same_gravity pData g -> In (flag_of pData) exact_w_flags ->
  computeCOMTrajFixedSize scaled with_glpk quadprog glpk pData Ts p = Ok r -> rc_success r = true ->
  plan_curve pData Ts r /\
  forall i c t, nth_error (contacts pData) i = Some c -> sampled_fixed Ts p i t ->
    contact_ok pData 0 c (cv_fun (rc_c r)) t /\ accel_ok pData (cv_fun (rc_c r)) t.
Proof. exact c16_fixed. Qed.
Print Assumptions C16_plan_fixed.

Theorem C16_plan_fixed_decimal : forall scaled with_glpk quadprog glpk, qp_sound quadprog -> lp_sound glpk ->
  forall pData Ts p g G r M, well_posed pData Ts -> (1 <= p)%nat -> same_gravity pData g -> within G g ->
  In (flag_of pData) dec_w_flags ->
  computeCOMTrajFixedSize scaled with_glpk quadprog glpk pData Ts p = Ok r -> rc_success r = true -> Forall (within M) (bc_pts (rc_c r)) ->
  plan_curve pData Ts r /\
  forall i c t, nth_error (contacts pData) i = Some c -> sampled_fixed Ts p i t ->
    contact_ok pData (3 * (err_force M (total Ts) + err_moment G M (total Ts))) c (cv_fun (rc_c r)) t /\ accel_ok pData (cv_fun (rc_c r)) t.
Proof. exact c16_fixed_dec. Qed.
Print Assumptions C16_plan_fixed_decimal.

(** C17 for plans: timeStep <= 0. *)
Theorem C17_plan_kinematics : forall scaled with_glpk quadprog glpk, qp_sound quadprog -> lp_sound glpk ->
  forall pData Ts dt solver r, well_posed pData Ts -> splittable Ts -> dt <= 0 ->
  computeCOMTraj scaled with_glpk quadprog glpk pData Ts dt solver = Ok r -> rc_success r = true ->
  plan_curve pData Ts r /\ (plan_no_zero_point r ->
  forall i c t, nth_error (contacts pData) i = Some c -> in_phase Ts i t ->
    kin_ok c (cv_fun (rc_c r) t) /\ accel_within (acc_bound scaled pData Ts) (cv_fun (rc_c r)) t).
Proof. exact c17_plan. Qed.
Print Assumptions C17_plan_kinematics.

Theorem C17_plan_double_description : forall scaled with_glpk quadprog glpk, qp_sound quadprog -> lp_sound glpk ->
  forall pData Ts dt solver g r, well_posed pData Ts -> splittable Ts -> dt <= 0 -> same_gravity pData g ->
  representation pData = DOUBLE_DESCRIPTION -> In (flag_of pData) exact_w_flags ->
  computeCOMTraj scaled with_glpk quadprog glpk pData Ts dt solver = Ok r -> rc_success r = true -> plan_no_zero_point r ->
  forall i c t, nth_error (contacts pData) i = Some c -> in_phase Ts i t -> contact_ok pData 0 c (cv_fun (rc_c r)) t.
Proof. exact c17_plan_dd. Qed.
Print Assumptions C17_plan_double_description.

Theorem C17_plan_double_description_decimal : forall scaled with_glpk quadprog glpk, qp_sound quadprog -> lp_sound glpk ->
  forall pData Ts dt solver g G r M, well_posed pData Ts -> splittable Ts -> dt <= 0 -> same_gravity pData g -> within G g ->
  representation pData = DOUBLE_DESCRIPTION -> In (flag_of pData) dec_w_flags ->
  computeCOMTraj scaled with_glpk quadprog glpk pData Ts dt solver = Ok r -> rc_success r = true -> plan_no_zero_point r ->
  Forall (within M) (bc_pts (rc_c r)) ->
  forall i c t, nth_error (contacts pData) i = Some c -> in_phase Ts i t ->
    contact_ok pData (3 * (err_force M (total Ts) + err_moment G M (total Ts))) c (cv_fun (rc_c r)) t.
Proof. exact c17_plan_dd_dec. Qed.
Print Assumptions C17_plan_double_description_decimal.

(** C18 for plans *)
Theorem C18_plan_forces : forall scaled with_glpk quadprog glpk, qp_sound quadprog -> lp_sound glpk ->
  forall pData Ts dt solver g r, well_posed pData Ts -> representation pData <> DOUBLE_DESCRIPTION -> long_phases Ts -> dt <= 0 ->
  same_gravity pData g -> In (flag_of pData) exact_w_flags -> cones_nested (contacts pData) ->
  computeCOMTraj scaled with_glpk quadprog glpk pData Ts dt solver = Ok r -> rc_success r = true ->
  plan_curve pData Ts r /\
  forall i c ph t acc, nth_error (contacts pData) i = Some c -> cd_phase c = Some ph -> in_phase Ts i t ->
    is_deriv_n 2 (cv_fun (rc_c r)) t acc -> in_cone (cp_G ph) (giw (cp_mass ph) (cp_gravity ph) (cv_fun (rc_c r) t) acc).
Proof. exact c18_plan. Qed.
Print Assumptions C18_plan_forces.

Theorem C18_plan_forces_decimal : forall scaled with_glpk quadprog glpk, qp_sound quadprog -> lp_sound glpk ->
  forall pData Ts dt solver g G r M, well_posed pData Ts -> representation pData <> DOUBLE_DESCRIPTION -> long_phases Ts -> dt <= 0 ->
  same_gravity pData g -> within G g -> In (flag_of pData) dec_w_flags -> cones_nested (contacts pData) ->
  computeCOMTraj scaled with_glpk quadprog glpk pData Ts dt solver = Ok r -> rc_success r = true -> Forall (within M) (bc_pts (rc_c r)) ->
  plan_curve pData Ts r /\
  forall i c ph t acc, nth_error (contacts pData) i = Some c -> cd_phase c = Some ph -> in_phase Ts i t ->
    is_deriv_n 2 (cv_fun (rc_c r)) t acc -> exists w, in_cone (cp_G ph) w /\
    let d := v6sub w (giw (cp_mass ph) (cp_gravity ph) (cv_fun (rc_c r) t) acc) in
    within (cp_mass ph * err_force M (total Ts)) (fst d) /\ within (cp_mass ph * err_moment G M (total Ts)) (snd d).
Proof. exact c18_plan_dec. Qed.
Print Assumptions C18_plan_forces_decimal.

(** C22: [n] force variables. *)
Theorem C22_distance : forall pData Ts T ta n, costFunction pData = DISTANCE_TRAVELED -> exists H g K,
  genCostFunction pData Ts T ta (3 + n) = Ok (H, g) /\
  length H = (3 + n)%nat /\ Forall (fun r => length r = (3 + n)%nat) H /\ length g = (3 + n)%nat /\
  forall x beta, length beta = n ->
    quad H (l3 x ++ beta) + 2 * rdot g (l3 x ++ beta) + K =
    vnorm2 (vsub x (mid_of pData)) + 1 / 1000000 * sumsq beta.
Proof. exact c22_dist. Qed.
Print Assumptions C22_distance.

Theorem C22_acceleration : forall pData Ts ta n, well_posed pData Ts -> times_of Ts ta -> costFunction pData = ACCELERATION -> exists H g K,
  genCostFunction pData Ts (total Ts) ta (3 + n) = Ok (H, g) /\
  length H = (3 + n)%nat /\ Forall (fun r => length r = (3 + n)%nat) H /\ length g = (3 + n)%nat /\
  forall x cv beta, com_curve pData (total Ts) x = Ok cv -> length beta = n -> exists s,
    sum_acc2 (cv_fun cv) ta s /\
    quad H (l3 x ++ beta) + 2 * rdot g (l3 x ++ beta) + K = s + 1 / 1000000 * sumsq beta.
Proof. exact c22_acc. Qed.
Print Assumptions C22_acceleration.

(** The times computed by the planner are such times. *)
Theorem C22_times_fixed : forall Ts p, (1 <= p)%nat -> Ts <> [] -> Forall (Rlt 0) Ts -> times_of Ts (computeDiscretizedTimeFixed Ts p).
Proof. exact fixed_times_of. Qed.
Theorem C22_times_step : forall Ts dt ta, 0 < dt -> Forall (Rlt 0) Ts -> computeDiscretizedTime Ts dt = Ok ta -> times_of Ts ta.
Proof. exact step_times_of. Qed.
Print Assumptions C22_times_step.

Theorem C22_unknown : forall pData Ts T ta n, costFunction pData <> ACCELERATION -> costFunction pData <> DISTANCE_TRAVELED ->
  costFunction pData <> TARGET_END_VELOCITY -> genCostFunction pData Ts T ta n = Throw.
Proof. exact c22_unknown. Qed.
Print Assumptions C22_unknown.

(** C23: for every flag, also those without END_VEL. *)
Theorem C23_cost_throws : forall pData Ts T ta n, costFunction pData = TARGET_END_VELOCITY -> genCostFunction pData Ts T ta n = Throw.
Proof. exact c23_ok. Qed.
Print Assumptions C23_cost_throws.
Theorem C23_never_plans : forall scaled with_glpk quadprog glpk pData Ts dt solver r, costFunction pData = TARGET_END_VELOCITY ->
  computeCOMTraj scaled with_glpk quadprog glpk pData Ts dt solver <> Ok r /\
  forall p, computeCOMTrajFixedSize scaled with_glpk quadprog glpk pData Ts p <> Ok r.
Proof. exact c23_never. Qed.
Print Assumptions C23_never_plans.

(** C24: for arbitrary back ends and problems. *)
Theorem C24_result : forall scaled with_glpk quadprog glpk pData Ts dt solver r,
  computeCOMTraj scaled with_glpk quadprog glpk pData Ts dt solver = Ok r -> exists n, answered quadprog glpk (repeat 0 n) r pData Ts.
Proof. exact c24_ok. Qed.
Print Assumptions C24_result.
Theorem C24_result_fixed : forall scaled with_glpk quadprog glpk pData Ts p r,
  computeCOMTrajFixedSize scaled with_glpk quadprog glpk pData Ts p = Ok r -> answered quadprog glpk (repeat 0 3) r pData Ts.
Proof. exact c24_fixed. Qed.
Print Assumptions C24_result_fixed.
Theorem C24_mismatch_throws : forall scaled with_glpk quadprog glpk pData Ts dt solver, length Ts <> length (contacts pData) ->
  computeCOMTraj scaled with_glpk quadprog glpk pData Ts dt solver = Throw /\
  forall p, computeCOMTrajFixedSize scaled with_glpk quadprog glpk pData Ts p = Throw.
Proof. exact c24_mismatch. Qed.
Print Assumptions C24_mismatch_throws.

(** C51: with a QP back end that solves strictly convex problems, a plan is
    found whenever there is one, and no feasible plan is better. *)
Theorem C51_distance_step : forall scaled with_glpk quadprog glpk, qp_solves quadprog ->
  forall pData Ts g, well_posed pData Ts -> same_gravity pData g -> In (flag_of pData) exact_w_flags ->
  forall dt x cv, 0 < dt -> costFunction pData = DISTANCE_TRAVELED ->
  com_curve pData (total Ts) x = Ok cv -> plan_feasible pData (sampled_step Ts dt) (cv_fun cv) -> exists r x',
  computeCOMTraj scaled with_glpk quadprog glpk pData Ts dt SOLVER_QUADPROG = Ok r /\ rc_success r = true /\ rc_x r = l3 x' /\
  com_curve pData (total Ts) x' = Ok (rc_c r) /\ plan_feasible pData (sampled_step Ts dt) (cv_fun (rc_c r)) /\
  vnorm2 (vsub x' (mid_of pData)) <= vnorm2 (vsub x (mid_of pData)).
Proof. exact c51_dist_step. Qed.
Print Assumptions C51_distance_step.

Theorem C51_distance_fixed : forall scaled with_glpk quadprog glpk, qp_solves quadprog ->
  forall pData Ts g, well_posed pData Ts -> same_gravity pData g -> In (flag_of pData) exact_w_flags ->
  forall p x cv, (1 <= p)%nat -> costFunction pData = DISTANCE_TRAVELED ->
  com_curve pData (total Ts) x = Ok cv -> plan_feasible pData (sampled_fixed Ts p) (cv_fun cv) -> exists r x',
  computeCOMTrajFixedSize scaled with_glpk quadprog glpk pData Ts p = Ok r /\ rc_success r = true /\ rc_x r = l3 x' /\
  com_curve pData (total Ts) x' = Ok (rc_c r) /\ plan_feasible pData (sampled_fixed Ts p) (cv_fun (rc_c r)) /\
  vnorm2 (vsub x' (mid_of pData)) <= vnorm2 (vsub x (mid_of pData)).
Proof. exact c51_dist_fixed. Qed.
Print Assumptions C51_distance_fixed.

Theorem C51_acceleration_step : forall scaled with_glpk quadprog glpk, qp_solves quadprog ->
  forall pData Ts g, well_posed pData Ts -> same_gravity pData g -> In (flag_of pData) exact_w_flags ->
  forall dt x cv ta, 0 < dt -> costFunction pData = ACCELERATION ->
  computeDiscretizedTime Ts dt = Ok ta -> acc_depends pData Ts ta ->
  com_curve pData (total Ts) x = Ok cv -> plan_feasible pData (sampled_step Ts dt) (cv_fun cv) -> exists r x' s s',
  computeCOMTraj scaled with_glpk quadprog glpk pData Ts dt SOLVER_QUADPROG = Ok r /\ rc_success r = true /\ rc_x r = l3 x' /\
  com_curve pData (total Ts) x' = Ok (rc_c r) /\ plan_feasible pData (sampled_step Ts dt) (cv_fun (rc_c r)) /\
  sum_acc2 (cv_fun (rc_c r)) ta s' /\ sum_acc2 (cv_fun cv) ta s /\ s' <= s.
Proof. exact c51_acc_step. Qed.
Print Assumptions C51_acceleration_step.

Theorem C51_acceleration_fixed : forall scaled with_glpk quadprog glpk, qp_solves quadprog ->
  forall pData Ts g, well_posed pData Ts -> same_gravity pData g -> In (flag_of pData) exact_w_flags ->
  forall p x cv, (1 <= p)%nat -> costFunction pData = ACCELERATION ->
  acc_depends pData Ts (computeDiscretizedTimeFixed Ts p) ->
  com_curve pData (total Ts) x = Ok cv -> plan_feasible pData (sampled_fixed Ts p) (cv_fun cv) -> exists r x' s s',
  computeCOMTrajFixedSize scaled with_glpk quadprog glpk pData Ts p = Ok r /\ rc_success r = true /\ rc_x r = l3 x' /\
  com_curve pData (total Ts) x' = Ok (rc_c r) /\ plan_feasible pData (sampled_fixed Ts p) (cv_fun (rc_c r)) /\
  sum_acc2 (cv_fun (rc_c r)) (computeDiscretizedTimeFixed Ts p) s' /\ sum_acc2 (cv_fun cv) (computeDiscretizedTimeFixed Ts p) s /\ s' <= s.
Proof. exact c51_acc_fixed. Qed.
Print Assumptions C51_acceleration_fixed.

(** C52: with all end conditions up to acceleration and only the end times
    sampled, the acceleration cost is constant. *)
Theorem C52_constant_cost : forall pData Ts ta, well_posed pData Ts -> flag_of pData = F_acc_all ->
  Forall (fun tp => fst tp = 0 \/ fst tp = total Ts) ta -> costFunction pData = ACCELERATION ->
  exists H g, genCostFunction pData Ts (total Ts) ta 3 = Ok (H, g) /\ forall x, quad H (l3 x) = 0 /\ rdot g (l3 x) = 0.
Proof. exact c52_const. Qed.
Print Assumptions C52_constant_cost.
