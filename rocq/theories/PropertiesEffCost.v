(** Property theorems C60, C61: predefined end-effector curves, and the costs sampled
    over the motion.  Vocabulary: SpecEff.v, SpecEffCost.v. *)
From Verif Require Import Vec SpecBezier ModelData ModelDispatch ModelCont ModelTraj ModelEff ModelEffCost
  SpecCom SpecWp SpecTraj Spec0Step SpecEff SpecEffCost ProofEffCost.
Open Scope R_scope.

(** C60: the two predefined curves. *)
Theorem C60_init : forall pData T, 0 < T ->
  exists cv, mk_bezier (computeConstantWaypointsInitPredef pData T) T = Ok cv /\ bc_T cv = T /\
    cv_fun cv 0 = c0 pData /\ is_deriv_n 1 (cv_fun cv) 0 (dc0 pData) /\ is_deriv_n 2 (cv_fun cv) 0 (ddc0 pData) /\
    is_deriv_n 3 (cv_fun cv) 0 vzero /\ cv_fun cv T = c1 pData.
Proof. exact c60_init. Qed.
Print Assumptions C60_init.
Theorem C60_goal : forall pData T, 0 < T ->
  exists cv, mk_bezier (computeConstantWaypointsGoalPredef pData T) T = Ok cv /\ bc_T cv = T /\
    cv_fun cv T = c1 pData /\ is_deriv_n 1 (cv_fun cv) T (dc1 pData) /\ is_deriv_n 2 (cv_fun cv) T (ddc1 pData) /\
    is_deriv_n 3 (cv_fun cv) T vzero /\ cv_fun cv 0 = c0 pData.
Proof. exact c60_goal. Qed.
Print Assumptions C60_goal.
(** The end of the first curve is not under control: it arrives with some velocity,
    whatever the end velocity of the problem, and the same at the start of the second. *)
Theorem C60_other_end : forall pData T, 0 < T ->
  exists cvi cvg, mk_bezier (computeConstantWaypointsInitPredef pData T) T = Ok cvi /\
    mk_bezier (computeConstantWaypointsGoalPredef pData T) T = Ok cvg /\
    is_deriv_n 1 (cv_fun cvi) T (vscal (/ T) (vsub (vscal 4 (vsub (c1 pData) (c0 pData)))
      (vadd (vscal (3 * T) (dc0 pData)) (vscal (T * T) (ddc0 pData))))) /\
    is_deriv_n 1 (cv_fun cvg) 0 (vscal (/ T) (vadd (vscal 4 (vsub (c1 pData) (c0 pData)))
      (vsub (vscal (T * T) (ddc1 pData)) (vscal (3 * T) (dc1 pData))))).
Proof. exact c60_other_end. Qed.
Print Assumptions C60_other_end.

(** C61: the sampled acceleration and jerk costs are, up to a constant, the sums of the
    squared evaluations. *)
Theorem C61_sampled : forall eval N pData T,
  eval = evaluateAccelerationCurveWaypointAtTime \/ eval = evaluateJerkCurveWaypointAtTime ->
  In (flag_of pData) effector_flags -> 0 < T -> N <> 1%nat ->
  exists H g K, sampled_cost eval N pData T = Ok (H, g) /\ cost_size (3 * eff_free (flag_of pData)) H g /\
    forall xs, length xs = eff_free (flag_of pData) ->
      exists v, evaluated eval pData T N xs v /\ quad H (flat xs) + 2 * rdot g (flat xs) + K = sum_sq N v.
Proof. exact c61_sampled. Qed.
Print Assumptions C61_sampled.
(** For one and three free points the jerk cost is that of the motion. *)
Theorem C61_jerk : forall N pData T,
  In (flag_of pData) effector_flags -> flag_of pData <> F_x5 -> 0 < T -> N <> 1%nat ->
  exists H g K, computeJerkCostFunctionDiscretized N pData T = Ok (H, g) /\ cost_size (3 * eff_free (flag_of pData)) H g /\
    forall xs, length xs = eff_free (flag_of pData) ->
      exists cv v, eff_curve pData T xs = Ok cv /\ derivs 3 (cv_fun cv) T N v /\
        quad H (flat xs) + 2 * rdot g (flat xs) + K = sum_sq N v.
Proof. exact c61_jerk. Qed.
Print Assumptions C61_jerk.
(** For one free point the acceleration cost is that of the motion with an additional
    acceleration 56/T^2 (1-s)^6 (c1 - c0). *)
Theorem C61_acceleration_one : forall N pData T, flag_of pData = F_jerk -> 0 < T -> N <> 1%nat ->
  exists H g K, computeAccelerationCostFunctionDiscretized N pData T = Ok (H, g) /\ cost_size 3 H g /\
    forall x, exists cv v, eff_curve pData T [x] = Ok cv /\ derivs 2 (cv_fun cv) T N v /\
      quad H (flat [x]) + 2 * rdot g (flat [x]) + K =
      sum_sq N (fun k => vadd (v k) (vscal (56 / (T * T) * (1 - sample N k) ^ 6) (vsub (c1 pData) (c0 pData)))).
Proof. exact c61_acceleration_one. Qed.
Print Assumptions C61_acceleration_one.

(** The sampled velocity cost judges each free point as if the others were at the origin. *)
Theorem C61_velocity : forall N pData T, In (flag_of pData) effector_flags -> 0 < T -> N <> 1%nat ->
  exists H g v0, computeVelCostFunctionDiscretized N pData T = Ok (H, g) /\ cost_size (3 * eff_free (flag_of pData)) H g /\
    evaluated evaluateVelocityCurveWaypointAtTime pData T N (origin (eff_free (flag_of pData))) v0 /\
    forall xs, length xs = eff_free (flag_of pData) ->
      exists vs, (forall i, (i < length xs)%nat -> evaluated evaluateVelocityCurveWaypointAtTime pData T N (only i xs) (vs i)) /\
        quad H (flat xs) + 2 * rdot g (flat xs) = sum_list (map (fun i => sum_sq N (vs i) - sum_sq N v0) (seq 0 (length xs))).
Proof. exact c61_velocity. Qed.
Print Assumptions C61_velocity.
Theorem C61_velocity_one : forall N pData T, flag_of pData = F_jerk -> 0 < T -> N <> 1%nat ->
  exists H g K, computeVelCostFunctionDiscretized N pData T = Ok (H, g) /\ cost_size 3 H g /\
    forall x, exists cv v, eff_curve pData T [x] = Ok cv /\ derivs 1 (cv_fun cv) T N v /\
      quad H (flat [x]) + 2 * rdot g (flat [x]) + K =
      sum_sq N (fun k => vadd (v k) (vscal (- (8 / T) * (1 - sample N k) ^ 7) (vsub (c1 pData) (c0 pData)))).
Proof. exact c61_velocity_one. Qed.
Print Assumptions C61_velocity_one.
(** With three or five free points and three samples it is not the sampled speed of the
    motion on any scale, for any problem. *)
Theorem C61_velocity_refuted : forall pData T, flag_of pData = F_x3 \/ flag_of pData = F_x5 -> 0 < T ->
  exists H g, computeVelCostFunctionDiscretized 3 pData T = Ok (H, g) /\
    ~ exists k K, forall xs cv v, length xs = eff_free (flag_of pData) -> eff_curve pData T xs = Ok cv -> derivs 1 (cv_fun cv) T 3 v ->
      k * (quad H (flat xs) + 2 * rdot g (flat xs)) + K = sum_sq 3 v.
Proof. exact c61_velocity_refuted. Qed.
Print Assumptions C61_velocity_refuted.
(** One sample: the step 1/(N-1) is a division by zero. *)
Theorem C61_one_sample : forall eval pData T,
  computeVelCostFunctionDiscretized 1 pData T = UB /\ sampled_cost eval 1 pData T = UB.
Proof. exact c61_one_sample. Qed.
Print Assumptions C61_one_sample.
