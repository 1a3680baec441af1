(** Property theorems C29 - C36: end-effector trajectories.  Vocabulary:
    SpecEff.v, SpecTraj.v ([qp_sound], [qp_solves]).  [effector_flags] are the
    three flags with position, velocity, acceleration and jerk fixed at both ends
    and one, three or five free control points; [eff_curve pData T xs] is the
    curve built for the free points [xs]. *)
From Verif Require Import Vec SpecBezier ModelData ModelDispatch ModelCont ModelSolver ModelTraj ModelEff
  SpecCom SpecWp SpecTraj Spec0Step SpecEff ProofEff ProofEff2 ProofEff3 ProofEff5 ProofEff7 ProofEff13 ProofEff14 ProofEff15.
Open Scope R_scope.

(** C29: the curve exists for every value of the free points, which are its
    control points from the fifth, and has the eight boundary values. *)
Theorem C29_boundary : forall pData T xs,
  In (flag_of pData) effector_flags -> length xs = eff_free (flag_of pData) -> 0 < T ->
  exists cv, eff_curve pData T xs = Ok cv /\ bc_T cv = T /\ firstn (length xs) (skipn 4 (bc_pts cv)) = xs /\
    meets_all pData T (cv_fun cv).
Proof. exact eff_boundary. Qed.
Print Assumptions C29_boundary.

(** On success solveEndEffector returns such a curve, and its free points satisfy
    the inequalities. *)
Theorem C29_plan : forall with_glpk quadprog glpk init pData path T wd r,
  qp_sound quadprog -> (forall n, length (init n) = n) ->
  In (flag_of pData) effector_flags -> 0 < T ->
  solveEndEffector with_glpk quadprog glpk init pData path T wd = Ok r -> rc_success r = true ->
  exists xs pi M, length xs = eff_free (flag_of pData) /\ rc_x r = flat xs /\ eff_curve pData T xs = Ok (rc_c r) /\
    bc_T (rc_c r) = T /\ meets_all pData T (cv_fun (rc_c r)) /\
    computeConstantWaypoints pData T = Ok pi /\ computeEndEffectorConstraints pData T pi = Ok M /\ satX M (flat xs).
Proof. exact c29_plan. Qed.
Print Assumptions C29_plan.

(** C30: velocity and jerk waypoints. *)
Theorem C30_waypoints : forall pData T xs,
  In (flag_of pData) effector_flags -> length xs = eff_free (flag_of pData) -> 0 < T ->
  exists pi cv wv wj, computeConstantWaypoints pData T = Ok pi /\ eff_curve pData T xs = Ok cv /\
    computeVelocityWaypoints pData T pi = Ok wv /\ computeJerkWaypoints pData T pi = Ok wj /\
    length wv = (length (bc_pts cv) - 1)%nat /\ length wj = (length (bc_pts cv) - 3)%nat /\
    deriv_points 1 (cv_fun cv) T (at_free xs wv) /\ deriv_points 3 (cv_fun cv) T (at_free xs wj).
Proof. exact c30_points. Qed.
Print Assumptions C30_waypoints.

(** C31: the acceleration waypoints and their errors, spelled out by [acc_errs]. *)
Theorem C31_acceleration : forall pData T xs,
  In (flag_of pData) effector_flags -> length xs = eff_free (flag_of pData) -> 0 < T ->
  exists pi cv wa P, computeConstantWaypoints pData T = Ok pi /\ eff_curve pData T xs = Ok cv /\
    computeAccelerationWaypoints pData T pi = Ok wa /\
    length P = (length (bc_pts cv) - 2)%nat /\ deriv_points 2 (cv_fun cv) T P /\
    at_free xs wa = acc_errs (flag_of pData) T (bc_pts cv) P.
Proof. exact c31_points. Qed.
Print Assumptions C31_acceleration.

(** C32: evaluation of the curve and of its jerk. *)
Theorem C32_curve : forall pData T xs s,
  In (flag_of pData) effector_flags -> length xs = eff_free (flag_of pData) -> 0 < T ->
  exists pi cv w, computeConstantWaypoints pData T = Ok pi /\ eff_curve pData T xs = Ok cv /\
    evaluateCurveWaypointAtTime pData pi s = Ok w /\
    ev_wpn w xs = vadd (cv_fun cv (s * T))
      (if Z.eqb (flag_of pData) F_jerk then vscal ((1 - s) ^ 8) (vsub (c1 pData) (c0 pData)) else vzero).
Proof. exact c32_curve. Qed.
Print Assumptions C32_curve.

Theorem C32_jerk : forall pData T xs s,
  In (flag_of pData) effector_flags -> flag_of pData <> F_x5 -> length xs = eff_free (flag_of pData) -> 0 < T ->
  exists pi cv w, computeConstantWaypoints pData T = Ok pi /\ eff_curve pData T xs = Ok cv /\
    evaluateJerkCurveWaypointAtTime pData T pi s = Ok w /\ is_deriv_n 3 (cv_fun cv) (s * T) (ev_wpn w xs).
Proof. exact c32_jerk. Qed.
Print Assumptions C32_jerk.

(** Five free points: wrong for some free points, at every inner time of every
    problem. *)
Theorem C32_jerk_x5_refuted : forall pData T s, flag_of pData = F_x5 -> 0 < T -> 0 < s < 1 ->
  exists pi xs cv w, length xs = 5%nat /\ computeConstantWaypoints pData T = Ok pi /\ eff_curve pData T xs = Ok cv /\
    evaluateJerkCurveWaypointAtTime pData T pi s = Ok w /\ ~ is_deriv_n 3 (cv_fun cv) (s * T) (ev_wpn w xs).
Proof. exact c33_x5_jerk. Qed.
Print Assumptions C32_jerk_x5_refuted.

(** C33: evaluation of velocity and acceleration.  One free point: the error. *)
Theorem C33_one : forall pData T xs s, flag_of pData = F_jerk -> length xs = 1%nat -> 0 < T ->
  exists pi cv wv wa, computeConstantWaypoints pData T = Ok pi /\ eff_curve pData T xs = Ok cv /\
    evaluateVelocityCurveWaypointAtTime pData T pi s = Ok wv /\
    evaluateAccelerationCurveWaypointAtTime pData T pi s = Ok wa /\
    is_deriv_n 1 (cv_fun cv) (s * T)
      (vsub (ev_wpn wv xs) (vscal (- (8 / T) * (1 - s) ^ 7) (vsub (c1 pData) (c0 pData)))) /\
    is_deriv_n 2 (cv_fun cv) (s * T)
      (vsub (ev_wpn wa xs) (vscal (56 / (T * T) * (1 - s) ^ 6) (vsub (c1 pData) (c0 pData)))).
Proof. exact c33_j. Qed.
Print Assumptions C33_one.

(** Three free points: the part that does not depend on them gets its powers
    permuted. *)
Theorem C33_three : forall pData T xs, flag_of pData = F_x3 -> length xs = 3%nat -> 0 < T ->
  exists pi cv cv0 Pv Pa, computeConstantWaypoints pData T = Ok pi /\ eff_curve pData T xs = Ok cv /\
    eff_curve pData T [vzero;vzero;vzero] = Ok cv0 /\
    length Pv = 10%nat /\ deriv_points 1 (cv_fun cv0) T Pv /\ length Pa = 9%nat /\ deriv_points 2 (cv_fun cv0) T Pa /\
    forall s, exists wv wa, evaluateVelocityCurveWaypointAtTime pData T pi s = Ok wv /\
      evaluateAccelerationCurveWaypointAtTime pData T pi s = Ok wa /\
      is_deriv_n 1 (cv_fun cv) (s * T) (vsub (ev_wpn wv xs) (moved sigma_vel Pv s)) /\
      is_deriv_n 2 (cv_fun cv) (s * T) (vsub (ev_wpn wa xs) (moved sigma_acc Pa s)).
Proof. exact c33_x3_pts. Qed.
Print Assumptions C33_three.
Theorem C33_three_ends : forall pData T xs s, flag_of pData = F_x3 -> length xs = 3%nat -> 0 < T -> s = 0 \/ s = 1 ->
  exists pi cv wv wa, computeConstantWaypoints pData T = Ok pi /\ eff_curve pData T xs = Ok cv /\
    evaluateVelocityCurveWaypointAtTime pData T pi s = Ok wv /\
    evaluateAccelerationCurveWaypointAtTime pData T pi s = Ok wa /\
    is_deriv_n 1 (cv_fun cv) (s * T) (ev_wpn wv xs) /\ is_deriv_n 2 (cv_fun cv) (s * T) (ev_wpn wa xs).
Proof. exact c33_x3_ends. Qed.
Print Assumptions C33_three_ends.
(** A motion of 1 along x at rest at both ends ([x3_pb]): both are wrong in the
    middle whatever the free points. *)
Theorem C33_three_refuted : exists pData, flag_of pData = F_x3 /\ forall xs, length xs = 3%nat -> exists pi cv wv wa,
  computeConstantWaypoints pData 1 = Ok pi /\ eff_curve pData 1 xs = Ok cv /\
  evaluateVelocityCurveWaypointAtTime pData 1 pi (1 / 2) = Ok wv /\
  evaluateAccelerationCurveWaypointAtTime pData 1 pi (1 / 2) = Ok wa /\
  ~ is_deriv_n 1 (cv_fun cv) (1 / 2 * 1) (ev_wpn wv xs) /\ ~ is_deriv_n 2 (cv_fun cv) (1 / 2 * 1) (ev_wpn wa xs).
Proof. exact (ex_intro _ x3_pb (conj eq_refl c33_x3_refuted)). Qed.
Print Assumptions C33_three_refuted.

(** Five free points: wrong for every problem. *)
Theorem C33_five_velocity_refuted : forall pData T s, flag_of pData = F_x5 -> 0 < T ->
  exists pi xs cv w, length xs = 5%nat /\ computeConstantWaypoints pData T = Ok pi /\ eff_curve pData T xs = Ok cv /\
    evaluateVelocityCurveWaypointAtTime pData T pi s = Ok w /\ ~ is_deriv_n 1 (cv_fun cv) (s * T) (ev_wpn w xs).
Proof. exact c33_x5_vel. Qed.
Print Assumptions C33_five_velocity_refuted.
Theorem C33_five_acceleration_refuted : forall pData T s, flag_of pData = F_x5 -> 0 < T -> 0 < s < 1 ->
  exists pi xs cv w, length xs = 5%nat /\ computeConstantWaypoints pData T = Ok pi /\ eff_curve pData T xs = Ok cv /\
    evaluateAccelerationCurveWaypointAtTime pData T pi s = Ok w /\ ~ is_deriv_n 2 (cv_fun cv) (s * T) (ev_wpn w xs).
Proof. exact c33_x5_acc. Qed.
Print Assumptions C33_five_acceleration_refuted.

(** C34: the inequalities, for any lists of waypoints with the right number of
    blocks.  The upper bound on the jerk is [vb]. *)
Theorem C34_exact : forall pData wa wv ab vb wj jb,
  Forall (fun w => (3 * length (wn_blocks w) = dimVar pData)%nat) (wa ++ wv ++ wj) ->
  exists M, computeConstraintsMatrix pData wa wv ab vb wj jb = Ok M /\
    length M = (6 * length (filter dependsb (wa ++ wv ++ wj)) + dimVar pData)%nat /\
    Forall (fun r => length (fst r) = dimVar pData) M /\
    forall xs, (3 * length xs = dimVar pData)%nat ->
      (satX M (flat xs) <->
       Forall (bounded (vopp ab) ab xs) wa /\ Forall (bounded (vopp vb) vb xs) wv /\
       Forall (bounded (vopp jb) vb xs) wj /\
       Forall (fun x => Rmin (vz (c0 pData)) (vz (c1 pData)) <= vz x) xs).
Proof. exact c34_exact. Qed.
Print Assumptions C34_exact.
Theorem C34_jerk_bound_refuted : exists pData vb jb wj xs M,
  Forall (fun w => (3 * length (wn_blocks w) = dimVar pData)%nat) wj /\ (3 * length xs = dimVar pData)%nat /\
  computeConstraintsMatrix pData [] [] vb vb wj jb = Ok M /\ satX M (flat xs) /\
  exists w, In w wj /\ dependsb w = true /\ ~ le3 (ev_wpn w xs) jb.
Proof. exact jerk_bound_refuted. Qed.
Print Assumptions C34_jerk_bound_refuted.

(** What they mean for the motion: velocity and jerk are below 10000 all along,
    when the boundary conditions allow it and T is at most 10^6; the acceleration
    may not be. *)
Theorem C34_bounds : forall pData T xs pi M,
  In (flag_of pData) effector_flags -> length xs = eff_free (flag_of pData) -> 0 < T -> T <= 1000000 ->
  boundary_within 10000 pData T ->
  computeConstantWaypoints pData T = Ok pi -> computeEndEffectorConstraints pData T pi = Ok M -> satX M (flat xs) ->
  exists cv, eff_curve pData T xs = Ok cv /\ forall t, 0 <= t <= T ->
    exists v j, is_deriv_n 1 (cv_fun cv) t v /\ within 10000 v /\ is_deriv_n 3 (cv_fun cv) t j /\ within 10000 j.
Proof. exact c34_bounds. Qed.
Print Assumptions C34_bounds.
Theorem C34_acceleration_refuted : exists pData T xs pi M cv,
  In (flag_of pData) effector_flags /\ 0 < T /\ length xs = eff_free (flag_of pData) /\
  boundary_within 10000 pData T /\ within 10000 (ddc0 pData) /\ within 10000 (ddc1 pData) /\
  computeConstantWaypoints pData T = Ok pi /\ computeEndEffectorConstraints pData T pi = Ok M /\ satX M (flat xs) /\
  eff_curve pData T xs = Ok cv /\
  exists a, is_deriv_n 2 (cv_fun cv) (T / 2) a /\ 10300 < vx a.
Proof. exact acc_refuted. Qed.
Print Assumptions C34_acceleration_refuted.
(** The effector stays above the lower end. *)
Theorem C34_floor : forall pData T xs pi M,
  In (flag_of pData) effector_flags -> length xs = eff_free (flag_of pData) -> 0 < T ->
  boundary_above (Rmin (vz (c0 pData)) (vz (c1 pData))) pData T ->
  computeConstantWaypoints pData T = Ok pi -> computeEndEffectorConstraints pData T pi = Ok M -> satX M (flat xs) ->
  exists cv, eff_curve pData T xs = Ok cv /\ forall t, 0 <= t <= T ->
    Rmin (vz (c0 pData)) (vz (c1 pData)) <= vz (cv_fun cv t).
Proof. exact c34_floor. Qed.
Print Assumptions C34_floor.

(** C35: the distance cost, from a list of points and from a path. *)
Theorem C35_distance : forall N pData T pts, In (flag_of pData) effector_flags -> 0 < T -> (3 <= N <= length pts)%nat ->
  exists H g k K, computeDistanceCostFunction N pData T pts = Ok (H, g) /\ 0 < k /\
    length H = (3 * eff_free (flag_of pData))%nat /\ Forall (fun r => length r = (3 * eff_free (flag_of pData))%nat) H /\
    length g = (3 * eff_free (flag_of pData))%nat /\
    forall xs, length xs = eff_free (flag_of pData) -> exists cv, eff_curve pData T xs = Ok cv /\
      k * (quad H (flat xs) + 2 * rdot g (flat xs)) + K = path_gap N pData T cv (fun i => nth i pts vzero).
Proof. exact c35_distance. Qed.
Print Assumptions C35_distance.
Theorem C35_path : forall N pData T path (p : R -> vec3),
  In (flag_of pData) effector_flags -> 0 < T -> (3 <= N)%nat -> (forall s, 0 <= s <= 1 -> path s = Ok (p s)) ->
  exists H g k K, computeDistanceCostFunction_path N pData T path = Ok (H, g) /\ 0 < k /\
    (length H = (3 * eff_free (flag_of pData))%nat /\ Forall (fun r => length r = (3 * eff_free (flag_of pData))%nat) H) /\
    length g = (3 * eff_free (flag_of pData))%nat /\
    forall xs cv, length xs = eff_free (flag_of pData) -> eff_curve pData T xs = Ok cv ->
      k * (quad H (flat xs) + 2 * rdot g (flat xs)) + K = path_gap N pData T cv (fun i => p (INR i * (1 / (INR N - 1)))).
Proof. exact c35_path. Qed.
Print Assumptions C35_path.
(** With at most two points the code divides by zero. *)
Theorem C35_two_points : forall N pData T pts, In (flag_of pData) effector_flags -> 0 < T -> (N <= 2)%nat -> (N <= length pts)%nat ->
  computeDistanceCostFunction N pData T pts = UB.
Proof. exact c35_short. Qed.
Print Assumptions C35_two_points.

(** C36: the velocity cost. *)
Theorem C36_velocity : forall pData T, In (flag_of pData) effector_flags -> 0 < T ->
  exists pi H g N K, computeConstantWaypoints pData T = Ok pi /\ computeVelocityCost pData T pi = Ok (H, g) /\ 0 < N /\
    (forall i j, nth j (nth i (blocks_matx H) []) 0 = nth i (nth j (blocks_matx H) []) 0) /\
    forall xs M, length xs = eff_free (flag_of pData) -> exists cv, eff_curve pData T xs = Ok cv /\
      (Forall (within M) (bc_pts cv) ->
       exists i, speed_integral cv T i /\
       Rabs (N * (quad (blocks_matx H) (flat xs) + 2 * rdot (concat (map l3 g)) (flat xs)) + K
             - (2 * eff_degree (flag_of pData) - 1) * i) <= 3 * velocity_eps (flag_of pData) * (M * M) / T).
Proof. exact c36_velocity. Qed.
Print Assumptions C36_velocity.

(** With a solver that solves strictly convex problems, a plan is found whenever
    there are feasible free points, and up to that approximation it has the least
    weighted sum of the integral of the squared speed and of the distance to the
    path. *)
Theorem C36_plan : forall pData path (p : R -> vec3) T,
  In (flag_of pData) effector_flags -> 0 < T -> (forall s, 0 <= s <= 1 -> path s = Ok (p s)) ->
  exists a b, 0 < a /\ 0 < b /\ forall wg quadprog glpk init wd pi M ys,
  qp_solves quadprog -> (forall n, length (init n) = n) -> 0 <= wd <= 1 ->
  computeConstantWaypoints pData T = Ok pi -> computeEndEffectorConstraints pData T pi = Ok M ->
  length ys = eff_free (flag_of pData) -> satX M (flat ys) ->
  exists r xs, solveEndEffector wg quadprog glpk init pData path T wd = Ok r /\ rc_success r = true /\
    length xs = eff_free (flag_of pData) /\ rc_x r = flat xs /\ eff_curve pData T xs = Ok (rc_c r) /\ satX M (flat xs) /\
    forall zs cv B i j, length zs = eff_free (flag_of pData) -> satX M (flat zs) -> eff_curve pData T zs = Ok cv ->
      Forall (within B) (bc_pts (rc_c r)) -> Forall (within B) (bc_pts cv) ->
      speed_integral (rc_c r) T i -> speed_integral cv T j ->
      (1 - wd) * a * i + wd * b * path_gap 50 pData T (rc_c r) (fun k => p (INR k * (1 / (INR 50 - 1)))) <=
      (1 - wd) * a * j + wd * b * path_gap 50 pData T cv (fun k => p (INR k * (1 / (INR 50 - 1))))
      + (1 - wd) * a * (6 * velocity_eps (flag_of pData) * (B * B)) / ((2 * eff_degree (flag_of pData) - 1) * T).
Proof. exact c36_plan. Qed.
Print Assumptions C36_plan.
