{
 "claims": [
  {
   "property": "C01",
   "status": "proved",
   "theorems": [
    "C01_curve_exists",
    "C01_boundary"
   ],
   "note": "T > 0 is what the external Bezier constructor requires; capture flag needs dc1 = 0 (C07)."
  },
  {
   "property": "C02",
   "status": "proved",
   "theorems": [
    "C02_eval_curve"
   ],
   "note": "All seven CoM flags, every s."
  },
  {
   "property": "C03",
   "status": "proved",
   "theorems": [
    "C03_eval_acceleration"
   ],
   "note": "All seven CoM flags, derivative in the sense of the standard library."
  },
  {
   "property": "C04",
   "status": "proved",
   "theorems": [
    "C04_final_velocity"
   ],
   "note": "All seven CoM flags."
  },
  {
   "property": "C05",
   "status": "proved",
   "theorems": [
    "C05_wrench_waypoints"
   ],
   "note": "Five flags, exact identity at every time."
  },
  {
   "property": "C06",
   "status": "proved",
   "theorems": [
    "C06_wrench_waypoints_error"
   ],
   "note": "Bounds err_force, err_moment in SpecCom.v."
  },
  {
   "property": "C07",
   "status": "proved",
   "theorems": [
    "C07_capture_throws",
    "C07_capture_ends_at_rest"
   ],
   "note": ""
  },
  {
   "property": "C08",
   "status": "proved",
   "theorems": [
    "C08_dispatch_rejects"
   ],
   "note": "What accepted flags compute is C01-C06 and C29-C33."
  },
  {
   "property": "C09",
   "status": "proved",
   "theorems": [
    "C09_waypoint_access_in_range",
    "C09_constant_waypoints_defined"
   ],
   "note": "Ten accepted flags."
  },
  {
   "property": "C10",
   "status": "proved",
   "theorems": [
    "C10_fixed_discretisation"
   ],
   "note": "The header comment (n*p times, 0 excluded) disagrees with the code; proved is what the code does."
  },
  {
   "property": "C11",
   "status": "proved",
   "theorems": [
    "C11_step_discretisation",
    "C11_nonpositive_step_diverges"
   ],
   "note": "Termination as: a computed iteration budget suffices and more changes nothing; for dt <= 0 no budget suffices."
  },
  {
   "property": "C12",
   "status": "proved",
   "theorems": [
    "C12_switches_fixed",
    "C12_switches_step"
   ],
   "note": ""
  },
  {
   "property": "C13",
   "status": "proved",
   "theorems": [
    "C13_normalize"
   ],
   "note": "Rows of any length, any number of rows."
  },
  {
   "property": "C48",
   "status": "proved",
   "theorems": [
    "C48_skew",
    "C48_waypoint_add",
    "C48_waypoint_sub",
    "C48_waypoint_scale",
    "C48_initwp"
   ],
   "note": ""
  },
  {
   "property": "C14",
   "status": "proved",
   "theorems": [
    "C14_rows_fixed",
    "C14_rows_step"
   ],
   "note": "Both discretisations; number of rows given explicitly, every right-hand side written. well_posed (SpecCtr.v) lists what the code relies on."
  },
  {
   "property": "C15",
   "status": "proved",
   "theorems": [
    "C15_meaning_fixed",
    "C15_meaning_step",
    "C15_meaning_fixed_decimal",
    "C15_meaning_step_decimal"
   ],
   "note": "If-and-only-if for the five exact flags; two-sided with the C06 slack for the two decimal flags. Phases share one gravity (C46 otherwise). The cone is stated as the code enforces it: H w <= m |H| (h - reduce_h), see C45."
  },
  {
   "property": "C45",
   "status": "proved",
   "theorems": [
    "C45_offsets_not_rescaled"
   ],
   "note": "Exact criterion: zero offset or m|H| = 1."
  },
  {
   "property": "C46",
   "status": "proved",
   "theorems": [
    "C46_gravity_used",
    "C46_gravity_used_step",
    "C46_own_gravity_soundness_refuted",
    "C46_own_gravity_completeness_refuted"
   ],
   "note": "Exact meaning with per-phase gravities, and witnesses that the intended meaning fails both ways."
  },
  {
   "property": "C49",
   "status": "proved",
   "theorems": [
    "C49_zero_points_per_phase"
   ],
   "note": "Every problem with two or more durations."
  },
  {
   "property": "C17",
   "status": "proved",
   "theorems": [
    "C17_kinematics_acceleration",
    "C17_double_description",
    "C17_double_description_decimal",
    "C17_exact",
    "C17_position_points_unique",
    "C17_acceleration_points_unique",
    "C17_wrench_points_unique",
    "C17_unscaled_acceleration_refuted",
    "C17_short_last_phase_fails",
    "C17_plan_kinematics",
    "C17_plan_double_description",
    "C17_plan_double_description_decimal"
   ],
   "note": "Holds for both behaviours of the external curve derivative; with the unscaled one the intended acceleration bound is refuted. splittable/long_phases: minimal durations the external split accepts; a last phase below 1/1000 fails. Phases share one gravity."
  },
  {
   "property": "C18",
   "status": "proved",
   "theorems": [
    "C18_undropped_phase",
    "C18_nested_cones",
    "C18_nested_cones_decimal",
    "C18_exact",
    "C18_refuted",
    "C18_plan_forces",
    "C18_plan_forces_decimal"
   ],
   "note": "Exact criterion for existence of forces, soundness where justified, witness of unsoundness where not."
  },
  {
   "property": "C19",
   "status": "proved",
   "theorems": [
    "C19_sizes"
   ],
   "note": ""
  },
  {
   "property": "C20",
   "status": "proved",
   "theorems": [
    "C20_rows"
   ],
   "note": ""
  },
  {
   "property": "C21",
   "status": "proved",
   "theorems": [
    "C21_symbolic_iff",
    "C21_starts_elsewhere_refuted"
   ],
   "note": ""
  },
  {
   "property": "C47",
   "status": "proved",
   "theorems": [
    "C47_continuous_ignores_flag",
    "C47_discretised_uses_flag",
    "C47_discretised_uses_flag_step"
   ],
   "note": ""
  },
  {
   "property": "C50",
   "status": "proved",
   "theorems": [
    "C50_plain_points",
    "C50_affine_points"
   ],
   "note": "Any degree, curve library's split and extract modelled in ModelNd.v."
  },
  {
   "property": "C16",
   "status": "proved",
   "theorems": [
    "C16_plan_step",
    "C16_plan_step_decimal",
    "C16_plan_fixed",
    "C16_plan_fixed_decimal"
   ],
   "note": "Exact for the flags whose wrench waypoints are exact; for the two flags with decimal coefficients the stability rows hold up to the slack err_force/err_moment.  Both back ends, assumed feasible on success."
  },
  {
   "property": "C22",
   "status": "proved",
   "theorems": [
    "C22_distance",
    "C22_acceleration",
    "C22_times_fixed",
    "C22_times_step",
    "C22_unknown"
   ],
   "note": ""
  },
  {
   "property": "C23",
   "status": "proved",
   "theorems": [
    "C23_cost_throws",
    "C23_never_plans"
   ],
   "note": "The code never accepts this cost."
  },
  {
   "property": "C24",
   "status": "proved",
   "theorems": [
    "C24_result",
    "C24_result_fixed",
    "C24_mismatch_throws",
    "C24_failed",
    "C24_failed_fixed",
    "C24_failed_0step",
    "C24_effector"
   ],
   "note": "Arbitrary back ends and arbitrary problems."
  },
  {
   "property": "C37",
   "status": "proved",
   "theorems": [
    "C37_quadprog",
    "C37_unknown_solver"
   ],
   "note": ""
  },
  {
   "property": "C38",
   "status": "proved",
   "theorems": [
    "C38_upper_bounds",
    "C37_quadprog"
   ],
   "note": "The code violates the intended guarantee: upper bounds always overflow."
  },
  {
   "property": "C39",
   "status": "proved",
   "theorems": [
    "C39_glpk"
   ],
   "note": ""
  },
  {
   "property": "C51",
   "status": "proved",
   "theorems": [
    "C51_distance_step",
    "C51_distance_fixed",
    "C51_acceleration_step",
    "C51_acceleration_fixed",
    "C51_distance_step_decimal",
    "C51_distance_fixed_decimal",
    "C51_acceleration_step_decimal",
    "C51_acceleration_fixed_decimal"
   ],
   "note": "Flags with exact wrench coefficients (C05) and, with the error of C06 as reserve and slack, the two with decimal ones (*_decimal). Relative to a QP back end that solves feasible strictly convex problems (explicit hypothesis qp_solves). For which samplings the acceleration depends on the free point: C96."
  },
  {
   "property": "C52",
   "status": "proved",
   "theorems": [
    "C52_constant_cost"
   ],
   "note": ""
  },
  {
   "property": "C25",
   "status": "proved",
   "theorems": [
    "C25_plan",
    "C25_exact",
    "C25_kinematics",
    "C25_kinematics_refuted"
   ],
   "note": "Everything but the kinematic constraint holds for every problem; with angular momentum the code violates the kinematic part (refuted with a witness; exact constraint given)."
  },
  {
   "property": "C26",
   "status": "proved",
   "theorems": [
    "C26_plan",
    "C26_exact",
    "C25_plan"
   ],
   "note": "N = 0 is the case z_no_steps of C25. T/timeStep must fit an int."
  },
  {
   "property": "C27",
   "status": "proved",
   "theorems": [
    "C27_momentum",
    "C27_cost",
    "C27_objective",
    "C27_optimal"
   ],
   "note": ""
  },
  {
   "property": "C28",
   "status": "proved",
   "theorems": [
    "C28_ignored",
    "C28_angular_refuted",
    "C28_foreign",
    "C25_exact",
    "C26_exact"
   ],
   "note": "The exact constraint in place of the user's is z_mixed in Spec0Step.v."
  },
  {
   "property": "C29",
   "status": "proved",
   "theorems": [
    "C29_boundary",
    "C29_plan"
   ],
   "note": ""
  },
  {
   "property": "C30",
   "status": "proved",
   "theorems": [
    "C30_waypoints"
   ],
   "note": ""
  },
  {
   "property": "C31",
   "status": "proved",
   "theorems": [
    "C31_acceleration"
   ],
   "note": "Exact characterisation of the wrong entries (acc_errs in SpecEff.v)."
  },
  {
   "property": "C32",
   "status": "proved",
   "theorems": [
    "C32_curve",
    "C32_jerk",
    "C32_jerk_x5_refuted"
   ],
   "note": ""
  },
  {
   "property": "C33",
   "status": "proved",
   "theorems": [
    "C33_one",
    "C33_three",
    "C33_three_ends",
    "C33_three_refuted",
    "C33_five_velocity_refuted",
    "C33_five_acceleration_refuted"
   ],
   "note": ""
  },
  {
   "property": "C34",
   "status": "proved",
   "theorems": [
    "C34_exact",
    "C34_bounds",
    "C34_floor",
    "C34_jerk_bound_refuted",
    "C34_acceleration_refuted"
   ],
   "note": "The intended acceleration and jerk bounds are violated by the code (refuted with witnesses)."
  },
  {
   "property": "C35",
   "status": "proved",
   "theorems": [
    "C35_distance",
    "C35_path",
    "C35_two_points"
   ],
   "note": ""
  },
  {
   "property": "C36",
   "status": "proved",
   "theorems": [
    "C36_velocity",
    "C36_plan"
   ],
   "note": ""
  },
  {
   "property": "C40",
   "status": "proved",
   "theorems": [
    "C40_optimal",
    "C40_minimiser",
    "C40_lower_bound",
    "C40_infeasible",
    "C40_redundant",
    "C40_feasible_problem",
    "C40_equalities",
    "C40_equality_refuted",
    "C40_infeasible_refuted"
   ],
   "note": "Dense dual active-set solver, exact arithmetic. The condition well_scaled (data on the scale of the solver's absolute thresholds) is needed: the two refuted theorems give wrong answers without it."
  },
  {
   "property": "C41",
   "status": "proved",
   "theorems": [
    "C41_terminates",
    "C41_conditioned",
    "C41_accuracy",
    "C41_loop_refuted"
   ],
   "note": "Termination under the conditions of C40; a family of feasible problems on which it never returns."
  },
  {
   "property": "C42",
   "status": "proved",
   "theorems": [
    "C42_safe",
    "C42_conditioned",
    "C42_no_way_back",
    "C42_restore_refuted",
    "C42_many_equalities",
    "C42_repeated_equality_refuted"
   ],
   "note": "Index safety under the conditions of C40; the restoring branch is never survived with an equality; too many equalities."
  },
  {
   "property": "C43",
   "status": "proved",
   "theorems": [
    "C43_copy",
    "C43_copy_changes",
    "C43_copy_defined",
    "C43_assign",
    "C43_problems",
    "C43_add_contact",
    "C43_problem_assignment_refuted",
    "C43_python",
    "C43_python_refuted"
   ],
   "note": "All histories. The intended independence fails after problem assignment, and python can lose a phase: both as refuted theorems."
  },
  {
   "property": "C44",
   "status": "proved",
   "theorems": [
    "C44_consistent",
    "C44_mismatch",
    "C44_raised",
    "C44_set_kinematic",
    "C44_set_angular",
    "C44_get"
   ],
   "note": "All histories of the python interface and of C++ copies and assignments; direct writes to the public fields in C++ are not covered."
  },
  {
   "property": "C53",
   "status": "proved",
   "theorems": [
    "C53_fixed",
    "C53_step",
    "C53_rate",
    "C53_weight",
    "C53_fixed_decimal",
    "C53_step_decimal"
   ],
   "note": "Sampled formulation, flags whose wrench coefficients are exact (C05) and, with the error of C06 added, the two with decimal ones (*_decimal); exact arithmetic. C53_rate and C53_weight give the constants of the scale condition."
  },
  {
   "property": "C54",
   "status": "proved",
   "theorems": [
    "C54_best_fixed",
    "C54_best_step",
    "C54_optimal_fixed",
    "C54_optimal_step",
    "C54_best_fixed_decimal",
    "C54_best_step_decimal",
    "C54_optimal_fixed_decimal",
    "C54_optimal_step_decimal"
   ],
   "note": "Sampled formulation, flags of C05 and, with the error of C06 in reserve, the two of C06 (*_decimal). The lower bound needs well_scaled of the QP (see the refutations of C40)."
  },
  {
   "property": "C55",
   "status": "proved",
   "theorems": [
    "C55_dense",
    "C55_sparse",
    "C55_limit",
    "C55_size_refuted"
   ],
   "note": "All histories of a solver whose m_J and is_inverse_provided_ the caller does not write. The stale getActiveSetSize after REDUNDANT_EQUALITIES is a refuted theorem."
  },
  {
   "property": "C56",
   "status": "proved",
   "theorems": [
    "C56_certificate",
    "C56_sufficient"
   ],
   "note": "Convex problems on the scale of the thresholds (well_scaled)."
  },
  {
   "property": "C57",
   "status": "proved",
   "theorems": [
    "C57_opposite",
    "C57_forgotten",
    "C57_refuted"
   ],
   "note": "Exact characterisation of what the code does; the intended guarantee is refuted."
  },
  {
   "property": "C58",
   "status": "proved",
   "theorems": [
    "C58_projection",
    "C58_decides",
    "C58_scalar",
    "C58_refuted"
   ],
   "note": "Exact characterisation of what the code does; the intended guarantee is refuted, and proved for multiples of the identity."
  },
  {
   "property": "C59",
   "status": "proved",
   "theorems": [
    "C59_limit",
    "C59_decides",
    "C59_dependent",
    "C59_subsets"
   ],
   "note": "Convex problems on the scale of the thresholds (well_scaled)."
  },
  {
   "property": "C60",
   "status": "proved",
   "theorems": [
    "C60_init",
    "C60_goal",
    "C60_other_end"
   ],
   "note": "for all data and T > 0"
  },
  {
   "property": "C61",
   "status": "proved",
   "theorems": [
    "C61_sampled",
    "C61_jerk",
    "C61_acceleration_one",
    "C61_velocity",
    "C61_velocity_one",
    "C61_velocity_refuted",
    "C61_one_sample"
   ],
   "note": "exact meaning of the three sampled costs; the velocity cost drops the products of different free points, so for three and five free points the intended reading is refuted for every problem, with three samples (not shown for other numbers of samples; C61_velocity gives the exact meaning for all of them)"
  },
  {
   "property": "C62",
   "status": "proved",
   "theorems": [
    "C62_continuous",
    "C62_rate",
    "C62_continuous_decimal",
    "C62_rate_decimal"
   ],
   "note": "Continuous formulation in double description, flags whose wrench coefficients are exact (C05) and, with the error of C06 added, the two with decimal ones (*_decimal); exact arithmetic. C62_rate and C62_rate_decimal give the constant of the wrench."
  },
  {
   "property": "C63",
   "status": "proved",
   "theorems": [
    "C63_best",
    "C63_optimal",
    "C63_best_decimal",
    "C63_optimal_decimal"
   ],
   "note": "As C62. Feasibility is that of the control points, which is sufficient but not necessary for that of the motion at every instant (C17). The lower bound needs well_scaled of the QP (see the refutations of C40)."
  },
  {
   "property": "C64",
   "status": "proved",
   "theorems": [
    "C64_continuous",
    "C64_samples"
   ],
   "note": "Exact arithmetic. The scale condition is z_on_scale. The geometric constraints are those the code enforces (z_mixed with angular momentum, see C28), with kin_ increased by the tolerance."
  },
  {
   "property": "C65",
   "status": "proved",
   "theorems": [
    "C65_best",
    "C65_optimal",
    "C65_rows"
   ],
   "note": "C65_best needs no condition on the scale. C65_optimal needs well_scaled of the QP (see the refutations of C40) and z_on_scale; feasibility without a time step is that of the control points of the wrench."
  },
  {
   "property": "C66",
   "status": "proved",
   "theorems": [
    "C66_plan"
   ],
   "note": "Exact arithmetic. The scale condition is eff_on_scale (SpecEnd4.v); at weight 0 it is met from about 0.03, 0.18 and 0.77 s on for the three flags. The acceleration is not claimed (see C34)."
  },
  {
   "property": "C67",
   "status": "proved",
   "theorems": [
    "C67_best",
    "C67_follow",
    "C67_optimal"
   ],
   "note": "C67_best and C67_follow need no condition on the scale. For one free point the followed path is compared with the curve plus the term of C32 (path_gap). C67_optimal needs well_scaled of the QP (see the refutations of C40) and eff_on_scale."
  },
  {
   "property": "C68",
   "status": "proved",
   "theorems": [
    "C68_continuous",
    "C68_samples",
    "C68_return",
    "C68_plain",
    "C68_kinematics_refuted",
    "C68_null",
    "C68_shape",
    "C68_short"
   ],
   "note": "Exact arithmetic. The scale condition is py_on_scale. With angular momentum Kin is not applied to the capture point but to the sum of the two halves of x, so Kin x <= kin can fail (C68_kinematics_refuted)."
  },
  {
   "property": "C69",
   "status": "proved",
   "theorems": [
    "C69_zero_step",
    "C69_com",
    "C69_effector",
    "C69_default"
   ],
   "note": "Any back end. computeEndEffector never sets the cost."
  },
  {
   "property": "C70",
   "status": "proved",
   "theorems": [
    "C70_made",
    "C70_write",
    "C70_names",
    "C70_undefined",
    "C70_live",
    "C70_private",
    "C70_no_ref",
    "C70_once",
    "C70_refuted"
   ],
   "note": "The getter returns a reference that does not keep its problem alive; C70_refuted is the four-line program that uses it afterwards."
  },
  {
   "property": "C71",
   "status": "proved",
   "theorems": [
    "C71_plan",
    "C71_best",
    "C71_optimal",
    "C71_distance"
   ],
   "note": "Exact arithmetic. C71_best needs no condition on the scale. C71_optimal needs well_scaled of the QP (see the refutations of C40)."
  },
  {
   "property": "C72",
   "status": "proved",
   "theorems": [
    "C72_answers",
    "C72_safe",
    "C72_spread"
   ],
   "note": "Exact arithmetic. The thresholds of the code are the only constants; C42_restore_refuted shows what happens with a row too long."
  },
  {
   "property": "C73",
   "status": "proved",
   "theorems": [
    "C73_plan",
    "C73_nested"
   ],
   "note": "Exact arithmetic, exact_w_flags. force_scale is sufficient, not necessary; ex_C73 is a robot of 50 kg on four and five contacts with a tolerance below 1e-5. The balance is a bound on the distance of the wrench to the cone, since the solver lets forces be negative within its tolerance."
  },
  {
   "property": "C74",
   "status": "proved",
   "theorems": [
    "C74_best",
    "C74_solver"
   ],
   "note": "Exact arithmetic, exact_w_flags. Says nothing when the cheapest balancing forces would pull somewhere: then the solver has to move on, and only C73 applies. ex_C74: standing still on four corners, 96 forces."
  },
  {
   "property": "C75",
   "status": "proved",
   "theorems": [
    "C75_samples",
    "C75_unit",
    "C75_refuted"
   ],
   "note": "Double arithmetic (Flocq). C75_refuted: 49 intervals."
  },
  {
   "property": "C76",
   "status": "proved",
   "theorems": [
    "C76_samples",
    "C76_ends",
    "C76_stuck",
    "C76_refuted",
    "C76_close"
   ],
   "note": "Double arithmetic (Flocq). The conditions of C76_ends and C76_stuck leave a gap of about a factor of four in the step."
  },
  {
   "property": "C77",
   "status": "proved",
   "theorems": [
    "C77_samples"
   ],
   "note": "Double arithmetic (Flocq). The total is an argument because Eigen chooses the order of the sum."
  },
  {
   "property": "C78",
   "status": "proved",
   "theorems": [
    "C78_iff",
    "C78_left",
    "C78_refuted"
   ],
   "note": "Double arithmetic (Flocq). The order of Eigen's sum and the test of the curve library's extract are from memory (trusted base)."
  },
  {
   "property": "C79",
   "status": "proved",
   "theorems": [
    "C79_count",
    "C79_undefined",
    "C79_refuted"
   ],
   "note": "Double arithmetic (Flocq)."
  },
  {
   "property": "C80",
   "status": "proved",
   "theorems": [
    "C80_step",
    "C80_step_decimal",
    "C80_fixed",
    "C80_fixed_decimal"
   ],
   "note": "Times in double arithmetic (Flocq), points and rows in exact arithmetic. T is any positive double, so it covers every order of summation."
  },
  {
   "property": "C81",
   "status": "proved",
   "theorems": [
    "C81_step",
    "C81_step_decimal",
    "C81_fixed",
    "C81_fixed_decimal",
    "C81_refuted"
   ],
   "note": "Exact arithmetic. The tolerance of the decimal flags adds to the wrench slack. C81_refuted: the constraints need not hold between samples."
  },
  {
   "property": "C82",
   "status": "proved",
   "theorems": [
    "C82_gap",
    "C82_refuted"
   ],
   "note": "Exact arithmetic. C82_refuted: the wrench need not be in the cone between samples."
  },
  {
   "property": "C83",
   "status": "proved",
   "theorems": [
    "C83_fixed",
    "C83_step",
    "C83_fixed_decimal",
    "C83_step_decimal",
    "C83_zero"
   ],
   "note": "Exact arithmetic in the model of the solver, as for C53 and C64; the solver enters through its own tolerances. Combines C53/C64 with C81/C82."
  },
  {
   "property": "C84",
   "status": "proved",
   "theorems": [
    "C84_step",
    "C84_step_decimal",
    "C84_fixed",
    "C84_fixed_decimal"
   ],
   "note": "Times in IEEE doubles; points, rows and the curve in exact arithmetic. The step version assumes, as C76 and C80, that the sampling loop ends (C76 says when)."
  },
  {
   "property": "C85",
   "status": "proved",
   "theorems": [
    "C85_waypoints",
    "C85_problem",
    "C85_meaning",
    "C85_cost"
   ],
   "note": "Attributes A and b are modelled as copies of the result; the conversions of eigenpy are not modelled. computeEndEffector of python has weight 0 for the path, so only the velocity cost enters."
  },
  {
   "property": "C86",
   "status": "proved",
   "theorems": [
    "C86_points",
    "C86_com",
    "C86_effector",
    "C86_guard",
    "C86_velocity_refuted",
    "C86_guard_refuted"
   ],
   "note": "The control points are computed in doubles; the curve through them and the time are exact, so the rounding of the evaluation of the curve is not covered. The final velocity is assumed zero for the flag without final position in C86_points and C86_com; C86_guard says what happens otherwise. Data beyond 2^200 are not covered."
  },
  {
   "property": "C87",
   "status": "proved",
   "theorems": [
    "C87_positions",
    "C87_accelerations"
   ],
   "note": "The fixed control points, the normalised times and the coefficients are computed in doubles; scalar times x plus vector is exact. The exact curve is the one of the exact control points, so this includes the error of C86. The final velocity is assumed zero for the flag without final position. The error constants are not the best possible. The samples of the wrench are not covered."
  },
  {
   "property": "C88",
   "status": "proved",
   "theorems": [
    "C88_kinematics",
    "C88_accelerations"
   ],
   "note": "Everything from the problem data to the rows is computed in doubles (C86, C87 and the rows themselves); the rows are then read as exact inequalities, the solver is not included. The order in which Eigen adds the terms of a right-hand side is an argument. The rows are listed, not placed in a matrix (their places and number are C14). The final velocity is assumed zero for the flag without final position. The stability rows are not covered."
  },
  {
   "property": "C89",
   "status": "proved",
   "theorems": [
    "C89_step",
    "C89_fixed"
   ],
   "note": "Joins C76-C80 (times), C86 (control points), C88 (rows) and C84 (between samples). The rows are read as exact inequalities and the free point is any exact point: the solver is not included, its error is the slack. The curve is a function of exact time. With a fixed number of points per phase T is within a given distance of the exact total, which enters the tolerance. The final velocity is assumed zero for the flag without final position. The stability constraints are not covered."
  },
  {
   "property": "C90",
   "status": "proved",
   "theorems": [
    "C90_unique",
    "C90_found",
    "C90_returned"
   ],
   "note": "Exact arithmetic, back end as in C51 (qp_solves) and, for C90_returned, sound. Flags F_acc_dc1_c1 and F_acc_all are excluded because their stability rows differ from the constraint (C15). The hypothesis cost_decides holds for both costs and every sampling by C96_decides."
  },
  {
   "property": "C91",
   "status": "proved",
   "theorems": [
    "C91_eases",
    "C91_same"
   ],
   "note": "Exact arithmetic, back end as in C90. The masses do not matter because the code scales margin and offset with the mass and the length of the row (C45). The hypothesis cost_decides holds for both costs and every sampling by C96_decides."
  },
  {
   "property": "C92",
   "status": "proved",
   "theorems": [
    "C92_plan",
    "C92_back",
    "C92_origin_refuted",
    "C92_axes_refuted"
   ],
   "note": "Exact arithmetic, back end as in C90. The cost compared is the distance or the sum of squared accelerations, not the reported objective, which lacks a constant term that depends on the origin. The polytope of the moved problem is the given one rewritten; how centroidal-dynamics computes it is not modelled. The hypothesis cost_decides holds for both costs and every sampling by C96_decides."
  },
  {
   "property": "C93",
   "status": "proved",
   "theorems": [
    "C93_plan",
    "C93_twice",
    "C93_step_refuted"
   ],
   "note": "Exact arithmetic, back end as in C90. C93_twice turns C93_plan into an equivalence. The other symmetric flag (accelerations at both ends too) is excluded, its stability rows differ from the constraint (C15). The hypothesis cost_decides holds for both costs and every sampling by C96_decides."
  },
  {
   "property": "C94",
   "status": "proved",
   "theorems": [
    "C94_plan",
    "C94_back",
    "C94_length_refuted"
   ],
   "note": "Exact arithmetic, back end as in C90. For a change of the unit of length the offsets must equal the margin; C94_length_refuted shows a problem with offsets 0 and the default margin where the unit decides. The hypothesis cost_decides holds for both costs and every sampling by C96_decides."
  },
  {
   "property": "C95",
   "status": "proved",
   "theorems": [
    "C95_cut",
    "C95_acceleration_refuted"
   ],
   "note": "Exact arithmetic, back end as in C90, planning with a time step; successful results. C95_acceleration_refuted: with the acceleration cost the instant of the cut is counted twice."
  },
  {
   "property": "C96",
   "status": "proved",
   "theorems": [
    "C96_six",
    "C96_decides",
    "C96_seventh",
    "C96_undefined",
    "C96_ends_refuted"
   ],
   "note": "Exact arithmetic. The outcome is UB in the model: a zero pivot in the factorisation of the bundled solver, whose failure the code does not check (ModelQp.v, chol); C96_ends_refuted shows it for every problem of one phase sampled at its ends."
  },
  {
   "property": "C97",
   "status": "proved",
   "theorems": [
    "C97_accepted",
    "C97_found",
    "C97_converse_refuted"
   ],
   "note": "Exact arithmetic, back end as in C90. The condition on zero control points is that of C17 and C21, the one on the duration that of C17_unscaled_acceleration_refuted. C97_converse_refuted: a problem with plans at the samples and no motion meeting the constraints in between."
  },
  {
   "property": "C98",
   "status": "proved",
   "theorems": [
    "C98_mix",
    "C98_results"
   ],
   "note": "Exact arithmetic. C98_mix speaks of motions and needs no back end; its constraints are the stated ones, not the rows of the code, so it covers the flags with decimal coefficients too."
  },
  {
   "property": "C99",
   "status": "proved",
   "theorems": [
    "C99_back_ends"
   ],
   "note": "Exact arithmetic. The bundled solver meets the hypotheses only up to its tolerances (C53, C54)."
  },
  {
   "property": "C100",
   "status": "proved",
   "theorems": [
    "C100_unique",
    "C100_found",
    "C100_returned",
    "C100_back_ends"
   ],
   "note": "Exact arithmetic, assertions off. The constraints are those the code enforces (C25, C26, C28), not all of those the user gives."
  },
  {
   "property": "C101",
   "status": "proved",
   "theorems": [
    "C101_refined",
    "C101_mix",
    "C101_converse_refuted"
   ],
   "note": "Exact arithmetic, assertions off; constraints as in C100. C101_converse_refuted: samples at the two ends only."
  },
  {
   "property": "C102",
   "status": "proved",
   "theorems": [
    "C102_plan",
    "C102_back",
    "C102_origin_refuted"
   ],
   "note": "Exact arithmetic, assertions off. C102_origin_refuted: the kinematic rows are also applied to the momentum point (C28), which a shift of the origin does not move."
  },
  {
   "property": "C103",
   "status": "proved",
   "theorems": [
    "C103_five",
    "C103_start"
   ],
   "note": "Exact arithmetic. The exact deviation behind C32_jerk_x5_refuted, C33_five_velocity_refuted and C33_five_acceleration_refuted."
  },
  {
   "property": "C104",
   "status": "proved",
   "theorems": [
    "C104_one",
    "C104_more",
    "C104_right"
   ],
   "note": "Exact arithmetic. The code violates the intended guarantee (the value should be the final velocity); the theorems say exactly where."
  },
  {
   "property": "C105",
   "status": "proved",
   "theorems": [
    "C105_back_ends",
    "C105_path"
   ],
   "note": "Exact arithmetic. A correct back end is one that returns a minimiser of every strictly convex feasible problem (qp_solves) and whose answers marked optimal are feasible (qp_sound; needed only for the first one)."
  },
  {
   "property": "C106",
   "status": "proved",
   "theorems": [
    "C106_count",
    "C106_planned"
   ],
   "note": ""
  },
  {
   "property": "C107",
   "status": "proved",
   "theorems": [
    "C107_axis",
    "C107_combine"
   ],
   "note": "Exact arithmetic, correct back ends (qp_solves and qp_sound) as in C105; paths defined on [0,1]."
  },
  {
   "property": "C108",
   "status": "proved",
   "theorems": [
    "C108_turn"
   ],
   "note": "Exact arithmetic, correct back ends (qp_solves, and qp_sound for the first) as in C105; paths defined on [0,1]. One step of quarter turn or reflection per application of the theorem."
  },
  {
   "property": "C109",
   "status": "proved",
   "theorems": [
    "C109_one",
    "C109_more",
    "C109_more_refuted",
    "C109_smooth_refuted"
   ],
   "note": "Exact arithmetic, correct back ends as in C105. One free point only for weight 1: for weight 0 exact invariance fails because of the decimal constants of the velocity cost (C109_smooth_refuted); weights strictly between are not covered. The expected guarantee fails for three and five free points (C109_more, C109_more_refuted), a consequence of the acceleration entries described under C31."
  },
  {
   "property": "C110",
   "status": "proved",
   "theorems": [
    "C110_found",
    "C110_path",
    "C110_speed",
    "C110_negative"
   ],
   "note": "Exact arithmetic; back ends that solve the program exactly (qp_solves, qp_sound), as in C105. The path is a total function on [0,1]."
  },
  {
   "property": "C111",
   "status": "proved",
   "theorems": [
    "C111_wrench",
    "C111_ends",
    "C111_samples",
    "C111_refuted"
   ],
   "note": "Exact arithmetic. The expected guarantee fails: C111_ends gives the end conditions that hold instead, C111_refuted a reported plan that misses c1 and a kinematic limit at a sampled time. C111_wrench is stated for x, T and the curve of computeBezierCurve."
  },
  {
   "property": "C112",
   "status": "proved",
   "theorems": [
    "C112_any_solver",
    "C112_zero_step",
    "C112_effector"
   ],
   "note": "Exact arithmetic. Says nothing about the constraints between the ends: these need a back end whose answers are feasible (C16, C17, C25, C34)."
  },
  {
   "property": "C113",
   "status": "proved",
   "theorems": [
    "C113_com",
    "C113_com_fixed",
    "C113_zero_step",
    "C113_effector",
    "C113_refuted"
   ],
   "note": "Any outcome, success or not, and any back end. C113_refuted is the exception of the distance cost, for every back end that solves convex problems."
  },
  {
   "property": "C114",
   "status": "proved",
   "theorems": [
    "C114_curve",
    "C114_path",
    "C114_path_refuted"
   ],
   "note": "About the curve and the sampled distance, not about which plan the solver returns for the reversed problem."
  }
 ]
}