{"id": "C01", "title": "CoM curve meets its boundary conditions", "statement": "For each of the seven CoM constraint flags, the curve built from computeConstantWaypoints(pData,T) and a free point x by computeBezierCurve is defined on [0,T] and has, for every x, value c0 and derivative dc0 at 0 (and second derivative ddc0 when INIT_ACC is set), and value c1 / derivative dc1 / second derivative ddc1 at T whenever END_POS / END_VEL / END_ACC is set.", "quantifier": "every supported flag, every initial/final state, every duration T > 0, every free point x", "why_tests_cant": "a test fixes a few states and durations; a wrong coefficient that vanishes for dc0=0 or T=1 passes", "anchors": ["include/hpp/bezier-com-traj/waypoints/waypoints_c0_dc0_c1.hh:computeConstantWaypoints", "include/hpp/bezier-com-traj/waypoints/waypoints_c0_dc0_dc1.hh:computeConstantWaypoints", "include/hpp/bezier-com-traj/waypoints/waypoints_c0_dc0_dc1_c1.hh:computeConstantWaypoints", "include/hpp/bezier-com-traj/waypoints/waypoints_c0_dc0_ddc0.hh:computeConstantWaypoints", "include/hpp/bezier-com-traj/waypoints/waypoints_c0_dc0_ddc0_c1.hh:computeConstantWaypoints", "include/hpp/bezier-com-traj/waypoints/waypoints_c0_dc0_ddc0_dc1_c1.hh:computeConstantWaypoints", "include/hpp/bezier-com-traj/waypoints/waypoints_c0_dc0_ddc0_ddc1_dc1_c1.hh:computeConstantWaypoints", "include/hpp/bezier-com-traj/utils.hh:computeBezierCurve", "src/waypoints_definition.cpp:computeConstantWaypoints"]}
{"id": "C02", "title": "evaluateCurveAtTime is the curve, as an affine function of the free point", "statement": "For each of the seven CoM flags, evaluateCurveAtTime(pData,pi,s) with pi=computeConstantWaypoints(pData,T) returns (a,v) such that a*x+v is the point at time s*T of the curve that is returned to the user for the free point x.", "quantifier": "every flag, every state, every duration T > 0, every normalised time s, every x", "why_tests_cant": "hand-expanded sympy polynomials in s; agreement at sampled times does not give agreement at all times and for all x", "anchors": ["include/hpp/bezier-com-traj/waypoints/waypoints_c0_dc0_c1.hh:evaluateCurveAtTime", "include/hpp/bezier-com-traj/waypoints/waypoints_c0_dc0_dc1.hh:evaluateCurveAtTime", "include/hpp/bezier-com-traj/waypoints/waypoints_c0_dc0_dc1_c1.hh:evaluateCurveAtTime", "include/hpp/bezier-com-traj/waypoints/waypoints_c0_dc0_ddc0.hh:evaluateCurveAtTime", "include/hpp/bezier-com-traj/waypoints/waypoints_c0_dc0_ddc0_c1.hh:evaluateCurveAtTime", "include/hpp/bezier-com-traj/waypoints/waypoints_c0_dc0_ddc0_dc1_c1.hh:evaluateCurveAtTime", "include/hpp/bezier-com-traj/waypoints/waypoints_c0_dc0_ddc0_ddc1_dc1_c1.hh:evaluateCurveAtTime", "src/waypoints_definition.cpp:evaluateCurveAtTime"]}
{"id": "C03", "title": "evaluateAccelerationCurveAtTime is the second time derivative", "statement": "For each of the seven CoM flags, evaluateAccelerationCurveAtTime(pData,pi,T,s) returns (a,v) such that a*x+v is the second derivative, with respect to time, of the returned curve at time s*T.", "quantifier": "every flag, every state, every duration T > 0, every normalised time, every x", "why_tests_cant": "needs derivatives at every time and every free point; numerical differentiation in tests is approximate", "anchors": ["include/hpp/bezier-com-traj/waypoints/waypoints_c0_dc0_c1.hh:evaluateAccelerationCurveAtTime", "include/hpp/bezier-com-traj/waypoints/waypoints_c0_dc0_dc1.hh:evaluateAccelerationCurveAtTime", "include/hpp/bezier-com-traj/waypoints/waypoints_c0_dc0_dc1_c1.hh:evaluateAccelerationCurveAtTime", "include/hpp/bezier-com-traj/waypoints/waypoints_c0_dc0_ddc0.hh:evaluateAccelerationCurveAtTime", "include/hpp/bezier-com-traj/waypoints/waypoints_c0_dc0_ddc0_c1.hh:evaluateAccelerationCurveAtTime", "include/hpp/bezier-com-traj/waypoints/waypoints_c0_dc0_ddc0_dc1_c1.hh:evaluateAccelerationCurveAtTime", "include/hpp/bezier-com-traj/waypoints/waypoints_c0_dc0_ddc0_ddc1_dc1_c1.hh:evaluateAccelerationCurveAtTime"]}
{"id": "C04", "title": "computeFinalVelocityPoint is the end velocity", "statement": "For each of the seven CoM flags, computeFinalVelocityPoint(pData,T) returns (a,v) such that a*x+v is the derivative at T of the curve for the free point x.", "quantifier": "every flag, every state, every duration T > 0, every x", "why_tests_cant": "no test exercises it; a wrong factor only shows for non-zero end velocities", "anchors": ["include/hpp/bezier-com-traj/waypoints/waypoints_c0_dc0_c1.hh:computeFinalVelocityPoint", "include/hpp/bezier-com-traj/waypoints/waypoints_c0_dc0_dc1.hh:computeFinalVelocityPoint", "include/hpp/bezier-com-traj/waypoints/waypoints_c0_dc0_dc1_c1.hh:computeFinalVelocityPoint", "include/hpp/bezier-com-traj/waypoints/waypoints_c0_dc0_ddc0.hh:computeFinalVelocityPoint", "include/hpp/bezier-com-traj/waypoints/waypoints_c0_dc0_ddc0_c1.hh:computeFinalVelocityPoint", "include/hpp/bezier-com-traj/waypoints/waypoints_c0_dc0_ddc0_dc1_c1.hh:computeFinalVelocityPoint", "include/hpp/bezier-com-traj/waypoints/waypoints_c0_dc0_ddc0_ddc1_dc1_c1.hh:computeFinalVelocityPoint"]}
{"id": "C05", "title": "Wrench waypoints describe the centroidal wrench of the curve (exact flags)", "statement": "For the flags c0_dc0_c1, c0_dc0_dc1, c0_dc0_dc1_c1, c0_dc0_ddc0 and c0_dc0_ddc0_c1 the Bezier curve whose control points are computeWwaypoints(pData,T) evaluated at x is, at every time t, the 6-vector (ddc(t), c(t) x ddc(t) + g x c(t)) of the CoM curve for x.", "quantifier": "every state, duration T > 0, gravity, free point x and time t", "why_tests_cant": "expanded vector-product polynomials; the cross terms vanish for many simple states", "anchors": ["include/hpp/bezier-com-traj/waypoints/waypoints_c0_dc0_c1.hh:computeWwaypoints", "include/hpp/bezier-com-traj/waypoints/waypoints_c0_dc0_dc1.hh:computeWwaypoints", "include/hpp/bezier-com-traj/waypoints/waypoints_c0_dc0_dc1_c1.hh:computeWwaypoints", "include/hpp/bezier-com-traj/waypoints/waypoints_c0_dc0_ddc0.hh:computeWwaypoints", "include/hpp/bezier-com-traj/waypoints/waypoints_c0_dc0_ddc0_c1.hh:computeWwaypoints", "include/hpp/bezier-com-traj/waypoints/waypoints_c0_dc0_ddc0_dc1_c1.hh:computeWwaypoints", "include/hpp/bezier-com-traj/waypoints/waypoints_c0_dc0_ddc0_ddc1_dc1_c1.hh:computeWwaypoints"]}
{"id": "C06", "title": "Wrench waypoints with decimal coefficients stay within a stated error", "statement": "For the flags c0_dc0_ddc0_dc1_c1 and c0_dc0_ddc0_ddc1_dc1_c1, whose formulas use truncated decimals, the curve of computeWwaypoints at time t in [0,T] differs from (ddc(t), c(t) x ddc(t) + g x c(t)) by at most an explicit multiple of 1e-13/T^2 (and 1e-13 for the gravity part) times the size of the control points.", "quantifier": "every state, T>0, gravity, x, t in [0,T]", "why_tests_cant": "an error bound over all inputs cannot be sampled", "anchors": ["include/hpp/bezier-com-traj/waypoints/waypoints_c0_dc0_ddc0_dc1_c1.hh:computeWwaypoints", "include/hpp/bezier-com-traj/waypoints/waypoints_c0_dc0_ddc0_ddc1_dc1_c1.hh:computeWwaypoints"]}
{"id": "C07", "title": "Capture flag refuses a non-zero end velocity", "statement": "With flag INIT_POS|INIT_VEL|END_VEL every function that computes constant waypoints throws if dc1 is not the zero vector and otherwise yields a curve that ends at rest at x.", "quantifier": "every state, T, x", "why_tests_cant": "tests only use dc1=0", "anchors": ["include/hpp/bezier-com-traj/waypoints/waypoints_c0_dc0_dc1.hh:computeConstantWaypoints"]}
{"id": "C08", "title": "Flag dispatch is exact and total", "statement": "Every waypoint query (curve, acceleration, wrench, constant waypoints, final velocity, and the end-effector velocity/acceleration/jerk waypoints, evaluations and velocity cost) either runs the formula of the flag whose bits equal the problem's flag exactly, or throws; no other flag value is accepted and no flag falls through to another one's formula.", "quantifier": "every integer flag value", "why_tests_cant": "the flag is an open integer (the python binding accepts any int); tests try only valid ones", "anchors": ["src/waypoints_definition.cpp", "include/hpp/bezier-com-traj/flags.hh"]}
{"id": "C09", "title": "No out-of-range waypoint access for a dispatched flag", "statement": "For every flag accepted by computeConstantWaypoints, feeding its result to any accepted query or to computeBezierCurve never indexes past the end of the waypoint vector.", "quantifier": "every flag, every state", "why_tests_cant": "out-of-range reads often do not crash a test", "anchors": ["src/waypoints_definition.cpp", "include/hpp/bezier-com-traj/utils.hh:computeBezierCurve"]}
{"id": "C10", "title": "Fixed-count time discretisation covers the phases", "statement": "computeDiscretizedTimeFixed(Ts,p) with p>=1 and n>=1 phases returns exactly n*p+1 pairs: it starts with time 0 in phase 0, the (i*p+j)-th pair (1<=j<=p) is the time at fraction j/p of phase i tagged i, the last time is the total duration; times are non-decreasing for non-negative durations. (The header's comment claims it excludes 0 and has n*p entries.)", "quantifier": "every duration vector, every p", "why_tests_cant": "unbounded number of phases and points", "anchors": ["src/utils.cpp:computeDiscretizedTimeFixed"]}
{"id": "C11", "title": "Step-based time discretisation covers the phases", "statement": "computeDiscretizedTime(Ts,dt) with dt>0 and positive durations terminates and returns, for each phase in order, the times start, start+dt, ... strictly before the phase end, followed by the phase end itself, all tagged with that phase; every time lies in the closed interval of its phase and consecutive times of a phase differ by at most dt.", "quantifier": "every duration vector, every dt>0", "why_tests_cant": "termination and coverage for every step size", "anchors": ["src/utils.cpp:computeDiscretizedTime"]}
{"id": "C12", "title": "Phase switches are located at the last step of each phase", "statement": "For time arrays produced by either discretisation with n phases, the number of phase switches found equals n and the i-th one is the index of the last time tagged i.", "quantifier": "every duration vector and discretisation parameter (p>=1 or dt>0)", "why_tests_cant": "depends on every length", "anchors": ["src/computeCOMTraj.cpp:stepIdPerPhase"]}
{"id": "C13", "title": "Row normalisation does not change the feasible set", "statement": "Normalize(A,b) reorders and rescales rows in place so that {x | A x <= b} is unchanged, whatever zero rows A contains; a returned index k>=0 means that the first k rows are exactly the non-zero ones, each of norm 1, and -1 is returned only if the set is empty.", "quantifier": "every matrix size and content", "why_tests_cant": "loops over rows with in-place swaps; size_t wrap-around at zero rows", "anchors": ["src/common_solve_methods.cpp:removeZeroRows", "src/common_solve_methods.cpp:Normalize"]}
{"id": "C14", "title": "Discretised constraint matrix is exactly filled", "statement": "In the discretised formulation the number of rows allocated equals the number of rows written by the stability, kinematic and acceleration blocks together, and no block is written outside the matrix.", "quantifier": "every problem with as many contact phases as durations, every discretisation, any number of constraint rows per phase", "why_tests_cant": "only a disabled-in-release assert guards it; sizes are data dependent", "anchors": ["src/computeCOMTraj.cpp:computeNumIneq", "src/computeCOMTraj.cpp:computeConstraintsOneStep"]}
{"id": "C15", "title": "Discretised inequalities mean: constraints hold at every sampled time", "statement": "x satisfies A x <= b of the discretised formulation if and only if, for the curve of x, at every sampled time and every phase active at that time (both phases at a switch), the kinematic constraints Kin c(t) <= kin hold, each row of the phase's friction-cone polytope holds for the gravito-inertial wrench m(g-ddc(t), c(t) x (g-ddc(t))) with margin reduce_h, and, if requested, |ddc(t)| <= maxAcceleration on each axis.", "quantifier": "every problem, flag with exact wrench waypoints, discretisation and x", "why_tests_cant": "soundness and completeness over all x cannot be sampled", "anchors": ["src/computeCOMTraj.cpp:computeConstraintsOneStep"]}
{"id": "C16", "title": "A successful discretised plan satisfies its constraints", "statement": "If computeCOMTraj (timeStep>0) or computeCOMTrajFixedSize reports success and the QP solver's answer is feasible for the QP it was given, then the returned curve has the boundary conditions of the flag and satisfies the constraints of C15 at every sampled time; the reported final velocity and acceleration are its derivatives at T.", "quantifier": "every problem and every solver behaviour that is feasible on success", "why_tests_cant": "depends on solver output", "anchors": ["src/computeCOMTraj.cpp:computeCOMTraj", "src/computeCOMTraj.cpp:genTraj"]}
{"id": "C17", "title": "A successful continuous plan satisfies its constraints at every time", "statement": "In the continuous formulation, if no constant control point is numerically zero (C21) and the phases are long enough to be split, then whenever x satisfies the inequalities, at every time t of every phase the curve satisfies the phase's kinematic constraints and acceleration bound (maxAcceleration, or maxAcceleration/T^2 if the curve library keeps the derivative's time factor apart) and, in double description, the phase's friction-cone rows with margin; conversely the inequalities hold exactly when the control points of each phase satisfy them.", "quantifier": "every real time t of every phase, every problem with non-zero constant waypoints, every x", "why_tests_cant": "uncountably many times", "anchors": ["src/computeCOMTraj.cpp:computeConstraintsContinuous", "src/waypoints_definition.cpp:computeConstantWaypointsSymbolic"]}
{"id": "C18", "title": "Force formulation certifies contact forces at every time", "statement": "In the continuous force formulation, if (x,beta) satisfies the equalities and bounds then at every time t of every phase there is a non-negative combination of that phase's generators equal to the gravito-inertial wrench m(g-ddc, c x (g-ddc)), for phases none of whose wrench control points were dropped as redundant, and for all phases if the cone to which a dropped point is left is contained in that of the phase that dropped it; without that inclusion a plan can leave the cone.", "quantifier": "every time, every problem, every solution", "why_tests_cant": "uncountably many times", "anchors": ["src/computeCOMTraj.cpp:computeConstraintsContinuous", "src/computeCOMTraj.cpp:assignStabilityConstraintsForTimeStepForce"]}
{"id": "C19", "title": "Force formulation is exactly filled", "statement": "The numbers of equality rows and force variables allocated equal those written, for any sequence of contact phases with any generator counts, and every generator block is written once inside the matrix.", "quantifier": "every list of phases and generator counts", "why_tests_cant": "two separate copies of the drop-first/drop-last logic must agree for every list", "anchors": ["src/computeCOMTraj.cpp:computeNumEqContinuous", "src/computeCOMTraj.cpp:computeConstraintsContinuous"]}
{"id": "C20", "title": "Continuous inequality matrix is exactly filled", "statement": "The number of inequality rows allocated by the continuous formulation equals the number written, and no block is out of range.", "quantifier": "every problem with as many durations as phases", "why_tests_cant": "sizes are data dependent", "anchors": ["src/computeCOMTraj.cpp:computeNumIneqContinuous", "src/computeCOMTraj.cpp:computeConstraintsContinuous"]}
{"id": "C21", "title": "Symbolic waypoints confuse a zero waypoint with the free one", "statement": "computeConstantWaypointsSymbolic evaluated at x equals the control points of the returned curve if and only if no constant waypoint is (numerically) zero or x itself is that value; e.g. for c0=0 the continuous formulation constrains a different curve (one that starts at x).", "quantifier": "every problem and x", "why_tests_cant": "shows only for states at the origin", "anchors": ["src/waypoints_definition.cpp:computeConstantWaypointsSymbolic"]}
{"id": "C22", "title": "Cost functions are the documented ones", "statement": "x'Hx+2g'x plus a constant independent of x equals: |x-(c0+c1)/2|^2 for DISTANCE_TRAVELED, and the sum over the discretised times of |ddc(t)|^2 for ACCELERATION; force variables, if any, get weight 1e-6; an unknown cost throws.", "quantifier": "every problem, discretisation and x", "why_tests_cant": "identity over all x", "anchors": ["src/costfunction_definition.cpp"]}
{"id": "C23", "title": "TARGET_END_VELOCITY can never be used", "statement": "With cost TARGET_END_VELOCITY cost generation throws for every flag that any CoM query accepts (the guard uses logical instead of bitwise and), also when the end velocity is not constrained.", "quantifier": "every accepted flag", "why_tests_cant": "absence of any working input", "anchors": ["src/costfunction_definition.cpp:computeCostEndVelocity"]}
{"id": "C24", "title": "A failed solve yields the default result; a successful one the solver's", "statement": "If the solver does not report success the result of computeCOMTraj, computeCOMTrajFixedSize, solve0step or solveEndEffector has success=false, empty x, cost -1, curves that are zero on [0,1], and (where they exist) zero final velocity and acceleration; if it does, x of computeCOMTraj and computeCOMTrajFixedSize is the first three components and cost is the solver's objective. solveEndEffector never sets the cost, the momentum curve, and the final velocity and acceleration: they keep those values with success as well. Mismatched numbers of durations and phases throw before anything else.", "quantifier": "every problem and solver answer", "why_tests_cant": "depends on solver output", "anchors": ["src/computeCOMTraj.cpp:genTraj", "src/computeCOMTraj.cpp:computeCOMTraj", "src/computeCOMTraj.cpp:computeCOMTrajFixedSize", "include/hpp/bezier-com-traj/data.hh:ResultDataCOMTraj", "src/solve_0_step.cpp:solve0step", "include/hpp/bezier-com-traj/solve_end_effector.hh:solveEndEffector"]}
{"id": "C25", "title": "Zero-step plan satisfies the wrench cone at every time", "statement": "If solve0step (continuous, timeStep<=0) succeeds with a feasible QP answer, the returned CoM curve starts at (c0,dc0), ends at rest at x, and together with the returned angular momentum derivative has, at every time in [0,T], a gravito-inertial wrench (taking dL into account) inside the polytope cone H w <= 0; the capture point satisfies the kinematic constraints.", "quantifier": "every time in [0,T], every problem", "why_tests_cant": "uncountably many times", "anchors": ["src/solve_0_step.cpp", "src/common_solve_methods.cpp:compute6dControlPointInequalities"]}
{"id": "C26", "title": "Zero-step discretised plan satisfies the cone at the sampled times", "statement": "If solve0step with timeStep>0 succeeds with a feasible QP answer the cone constraint holds at every time i*T/N, N=floor(T/timeStep), i=0..N (all control points when N=0).", "quantifier": "every N, every problem", "why_tests_cant": "unbounded number of samples", "anchors": ["src/solve_0_step.cpp:ComputeAllWaypoints", "src/common_solve_methods.cpp:ComputeDiscretizedWaypoints"]}
{"id": "C27", "title": "Zero-step angular momentum and cost", "statement": "The returned dL curve is the derivative of a curve going from l0 to 0 with middle point x_L, its integral over [0,T] is -l0, its end value is 0, and the reported cost equals T times the integral of |dL|^2 over [0,T]; the QP objective plus a constant equals that same quantity plus the weighted squared distance to c0.", "quantifier": "every l0, x_L, T>0", "why_tests_cant": "identity over all inputs", "anchors": ["src/solve_0_step.cpp:computedL_of_T", "src/solve_0_step.cpp:computeRealCost", "src/solve_0_step.cpp:computeCostFunction"]}
{"id": "C28", "title": "Angular momentum bounds are ignored by the zero-step problem", "statement": "With angular momentum enabled, the rows reserved for Ang_/ang_ are never filled from them: the kinematic matrix is written again on the angular momentum variable, so the user's angular constraint is not enforced and a foreign one is (and the write overlaps the kinematic rows).", "quantifier": "every problem with angular momentum enabled", "why_tests_cant": "needs a global statement about which data the matrix depends on", "anchors": ["src/common_solve_methods.cpp:compute6dControlPointInequalities", "src/common_solve_methods.cpp:addAngularMomentum"]}
{"id": "C29", "title": "End-effector curve meets its boundary conditions up to jerk", "statement": "For the three end-effector flags, the curve returned by solveEndEffector on success has value, first, second and third derivative (c0,dc0,ddc0,j0) at 0 and (c1,dc1,ddc1,j1) at T whatever the free points the solver returns.", "quantifier": "every state, T > 0, solver answer", "why_tests_cant": "third derivatives at every input", "anchors": ["include/hpp/bezier-com-traj/solve_end_effector.hh:computeC_of_T", "include/hpp/bezier-com-traj/waypoints/waypoints_c0_dc0_ddc0_j0_j1_ddc1_dc1_c1.hh:computeConstantWaypoints", "include/hpp/bezier-com-traj/waypoints/waypoints_c0_dc0_ddc0_j0_x3_j1_ddc1_dc1_c1.hh:computeConstantWaypoints", "include/hpp/bezier-com-traj/waypoints/waypoints_c0_dc0_ddc0_j0_x5_j1_ddc1_dc1_c1.hh:computeConstantWaypoints"]}
{"id": "C30", "title": "End-effector velocity and jerk waypoints are the derivative's control points", "statement": "For the three end-effector flags, computeVelocityWaypoints and computeJerkWaypoints evaluated at x are the control points of the first and third derivative of the curve for x.", "quantifier": "every state, T > 0, x", "why_tests_cant": "identity over all inputs", "anchors": ["include/hpp/bezier-com-traj/waypoints/waypoints_c0_dc0_ddc0_j0_j1_ddc1_dc1_c1.hh:computeVelocityWaypoints", "include/hpp/bezier-com-traj/waypoints/waypoints_c0_dc0_ddc0_j0_x3_j1_ddc1_dc1_c1.hh:computeVelocityWaypoints", "include/hpp/bezier-com-traj/waypoints/waypoints_c0_dc0_ddc0_j0_x5_j1_ddc1_dc1_c1.hh:computeVelocityWaypoints", "include/hpp/bezier-com-traj/waypoints/waypoints_c0_dc0_ddc0_j0_j1_ddc1_dc1_c1.hh:computeJerkWaypoints", "include/hpp/bezier-com-traj/waypoints/waypoints_c0_dc0_ddc0_j0_x3_j1_ddc1_dc1_c1.hh:computeJerkWaypoints", "include/hpp/bezier-com-traj/waypoints/waypoints_c0_dc0_ddc0_j0_x5_j1_ddc1_dc1_c1.hh:computeJerkWaypoints"]}
{"id": "C31", "title": "End-effector acceleration waypoints: where they are wrong", "statement": "computeAccelerationWaypoints evaluated at x agrees with the control points of the second derivative except at an identified entry per flag (entry 3 for the one-free-point flag; entry 2 and a duplicated last-but-one entry for x3; entries 2, 7 and a duplicate for x5), where it differs by an explicit amount; hence acceleration bounds are enforced on a wrong quantity.", "quantifier": "every state, T > 0, x", "why_tests_cant": "tests do not compare them", "anchors": ["include/hpp/bezier-com-traj/waypoints/waypoints_c0_dc0_ddc0_j0_j1_ddc1_dc1_c1.hh:computeAccelerationWaypoints", "include/hpp/bezier-com-traj/waypoints/waypoints_c0_dc0_ddc0_j0_x3_j1_ddc1_dc1_c1.hh:computeAccelerationWaypoints", "include/hpp/bezier-com-traj/waypoints/waypoints_c0_dc0_ddc0_j0_x5_j1_ddc1_dc1_c1.hh:computeAccelerationWaypoints"]}
{"id": "C32", "title": "End-effector curve evaluation: where it is right and wrong", "statement": "evaluateCurveWaypointAtTime is the curve for x3 and x5; for the one-free-point flag it equals the curve plus (1-s)^8 (c1-c0), so at time 0 it returns c1. evaluateJerk...AtTime is the third derivative for one-free-point and x3.", "quantifier": "every state, time, x", "why_tests_cant": "identity over all times", "anchors": ["include/hpp/bezier-com-traj/waypoints/waypoints_c0_dc0_ddc0_j0_j1_ddc1_dc1_c1.hh:evaluateCurveWaypointAtTime", "include/hpp/bezier-com-traj/waypoints/waypoints_c0_dc0_ddc0_j0_x3_j1_ddc1_dc1_c1.hh:evaluateCurveWaypointAtTime", "include/hpp/bezier-com-traj/waypoints/waypoints_c0_dc0_ddc0_j0_x5_j1_ddc1_dc1_c1.hh:evaluateCurveWaypointAtTime", "include/hpp/bezier-com-traj/waypoints/waypoints_c0_dc0_ddc0_j0_j1_ddc1_dc1_c1.hh:evaluateJerkCurveWaypointAtTime", "include/hpp/bezier-com-traj/waypoints/waypoints_c0_dc0_ddc0_j0_x3_j1_ddc1_dc1_c1.hh:evaluateJerkCurveWaypointAtTime", "include/hpp/bezier-com-traj/waypoints/waypoints_c0_dc0_ddc0_j0_x5_j1_ddc1_dc1_c1.hh:evaluateJerkCurveWaypointAtTime"]}
{"id": "C33", "title": "End-effector velocity/acceleration evaluation: deviations", "statement": "evaluateVelocityCurveWaypointAtTime and evaluateAccelerationCurveWaypointAtTime agree with the derivatives only on an explicit subset of inputs (one-free-point: error proportional to c1-c0; x3, x5: explicit counterexamples).", "quantifier": "every state, time, x", "why_tests_cant": "identity over all times", "anchors": ["include/hpp/bezier-com-traj/waypoints/waypoints_c0_dc0_ddc0_j0_j1_ddc1_dc1_c1.hh:evaluateVelocityCurveWaypointAtTime", "include/hpp/bezier-com-traj/waypoints/waypoints_c0_dc0_ddc0_j0_x3_j1_ddc1_dc1_c1.hh:evaluateVelocityCurveWaypointAtTime", "include/hpp/bezier-com-traj/waypoints/waypoints_c0_dc0_ddc0_j0_x5_j1_ddc1_dc1_c1.hh:evaluateVelocityCurveWaypointAtTime"]}
{"id": "C34", "title": "End-effector constraints mean bounds on all derivatives plus a height floor", "statement": "x satisfies the end-effector inequalities iff every velocity, acceleration and jerk waypoint that depends on x is within its bound on each axis (upper jerk bound taken from the velocity bound) and every free point's z is at least min(c0z,c1z); the matrix is exactly filled. Velocity and jerk of the motion then stay within the bounds when the boundary conditions do, and the motion stays above the lower end; the acceleration may exceed its bound.", "quantifier": "every list of waypoints, any number of free points, every x", "why_tests_cant": "unbounded number of waypoints", "anchors": ["include/hpp/bezier-com-traj/solve_end_effector.hh:computeConstraintsMatrix"]}
{"id": "C35", "title": "End-effector distance cost", "statement": "computeDistanceCostFunction(N,...) returns H,g such that, up to one positive factor, x'Hx+2g'x plus a constant is the sum over i of |c(i/(N-1)) - path_i|^2 of the evaluated curve; with two points or fewer it divides by zero.", "quantifier": "every N>=3 (and N<=2 for the failure), path, x", "why_tests_cant": "unbounded N", "anchors": ["include/hpp/bezier-com-traj/solve_end_effector.hh:computeDistanceCostFunction"]}
{"id": "C36", "title": "End-effector velocity cost and best plan", "statement": "computeVelocityCost approximates, up to a positive factor and a constant, the integral of |dc|^2 over [0,T], with an explicit bound on the error; the matrix is symmetric. With a solver that minimises strictly convex problems, solveEndEffector finds a plan whenever there are feasible free points, with the least weighted sum of that integral and of the distance to the path up to the same error.", "quantifier": "every state, T>0, x, weight in [0,1], path", "why_tests_cant": "integral identity over all inputs", "anchors": ["include/hpp/bezier-com-traj/waypoints/waypoints_c0_dc0_ddc0_j0_j1_ddc1_dc1_c1.hh:computeVelocityCost", "include/hpp/bezier-com-traj/waypoints/waypoints_c0_dc0_ddc0_j0_x3_j1_ddc1_dc1_c1.hh:computeVelocityCost", "include/hpp/bezier-com-traj/waypoints/waypoints_c0_dc0_ddc0_j0_x5_j1_ddc1_dc1_c1.hh:computeVelocityCost"]}
{"id": "C37", "title": "QP hand-over is faithful", "statement": "Calling the QP back end through solve(A,b,D,d,H,g,init,minBounds,maxBounds) hands over inequalities and equalities whose solution set is exactly {x | A x <= b, D x = d, x >= minBounds}, success is reported iff the back end says optimal, and an unknown solver throws.", "quantifier": "every problem size and content", "why_tests_cant": "sizes unbounded", "anchors": ["src/solver-abstract.cpp:solve"]}
{"id": "C38", "title": "Upper bounds overflow the constraint matrix", "statement": "With a non-empty maxBounds vector the QP hand-over writes three rows past the end of the matrix it allocated, for every problem size; with empty maxBounds it never writes out of range.", "quantifier": "every problem size", "why_tests_cant": "out-of-range writes are masked in release builds", "anchors": ["src/solver-abstract.cpp:addConstraintMaxBoundQuadProg"]}
{"id": "C39", "title": "LP hand-over is faithful while it fits", "statement": "If the number of non-zero coefficients is at most 20000 the LP handed to GLPK has exactly the feasible set {A x <= b, D x = d, bounds} (with +-100000 meaning unbounded) and objective g'x; if it exceeds 20000 the wrapper writes past its fixed arrays.", "quantifier": "every problem content and size, with at least one variable and one row", "why_tests_cant": "sizes unbounded; overflow is silent", "anchors": ["src/glpk-wrapper.cpp:solveglpk", "src/glpk-wrapper.cpp:getType"]}
{"id": "C40", "title": "QP solver: what its statuses mean", "statement": "In exact arithmetic, for a positive definite Hessian, at most as many equalities as variables and data on the scale of the solver's thresholds (the part of a constraint row left after projection is zero or above the machine epsilon): OPTIMAL means that the equalities hold, the reported cost is the objective at x, the total violation of the inequalities is within the solver's tolerance and x is the only minimiser of the objective among the points satisfying the equalities and the inequalities that are tight at x, and with zero violation the only global minimiser; OPTIMAL or MAX_ITER means that the cost is a lower bound of the optimum; UNBOUNDED means infeasible; REDUNDANT means linearly dependent equalities; a feasible problem with independent equalities gets OPTIMAL or MAX_ITER, and OPTIMAL without inequalities. Without the condition on the scale the answers are wrong: with a Hessian of 2^26 the equality x = 1 is ignored and x >= 1 is reported infeasible.", "quantifier": "every problem, every number of constraints, every initial content of the solver's memory", "why_tests_cant": "loop with data-dependent active sets", "anchors": ["src/eiquadprog-fast.cpp:solve_quadprog"]}
{"id": "C41", "title": "QP solver: termination, and a degenerate step that loops forever", "statement": "Under the conditions of C40 the solver returns. Without the condition on the scale there are feasible strictly convex problems for which it never returns: after a constraint is rejected as degenerate the search restarts from the same violation value and picks it again, without counting an iteration. Without equalities, with a Hessian at least lam times the identity and rows not longer than 2^26 lam, it always returns, and an answer it calls optimal violates the inequalities by at most 100 n m eps trace(H)/sqrt(lam) in total.", "quantifier": "every problem; all numbers of steps", "why_tests_cant": "non-termination cannot be observed by a finite test", "anchors": ["src/eiquadprog-fast.cpp:solve_quadprog (label l2)"]}
{"id": "C42", "title": "QP solver: index safety", "statement": "Under the conditions of C40 no index is ever out of range. In general, with at least one equality, giving up a degenerate constraint never succeeds: restoring the active set indexes the bookkeeping vector with the negative numbers used for equalities; and with more equalities than variables the solver answers REDUNDANT or writes outside the factor matrix, e.g. for the same equality given twice to a problem with one variable.", "quantifier": "every problem, every step of every execution", "why_tests_cant": "masked out-of-range write", "anchors": ["src/eiquadprog-fast.cpp:614-618", "src/eiquadprog-fast.cpp:140", "src/eiquadprog-fast.cpp:177-180"]}
{"id": "C43", "title": "Copied contacts are independent, assigned ones share their phase, problems own theirs", "statement": "Copy-constructing a ContactData gives an independent contact phase: nothing done later without the copy shows in it, and changes through the copy show nowhere else; after an assignment both objects share one phase until one is given another. Copying is undefined exactly when the original has no live phase. The contacts of a ProblemData are snapshots taken when they are added or the problem is copied, and change only through that problem, in every history that does not assign one problem with contacts to another that has contacts and enough capacity; after such an assignment the two share phases. A python program that never reads or assigns the phase of a ContactData nor builds one from None never uses a destroyed phase; with any of the three it can.", "quantifier": "every history of constructions, copies, assignments, modifications, destructions and additions to problems, every growth policy of std::vector", "why_tests_cant": "aliasing depends on the history", "anchors": ["include/hpp/bezier-com-traj/data.hh:ContactData", "include/hpp/bezier-com-traj/data.hh:ProblemData", "python/bezier_com_traj.cpp:addContact", "python/bezier_com_traj.cpp:setContactPhase_"]}
{"id": "C44", "title": "Python setters keep constraint matrices and vectors consistent", "statement": "Through any sequence of calls of the python interface, a ContactData's kinematic matrix and vector have equal numbers of rows whenever the vector is non-empty, likewise for the angular one; mismatched calls raise and change nothing; reading an unset constraint raises.", "quantifier": "every sequence of calls", "why_tests_cant": "histories", "anchors": ["python/bezier_com_traj.cpp:set_Kin", "python/bezier_com_traj.cpp:set_Ang"]}
{"id": "C45", "title": "Polytope offsets are not rescaled", "statement": "The stability rows use the polytope normals scaled to unit norm but leave the offsets unscaled, so the enforced set is the documented one if and only if the offset is zero or the (mass-scaled) row already has norm one.", "quantifier": "every polytope", "why_tests_cant": "only visible for non-zero offsets", "anchors": ["src/computeCOMTraj.cpp:updateH"]}
{"id": "C46", "title": "Gravity of the first phase is used for later phases", "statement": "In the discretised formulation the stability rows of an ordinary step of phase i use phase 0's gravity, while the rows added at the switch into phase i use phase i's in the force part only; with a time step phase 0's gravity is used at every sampled time of phase i, and at its start the constraint holds with phase i's gravity in the force part as well. With equal gravities this is C15, with different gravities both directions of C15 fail in general.", "quantifier": "every list of phases", "why_tests_cant": "only visible with differing gravities", "anchors": ["src/computeCOMTraj.cpp:assignStabilityConstraints"]}
{"id": "C47", "title": "Acceleration bound is enforced in the continuous formulation even when disabled", "statement": "The inequalities of the continuous formulation bound the acceleration by maxAcceleration whether or not constraintAcceleration_ is set; the discretised one does so only when it is set.", "quantifier": "every problem", "why_tests_cant": "shows only for motions faster than the default bound", "anchors": ["src/computeCOMTraj.cpp:computeConstraintsContinuous", "src/computeCOMTraj.cpp:assignAccelerationConstraints"]}
{"id": "C48", "title": "Skew matrix and waypoint arithmetic", "statement": "skew(x)*v is the cross product for all x,v; adding or subtracting waypoints of equal size is componentwise, of unequal size throws; the evaluation of a waypoint at x is linear with respect to these operations.", "quantifier": "all sizes and values", "why_tests_cant": "sizes unbounded", "anchors": ["src/utils.cpp"]}
{"id": "C49", "title": "Zero points per phase", "statement": "computeCOMTrajFixedSize with pointsPerPhase=0 reads past the end of the phase-switch vector whenever there is more than one phase.", "quantifier": "every problem with at least two phases", "why_tests_cant": "masked out-of-range read", "anchors": ["src/computeCOMTraj.cpp:computeNumIneq", "src/utils.cpp:computeDiscretizedTimeFixed"]}
{"id": "C50", "title": "Splitting and convex hull of symbolic curves", "statement": "Extracting the part of a Bezier curve on [a,b] gives a curve with the same values on [a,b], for control points that are affine functions of x as for plain points, and every value is a convex combination of the extracted control points.", "quantifier": "every degree, interval and time", "why_tests_cant": "every degree and real time", "anchors": ["src/computeCOMTraj.cpp:computeConstraintsContinuous (extract)", "tests/test-bezier-symbolic.cpp"]}
{"id": "C51", "title": "The planner finds a plan whenever one exists, and a best one", "statement": "Suppose the QP back end returns a minimiser of every feasible strictly convex problem. If some trajectory of the flag's family satisfies the constraints at all sampled times, then computeCOMTraj (timeStep>0) and computeCOMTrajFixedSize report success, and no such trajectory has a smaller DISTANCE_TRAVELED cost, or a smaller sum of squared accelerations for ACCELERATION provided some sampled acceleration depends on the free point. For the two flag combinations whose wrench formulas contain rounded decimal coefficients, the competing trajectory has to keep the bounded error of the wrench in reserve, and the returned one meets the dynamic constraints up to that error.", "quantifier": "every problem, discretisation and every competing trajectory", "why_tests_cant": "quantifies over all competing trajectories", "anchors": ["src/computeCOMTraj.cpp:computeCOMTraj", "src/computeCOMTraj.cpp:computeCOMTrajFixedSize", "src/costfunction_definition.cpp"]}
{"id": "C52", "title": "The acceleration cost can be identically zero", "statement": "With all end conditions up to acceleration constrained and only the end times of the motion sampled, the ACCELERATION cost has H=0 and g=0 on the free point, so the QP handed to the back end is not strictly convex.", "quantifier": "every such problem", "why_tests_cant": "holds for a whole family of problems; the solver's Cholesky step then divides by zero silently", "anchors": ["src/costfunction_definition.cpp:computeCostMinAcceleration", "include/hpp/bezier-com-traj/waypoints/waypoints_c0_dc0_ddc0_ddc1_dc1_c1.hh"]}
{"id": "C53", "title": "Plans made with the bundled solver meet the constraints up to a known tolerance", "statement": "With the bundled QP solver, on problems whose constraint rows are no steeper than 2^26 times the weight of the free point in the cost, computeCOMTraj (timeStep>0) and computeCOMTrajFixedSize always return without undefined behaviour, and a result reported as successful is a motion of the family that meets every kinematic, dynamic and acceleration constraint at every sampled time up to 900 * (number of rows) * 2^-52 * sqrt(weight), times the rate of the wrench for the dynamic ones. For the two flag combinations whose wrench formulas contain rounded decimal coefficients, the rate and the tolerance of the dynamic constraints grow by the bounded error of the wrench.", "quantifier": "every well-posed problem on that scale, every discretisation, every content of the solver's memory", "why_tests_cant": "quantifies over all problems and all executions of the active-set loop", "anchors": ["src/computeCOMTraj.cpp:computeCOMTraj", "src/computeCOMTraj.cpp:computeCOMTrajFixedSize", "src/eiquadprog-fast.cpp:solve_quadprog", "src/solver-abstract.cpp:solve"]}
{"id": "C54", "title": "Plans made with the bundled solver are found and best", "statement": "With the bundled QP solver: if the motion of lowest cost among all motions of the family meets the constraints at the sampled times, the planner reports success and returns exactly that motion. If the QP is on the scale of the solver's thresholds and some motion meets the constraints, the planner reports success and no feasible motion has a lower cost, unless the solver used up its iterations, which takes at least 19 constraint rows. For the two flag combinations whose wrench formulas contain rounded decimal coefficients, the motions compared keep the bounded error of the wrench in reserve.", "quantifier": "every well-posed problem, discretisation and competing motion", "why_tests_cant": "quantifies over all competing motions", "anchors": ["src/computeCOMTraj.cpp:computeCOMTraj", "src/computeCOMTraj.cpp:computeCOMTrajFixedSize", "src/eiquadprog-fast.cpp:solve_quadprog", "src/costfunction_definition.cpp"]}
{"id": "C55", "title": "A reused QP solver answers like a new one", "statement": "The answer of solve_quadprog and of solve_quadprog_sparse on a problem - status, point, objective value, number of iterations, active set and multipliers - is the same whatever the solver object was used for before (other problems, other sizes, resets, changes of the limit), as long as the iteration limit is the same; the limit is the last one accepted by setMaxIter. After REDUNDANT_EQUALITIES the size of the active set is excepted: it is that of an earlier call.", "quantifier": "every problem, every history of the two solver objects, every number of steps", "why_tests_cant": "quantifies over all histories of calls on one object", "anchors": ["src/eiquadprog-fast.cpp:solve_quadprog", "src/eiquadprog-fast.cpp:solve_quadprog_sparse", "src/eiquadprog-fast.cpp:reset", "include/hpp/bezier-com-traj/solver/eiquadprog-fast.hpp:setMaxIter"]}
{"id": "C56", "title": "The reported active set and multipliers certify the answer", "statement": "After OPTIMAL or MAX_ITER_REACHED, getActiveSet lists all equalities and distinct inequalities that hold with equality at the returned point, and getLagrangeMultipliers has multipliers, non-negative for the inequalities, that balance the gradient of the cost. Such a certificate implies that no point satisfying the listed constraints has a lower cost, with a quadratic gap.", "quantifier": "every convex problem on the scale of the solver's thresholds, every history, every competing point", "why_tests_cant": "quantifies over all problems and competing points", "anchors": ["src/eiquadprog-fast.cpp:solve_quadprog", "include/hpp/bezier-com-traj/solver/eiquadprog-fast.hpp:getLagrangeMultipliers", "include/hpp/bezier-com-traj/solver/eiquadprog-fast.hpp:getActiveSet"]}
{"id": "C57", "title": "A supplied inverse Hessian", "statement": "Intended: with is_inverse_provided_ and m_J a factor of the inverse Hessian, the solver answers as without. Actual: it solves the problem with the opposite linear cost (the sign is lost), reports a value that is off by g'H^-1 g, and if the sizes differ from those of the last call or reset, the matrix is replaced by zero and the answer is x = 0.", "quantifier": "every convex problem, every factor of the inverse", "why_tests_cant": "exact characterisation for all problems; the flag is not used by any test", "anchors": ["src/eiquadprog-fast.cpp:solve_quadprog", "src/eiquadprog-fast.cpp:reset", "include/hpp/bezier-com-traj/solver/eiquadprog-fast.hpp:is_inverse_provided_"]}
{"id": "C58", "title": "The sparse variant of the QP solver", "statement": "Intended: solve_quadprog_sparse minimises the cost. Actual: it returns the point of the feasible set that is nearest, in the Euclidean distance, to the unconstrained minimiser, with an objective value computed for that distance; this is the minimiser if the Hessian is a multiple of the identity, and in general it is not. It detects infeasibility and dependent equalities correctly.", "quantifier": "every convex problem on the scale of the solver's thresholds, every history of the solver", "why_tests_cant": "exact characterisation for all problems and competing points", "anchors": ["src/eiquadprog-fast.cpp:solve_quadprog_sparse"]}
{"id": "C59", "title": "When the QP solver decides a problem", "statement": "On convex problems on the scale of the solver's thresholds the solver never visits an active set twice: if there are fewer sets of at most n - E of the I inequalities than the iteration limit (with n = 3 variables, no equality and the default limit: up to 17 inequalities), it does not stop at the limit, and answers OPTIMAL, or UNBOUNDED exactly for infeasible problems, when the equalities are independent. Dependent equalities always give REDUNDANT_EQUALITIES.", "quantifier": "every such problem, every content of the solver's memory", "why_tests_cant": "a bound on the number of iterations for all problems", "anchors": ["src/eiquadprog-fast.cpp:solve_quadprog"]}
{"id": "C60", "title": "Predefined end-effector curves meet their boundary conditions", "statement": "The curve of degree four on [0,T] built from computeConstantWaypointsInitPredef starts at c0_ with velocity dc0_, acceleration ddc0_ and zero jerk and ends at c1_; the one built from computeConstantWaypointsGoalPredef starts at c0_ and ends at c1_ with velocity dc1_, acceleration ddc1_ and zero jerk. The velocity at the other end of each is not under control: it is the stated combination of the data, whatever dc1_ (respectively dc0_).", "quantifier": "for every problem data and every duration T > 0", "why_tests_cant": "Boundary values are real vectors: a test fixes a few of them and compares within a tolerance, a wrong coefficient that vanishes for those values stays unseen.", "anchors": ["include/hpp/bezier-com-traj/solve_end_effector.hh:45-97"]}
{"id": "C61", "title": "Sampled smoothness costs of the end effector", "statement": "computeAccelerationCostFunctionDiscretized and computeJerkCostFunctionDiscretized return H, g such that x'Hx + 2g'x is, up to a constant, the sum over numPoints equally spaced samples of the squared evaluated acceleration (jerk); for one and three free points the jerk is that of the motion, for one free point the acceleration is that of the motion plus the stated error. computeVelCostFunctionDiscretized instead judges every free point as if the others were at the origin: with one free point it is the sampled squared speed plus the stated error, with three or five free points and three samples it is not the sampled squared speed, on any scale, for any problem. With one sample the step is a division by zero.", "quantifier": "for every problem with an end-effector flag, duration T > 0, number of samples other than one, and all values of the free points; the negative statement on the velocity cost is for three samples, every problem with three or five free points and every T > 0", "why_tests_cant": "An identity between quadratic forms in up to fifteen variables for every number of samples; the missing cross terms are invisible when only one free point is moved.", "anchors": ["include/hpp/bezier-com-traj/solve_end_effector.hh:282-362"]}
{"id": "C62", "title": "Continuous plans made with the bundled solver meet the constraints at every instant", "statement": "With the bundled QP solver, continuous formulation (timeStep<=0) in double description, problems whose constraint rows are no steeper than 2^26 times the weight of the free point in the cost, and phases long enough to be split: computeCOMTraj always returns without undefined behaviour, and a result reported as successful is a motion of the family. If no fixed control point of it is numerically zero, then at every instant of every phase it meets the kinematic and dynamic constraints of that phase and the acceleration bound, up to 900 * (number of rows) * 2^-52 * sqrt(weight), times the rate of the wrench for the dynamic ones. For the two flag combinations whose wrench formulas contain rounded decimal coefficients, the rate and the tolerance of the dynamic constraints grow by the bounded error of the wrench.", "quantifier": "every well-posed problem on that scale, every real instant, every content of the solver's memory", "why_tests_cant": "uncountably many instants, all problems and all executions of the active-set loop", "anchors": ["src/computeCOMTraj.cpp:computeCOMTraj", "src/computeCOMTraj.cpp:computeConstraintsContinuous", "src/eiquadprog-fast.cpp:solve_quadprog", "src/solver-abstract.cpp:solve"]}
{"id": "C63", "title": "Continuous plans made with the bundled solver are found and best", "statement": "With the bundled QP solver, continuous formulation (timeStep<=0) in double description: if the control points of the motion of lowest cost among all motions of the family meet the constraints and none of its fixed control points is numerically zero, the planner reports success and returns exactly that motion. If the QP is on the scale of the solver's thresholds and the control points of some such motion meet the constraints, the planner reports success and no motion whose control points meet them has a lower cost, unless the solver used up its iterations, which takes at least 19 constraint rows. For the two flag combinations whose wrench formulas contain rounded decimal coefficients, the motions compared keep the bounded error of the wrench in reserve.", "quantifier": "every well-posed problem with phases long enough to be split, every competing motion", "why_tests_cant": "quantifies over all competing motions", "anchors": ["src/computeCOMTraj.cpp:computeCOMTraj", "src/computeCOMTraj.cpp:computeConstraintsContinuous", "src/eiquadprog-fast.cpp:solve_quadprog", "src/costfunction_definition.cpp"]}
{"id": "C64", "title": "Zero-step plans made with the bundled solver", "statement": "With the bundled QP solver, solve0step returns for every well-posed one-contact problem whose data are not extremely large compared with the solver's thresholds. If it reports success, the CoM curve starts at (c0,dc0) and ends at rest at the capture point, the reported cost is the one of the returned curves, and up to a tolerance of 900 (216018 with angular momentum) times machine epsilon times the number of constraint rows the gravito-inertial wrench is in the contact cone at every instant of [0,T] (at every sample when a time step is given) and the geometric constraints that are actually enforced hold.", "quantifier": "every problem with one phase, every duration, time step, instant and prior content of the solver's memory", "why_tests_cant": "uncountably many instants and problems; the answer of an iterative solver", "anchors": ["src/solve_0_step.cpp:solve0step", "src/common_solve_methods.cpp:compute6dControlPointInequalities", "src/eiquadprog-fast.cpp:solve_quadprog"]}
{"id": "C65", "title": "Zero-step plans made with the bundled solver are found and best", "statement": "With the bundled QP solver: if coming back to the initial position (with angular momentum free point 3/4 l0) meets the constraints, solve0step reports success and returns exactly that plan. If the QP is on the scale of the solver's thresholds and some capture point and momentum meet the constraints, solve0step reports success with a criterion (weighted squared distance plus T times the integral of |dL|^2) not above that of any choice that meets them, unless the solver used up its iterations, which takes at least 19 constraint rows (11 with angular momentum).", "quantifier": "every problem with one phase, every competing capture point and momentum", "why_tests_cant": "quantifies over all competing plans", "anchors": ["src/solve_0_step.cpp:solve0step", "src/solve_0_step.cpp:computeCostFunction", "src/eiquadprog-fast.cpp:solve_quadprog"]}
{"id": "C66", "title": "End-effector plans made with the bundled solver", "statement": "With the bundled QP solver, solveEndEffector returns (no undefined behaviour, no exception) for each of the three jerk-constrained flags, every reference path, every duration up to 10^6 s that is not too small for the solver's thresholds and every weight in [0,1) on their scale. If it reports success, the curve has the eight prescribed boundary values, and, given boundary values compatible with them, velocity and jerk stay within 10000 and the height stays above the lower of the two end heights at every instant, up to an explicit tolerance proportional to the machine epsilon.", "quantifier": "every problem with one of the three flags, every path, duration, weight, instant and prior content of the solver's memory", "why_tests_cant": "uncountably many instants, problems and paths; the answer of an iterative solver", "anchors": ["include/hpp/bezier-com-traj/solve_end_effector.hh:solveEndEffector", "include/hpp/bezier-com-traj/solve_end_effector.hh:computeConstraintsMatrix", "src/eiquadprog-fast.cpp:solve_quadprog"]}
{"id": "C67", "title": "End-effector plans made with the bundled solver are found and best", "statement": "With the bundled QP solver: if the free points that minimise the criterion without constraints meet the constraints, solveEndEffector succeeds and returns exactly them; in particular, with all the weight on the distance to the path, a path whose 50 samples are those of a curve that meets the constraints is followed exactly. If the QP is on the scale of the solver's thresholds and some free points meet the constraints, solveEndEffector succeeds with a criterion (weighted integral of the squared speed plus squared distances to the path) not above that of any free points that meet them, up to the error of the decimal constants, unless the solver used up its iterations.", "quantifier": "every problem with one of the three flags, every path, duration and weight, every competing choice of free points", "why_tests_cant": "quantifies over all competing trajectories", "anchors": ["include/hpp/bezier-com-traj/solve_end_effector.hh:solveEndEffector", "include/hpp/bezier-com-traj/solve_end_effector.hh:computeEndEffectorCost", "src/eiquadprog-fast.cpp:solve_quadprog"]}
{"id": "C68", "title": "python zeroStepCapturability", "statement": "With the bundled QP solver, zeroStepCapturability(eq, com, dCom, l0, useAngMomentum, T, timeStep, Kin, kin) with a positive duration and mass, no zero row in the contact cone, a three-column Kin with at least as many rows as kin has entries, and data on the scale of the solver, returns without exception or undefined behaviour. If the result says success, the curve has duration T, starts at com with velocity dCom, ends at rest at the first three entries of x, its wrench is in the contact cone up to an explicit tolerance (at every instant without a time step, at every sample with one), and Kin applied to x (with angular momentum: to the sum of the two halves of x) is at most kin up to that tolerance. If coming back to com meets the constraints the result is success with x = com. Without Kin and kin the function does the same as with empty ones. None for eq, a Kin without three columns, and more entries in kin than rows in Kin are undefined behaviour.", "quantifier": "every phase, state, duration, time step, Kin, kin and instant; every prior content of the solver's memory", "why_tests_cant": "uncountably many inputs and instants; the answer of an iterative solver", "anchors": ["python/bezier_com_traj.cpp:zeroStepCapturability", "python/bezier_com_traj.cpp:zeroStepCapturabilityWithKinConstraints", "src/solve_0_step.cpp:solve0step"]}
{"id": "C69", "title": "Results read from python", "statement": "For every result that zeroStepCapturability, computeCOMTraj or computeEndEffector returns, with any QP or LP back end: reading x raises an exception exactly if success is False, and a result without success is the default one (no curve, no x, cost -1). A successful result of computeEndEffector has cost -1 too. Without a solver argument computeCOMTraj uses the bundled QP solver, whether or not GLPK is available.", "quantifier": "every input and every back end", "why_tests_cant": "quantifies over all inputs and all solver answers", "anchors": ["python/bezier_com_traj.cpp:get_x", "python/bezier_com_traj.cpp:computeEndEffector"]}
{"id": "C70", "title": "The attribute constraints_ of python's ProblemData", "statement": "For every python program over ProblemData and Constraints objects: a name bound to p.constraints_ shows the attributes of p, in both directions, as long as the program keeps a name for p, whatever else it does; p.constraints_ = c copies the attributes of c; a write reaches exactly the names of the same object; a ProblemData that is not shared or assigned to has exactly the settings made through its name. Undefined behaviour happens exactly if an object returned by constraints_ is used after the last name of its ProblemData is gone; hence never in programs that do not name the result of constraints_, nor in programs that bind every name once and delete none.", "quantifier": "every program, of any length and any number of names", "why_tests_cant": "quantifies over all histories of a client", "anchors": ["python/bezier_com_traj.cpp:get_constraints_", "python/bezier_com_traj.cpp:set_constraints_", "include/hpp/bezier-com-traj/data.hh:Constraints"]}
{"id": "C71", "title": "python computeEndEffector and computeEndEffectorDistanceCost", "statement": "With the bundled QP solver, computeEndEffector(pData, T) for one of the three end-effector flags and T from 0.05 s (one free point), 0.2 s (three) or 0.8 s (five) up to 10^6 s returns without exception or undefined behaviour; a successful result has the prescribed boundary values and, given boundary values compatible with them, keeps velocity, jerk and height within their bounds at every instant up to an explicit tolerance. If the points that minimise the squared speed without constraints meet the constraints, they are the result. If some free points meet the constraints and the QP is on the scale of the solver, the result is a success whose integral of the squared speed is at most that of any admissible choice, up to the error of the decimal constants, unless the solver used up its iterations. computeEndEffectorDistanceCost returns exactly if its number of points is at least three and at most the number of columns; otherwise it is undefined behaviour.", "quantifier": "every problem with one of the three flags, every duration in range, every competing choice of free points, every number of points and matrix", "why_tests_cant": "uncountably many instants and competing trajectories", "anchors": ["python/bezier_com_traj.cpp:computeEndEffector", "python/bezier_com_traj.cpp:computeEndEffectorDistanceCostPython", "include/hpp/bezier-com-traj/solve_end_effector.hh:solveEndEffector"]}
{"id": "C72", "title": "QP solver on problems with equalities", "statement": "If the Hessian is at least lam times the identity, the rows of the constraints are not too long for it and the rows of the equalities are far enough from dependent (relative to the machine epsilon), the solver returns for every set of inequalities, however parallel, redundant or contradictory they are, with status OPTIMAL, UNBOUNDED or MAX_ITER_REACHED, never REDUNDANT_EQUALITIES, and without an index out of range. Unless it answers UNBOUNDED, the returned point satisfies the equalities exactly; if it answers OPTIMAL, the inequalities are violated in total by at most an explicit multiple of the machine epsilon.", "quantifier": "every problem of any size, every previous contents of the solver's vectors", "why_tests_cant": "all sizes, all degenerate configurations of the inequalities", "anchors": ["src/eiquadprog-fast.cpp:solve_quadprog", "src/eiquadprog-fast.cpp:add_constraint"]}
{"id": "C73", "title": "Plans in the force formulation made with the bundled solver are balanced by contact forces at every instant", "statement": "With the bundled QP solver, continuous formulation (timeStep<=0) and contact forces as variables (any representation but double description), for the five flag combinations with exact wrench formulas, contact generators of full rank and data on the scale of the solver's thresholds (explicit inequalities on the weight of the free point, the lengths of the rows, the singular values of the generators and the mass): computeCOMTraj returns without undefined behaviour, and a result reported as successful is a motion of the family. At every instant of every phase whose boundary control points are not handed over to a neighbour, non-negative contact forces balance the motion up to the solver's tolerance times the sum of the lengths of the generators; if the cones of the neighbours are nested, this holds for every phase. If no fixed control point is numerically zero, the kinematic constraints and the acceleration bound hold at every instant up to the solver's tolerance.", "quantifier": "all problem data, phase durations, numbers of contacts, generators and solver memory meeting the conditions; all instants", "why_tests_cant": "all instants of all plans, with any number of force variables; a test checks samples of one plan", "anchors": ["src/computeCOMTraj.cpp:computeCOMTraj", "src/computeCOMTraj.cpp:computeConstraintsContinuous", "src/computeCOMTraj.cpp:assignStabilityConstraintsForTimeStepForce", "src/eiquadprog-fast.cpp:solve_quadprog"]}
{"id": "C74", "title": "In the force formulation the cheapest plan is found when its forces push", "statement": "Under the conditions of C73 and with phases no shorter than the shortest piece the curve library cuts: let a motion of the family meet the kinematic constraints and the acceleration bound on the control points of every phase, with a free point above the solver's lower bound of -100000 and no fixed control point numerically zero, and let non-negative contact forces balance the control points of its wrench. If no motion of the family with forces balancing it, even with forces allowed to pull, has a lower total of motion cost plus 1e-6 times the squared forces, then computeCOMTraj with the bundled solver reports success and returns exactly this motion. The bundled QP solver in general returns, after its first step, the point of lowest objective on the equalities whenever that point meets the inequalities (symmetric Hessian, rows and equalities on the scale of the thresholds).", "quantifier": "all problem data, phase durations, numbers of contacts, generators, competing motions and forces, and solver memory meeting the conditions", "why_tests_cant": "minimality over all motions and force distributions; a test compares with finitely many competitors", "anchors": ["src/computeCOMTraj.cpp:computeCOMTraj", "src/computeCOMTraj.cpp:computeConstraintsContinuous", "src/costfunction_definition.cpp:genCostFunction", "src/eiquadprog-fast.cpp:solve_quadprog"]}
{"id": "C75", "title": "Sample parameters in double arithmetic", "statement": "In IEEE double arithmetic the parameters i*(1/n), i=0..n, at which the zero-step planner and the end-effector functions sample curves over [0,1] are finite, lie in [0,1] (so the Bernstein polynomials never reject them), start at 0, never decrease and differ from i/n by at most 2^-52; the last one lies between 1-2^-53 and 1. The normalised time min(t/T,1) of a sample of a motion of finite positive duration T at a finite time t>=0 is finite and in [0,1], even if t/T overflows. It is not true that the last parameter is always 1 (the witness has 49 intervals, 50 points).", "quantifier": "every number of intervals from 1 to 2^31-1, every index; every pair of doubles t, T", "why_tests_cant": "all 2^31 counts and all doubles; rounding can push a product above 1 for isolated counts only", "anchors": ["src/common_solve_methods.cpp:ComputeDiscretizedWaypoints", "include/hpp/bezier-com-traj/common_solve_methods.inl:computeDiscretizedWaypoints", "include/hpp/bezier-com-traj/solve_end_effector.hh:computeDistanceCostFunction"]}
{"id": "C76", "title": "Sampling at a fixed step in double arithmetic", "statement": "In IEEE double arithmetic, whenever computeDiscretizedTime returns for positive finite durations whose accumulated sum is finite and a positive step, its samples are one increasing list per phase from the accumulated start of the phase to its accumulated end, both included, tagged with the phase; each time is at most the previous one plus the step up to one rounding, and equals it up to one rounding except for the last of a phase. It returns if the step is at least 2^-52 times the accumulated duration. It never returns if adding the step to the start of some phase is lost in rounding; this happens for positive steps that meet the precondition asserted in the code, so termination for every positive step is refuted. Two successive samples of a phase of at least two steps can be closer than 11*2^-53 times the step.", "quantifier": "every list of positive doubles and every positive step, no bound on the number of iterations", "why_tests_cant": "non-termination cannot be observed; all durations and steps", "anchors": ["src/utils.cpp:computeDiscretizedTime"]}
{"id": "C77", "title": "Sampling with a fixed number of points per phase in double arithmetic", "statement": "In IEEE double arithmetic computeDiscretizedTimeFixed returns phases*points+1 samples tagged as intended, the first at 0 and the last exactly at the sum computed by Eigen; every other time is finite and differs from the exact time by a relative error of at most 2^-52 times one plus the number of additions made so far.", "quantifier": "every non-empty list of positive durations with a sum of at most 2^1000 and steps that are normal numbers, every number of points with fewer than 2^53 samples, every value of the sum", "why_tests_cant": "accumulated rounding over all durations and counts", "anchors": ["src/utils.cpp:computeDiscretizedTimeFixed"]}
{"id": "C78", "title": "Cutting the trajectory into phases in double arithmetic", "statement": "In IEEE double arithmetic the continuous planner's loop that cuts a curve over [0,T] at the ends of the phases raises no exception exactly if the durations added one after the other do not exceed T; the pieces then start and end at these partial sums. With T summed from left to right it never raises one. With the summation order of Eigen's vectorised code it can (the witness has the durations 0.1, 0.1, 0.1 and 0.4).", "quantifier": "every non-empty list of positive durations with finite sum and every finite T", "why_tests_cant": "depends on the last bit of sums in different orders; all durations", "anchors": ["src/computeCOMTraj.cpp:computeConstraintsContinuous"]}
{"id": "C79", "title": "Number of steps of the zero-step planner in double arithmetic", "statement": "In IEEE double arithmetic the number of steps computed from T and the time step is the number of whole steps that fit into T, or one more if the quotient is within a relative 2^-53 of that number; it is undefined behaviour if 2^31 or more steps fit. It is not true that the steps always fit: the exact quotient can be below the number of steps made (the witness has T=1, the double nearest to 0.1, and 10 steps).", "quantifier": "every finite T and positive finite step with a non-negative quotient", "why_tests_cant": "all doubles; the deviation occurs only when the quotient rounds up to an integer", "anchors": ["src/solve_0_step.cpp:computeNumSteps"]}
{"id": "C80", "title": "Meaning of the discretised constraints at rounded times", "statement": "With the times computed in IEEE double arithmetic and the points and rows exact, a free point satisfies the inequalities that computeConstraintsOneStep builds from the samples of computeDiscretizedTime exactly if the curve satisfies the kinematic, wrench and (if requested) acceleration constraints of each phase at the samples of that phase, which go from its accumulated start to its accumulated end; with computeDiscretizedTimeFixed, exactly if it satisfies those of phase i at samples i*points to i*points+points. A sample t is evaluated at a time inside [0,T] that is T if t is T or more, and otherwise differs from t by at most 2^-53*t + 2^-1074*T. No sample makes the evaluation fail, whatever the order in which T was summed. For the two flags whose formulas use decimals the equivalence holds with their tolerance.", "quantifier": "every well-posed problem with equal gravities, every list of positive doubles as durations (finite sum; for the fixed number of points: sum at most 2^1000, steps normal, fewer than 2^53 samples), every positive step for which the sampling returns, every number of points from 1, every positive finite T, every free point", "why_tests_cant": "holds for all durations, steps and points at once, including times pushed past the end of the motion by rounding", "anchors": ["src/computeCOMTraj.cpp:computeConstraintsOneStep", "src/utils.cpp:computeDiscretizedTime", "src/utils.cpp:computeDiscretizedTimeFixed", "include/hpp/bezier-com-traj/common_solve_methods.inl:computeDiscretizedWaypoints"]}
{"id": "C81", "title": "Constraints of a discretised plan between its samples", "statement": "A successful plan of computeCOMTraj with a positive time step h, or of computeCOMTrajFixedSize (h = duration of the phase / points), satisfies the constraints of a phase throughout the phase up to tolerances proportional to h^2: a kinematic row K.c <= k up to |K|_1*R2*h^2/8, the acceleration bound up to R4*h^2/8, the wrench rows up to the slack 3*(R4 + 2*R2*G + 4*R1*R3 + 2*M*R4)*h^2/8 (for the two flags with decimal wrench formulas plus the error of C06), where M bounds the coordinates of the control points, G those of gravity, and Rk = 2^k*n(n-1)..(n-k+1)*M/T^k bounds the k-th derivative of a curve of degree n. That the constraints hold exactly between samples is refuted: there is a problem that can be planned and all of whose successful plans, with any sound solver, violate the kinematic constraints at some time of a phase.", "quantifier": "every well-posed problem with equal gravities and flag among the seven documented ones, every list of durations, step or number of points, every sound solver, every time of every phase", "why_tests_cant": "concerns every instant between the samples and every solver answer", "anchors": ["src/computeCOMTraj.cpp:computeCOMTraj", "src/computeCOMTraj.cpp:computeCOMTrajFixedSize", "src/computeCOMTraj.cpp:computeConstraintsOneStep"]}
{"id": "C82", "title": "Wrench of a discretised zero-step plan between its samples", "statement": "A successful plan of solve0step with a positive time step of which N >= 1 fit into the duration T keeps the wrench in the cone of the phase at every time of the motion up to a tolerance proportional to h^2, h = T/N: every row H of the cone satisfies H.w <= |H|*(m*3*(R4 + 2*R2*G + 4*R1*R3 + 2*M*R4) + 3*S3)*h^2/8, where M bounds the coordinates of the four control points of the motion, G those of gravity, L those of the control points of the angular momentum (L = 0 without), Rk bounds the k-th derivative of the motion (2^k*3*2*..*M/T^k, so R4 = 0) and S3 = 48*L/T^3 the third derivative of the angular momentum. That the wrench is in the cone between the samples is refuted: there is a problem that can be planned and all of whose successful plans, with any sound solver, leave the cone.", "quantifier": "every zero-step problem (one contact phase, one positive duration), every time step, every sound solver, every instant of the motion", "why_tests_cant": "concerns every instant between the samples and every solver answer", "anchors": ["src/solve_0_step.cpp:solve0step", "src/solve_0_step.cpp:ComputeAllWaypoints", "src/common_solve_methods.cpp:ComputeDiscretizedWaypoints"]}
{"id": "C83", "title": "Discretised plans made with the bundled solver between their samples", "statement": "With the bundled QP solver (no assumption about a back end) and a problem on the scale of the solver (as in C53 and C64), computeCOMTraj with a positive step, computeCOMTrajFixedSize and solve0step with a step that fits into the motion return, and a plan reported successful meets its constraints at every instant of every phase, not only at the samples: up to the solver's tolerance of C53/C64 plus the tolerance of C81/C82, which is proportional to the square of the time between samples (for the two flags with decimal wrench formulas also the error of C06).", "quantifier": "every well-posed problem on the scale of the solver with equal gravities and flag among the seven documented ones, or zero-step problem, every list of durations, step or number of points, every previous content of the solver's memory, every instant of every phase", "why_tests_cant": "concerns every instant between the samples and every problem", "anchors": ["src/computeCOMTraj.cpp:computeCOMTraj", "src/computeCOMTraj.cpp:computeCOMTrajFixedSize", "src/solve_0_step.cpp:solve0step", "src/eiquadprog-fast.cpp:solve_quadprog"]}
{"id": "C84", "title": "Constraints between samples taken at rounded times", "statement": "With the times of the discretised planner computed in IEEE doubles (points and rows exact): if the free point satisfies the rows, the curve meets the kinematic, wrench and acceleration constraints of each phase throughout it, not only at the samples, up to tolerances proportional to the square of the largest distance between successive evaluated samples. For steps of dt this distance is at most dt plus 2^-53*(dt + 4*T); for p points in a phase of duration d at most d/p plus the rounding of the additions made, twice the difference between T and the exact total of the durations, and 3*2^-53*T. The phases are those the planner computes, ends included: they leave no instant of [0, T] uncovered, for a fixed number of points always, for steps of dt if T does not exceed the end of the last phase (as when T is the sum of the durations from left to right). For the two flags with decimal wrench formulas the error of C06 is added.", "quantifier": "every well-posed problem with equal gravities and flag among the seven documented ones, every list of positive double durations with finite sum, every T, step or number of points within the stated ranges, every free point, every instant of every phase", "why_tests_cant": "concerns every instant between the samples and the rounding of every sum of durations", "anchors": ["src/utils.cpp:computeDiscretizedTime", "src/utils.cpp:computeDiscretizedTimeFixed", "src/computeCOMTraj.cpp:computeConstraintsOneStep"]}
{"id": "C85", "title": "The python accessors of the end-effector problem show the problem that is solved", "statement": "In python, for the three end-effector flags and T > 0: the columns of computeEndEffectorConstantWaypoints are the control points of every curve of the planner, except that the free points take the place of the columns from the fifth. computeEndEffectorConstraints and computeEndEffectorVelocityCost return matrices with three columns per free point, and the result of computeEndEffector depends on the quadratic solver only through its answer to the problem made of exactly these matrices. If A x <= b, the curve for x keeps velocity and jerk within 10000 per axis and stays above the lower of its two ends, provided that the control points given by the boundary conditions do. x'Hx + 2g'x is, up to a positive factor and a constant, the integral of the squared speed, up to the error of the decimal constants.", "quantifier": "every problem with one of the three end-effector flags, every positive duration (at most 10^6 for the bounds), every value of the free points, every instant of the motion, every pair of quadratic solvers", "why_tests_cant": "an equality of the problem shown and the problem solved, for all data, and statements about every instant and every value of the free points", "anchors": ["python/bezier_com_traj.cpp:computeEndEffectorConstraints", "python/bezier_com_traj.cpp:computeEndEffectorVelocityCost", "python/bezier_com_traj.cpp:computeEndEffectorConstantWaypoints", "python/bezier_com_traj.cpp:computeEndEffector"]}
{"id": "C86", "title": "Rounding of the fixed control points: how well plans meet the boundary conditions in double arithmetic", "statement": "For the seven centre-of-mass flags and the three end-effector flags, with all data finite and at most 2^200 and 0 < T <= 2^200: the fixed control points computed in IEEE double arithmetic are finite, the two end points are exact, and every other one is within 2^-50 (|c| + T|v| + T^2|a| + T^3|j|) per axis, plus a term for underflow, of its exact value, where only the parts of the state that the point encodes count. Hence, for every value of the free points, the curve through the computed points is at every instant within the largest of these errors of the exact curve, starts and ends exactly at the required positions, and meets the required velocities, accelerations and jerks within the errors that these give. They need not be met exactly: a required velocity can vanish in the rounding. With the flag that constrains the final velocity but not the final position, the exception for a final velocity other than zero is thrown exactly when a coordinate has a square above 2^-1075, so smaller velocities are accepted.", "quantifier": "every problem with one of the ten flags and data up to 2^200, every duration up to 2^200, every value of the free points, every instant", "why_tests_cant": "a bound on the rounding error for all doubles in the range, and an exact threshold", "anchors": ["include/hpp/bezier-com-traj/waypoints/waypoints_c0_dc0_c1.hh:computeConstantWaypoints", "include/hpp/bezier-com-traj/waypoints/waypoints_c0_dc0_dc1.hh:computeConstantWaypoints", "include/hpp/bezier-com-traj/waypoints/waypoints_c0_dc0_ddc0_ddc1_dc1_c1.hh:computeConstantWaypoints", "include/hpp/bezier-com-traj/waypoints/waypoints_c0_dc0_ddc0_j0_x5_j1_ddc1_dc1_c1.hh:computeConstantWaypoints", "src/waypoints_definition.cpp:computeConstantWaypoints"]}
{"id": "C87", "title": "Rounding of the sampled positions and accelerations in double arithmetic", "statement": "For the seven centre-of-mass flags, with all data finite and at most 2^200, 0 < T <= 2^200 and any finite sample times that are not negative: the scalar and the vector from which the constraints on a sampled position are built, computed in IEEE double arithmetic, are finite, and for every free point x the point they stand for (scalar times x plus vector) is per axis within 2^(2n+3) 2^-53 S, plus a term for underflow, of the exact curve of degree n at one instant of [0,T], which is the sample time up to rounding. Here S is the largest coordinate the required states and x can give a control point. The same holds for sampled accelerations, with the error 2^(3n+1) 2^-53 S/T^2 and T at least 2^-100.", "quantifier": "every problem with one of the seven flags and data up to 2^200, every duration in the range, every list of sample times, every free point", "why_tests_cant": "a bound on the accumulated rounding error and the absence of overflow for all doubles in the range", "anchors": ["include/hpp/bezier-com-traj/waypoints/waypoints_c0_dc0_c1.hh:evaluateCurveAtTime", "include/hpp/bezier-com-traj/waypoints/waypoints_c0_dc0_c1.hh:evaluateAccelerationCurveAtTime", "include/hpp/bezier-com-traj/waypoints/waypoints_c0_dc0_dc1.hh:evaluateCurveAtTime", "include/hpp/bezier-com-traj/waypoints/waypoints_c0_dc0_dc1.hh:evaluateAccelerationCurveAtTime", "include/hpp/bezier-com-traj/waypoints/waypoints_c0_dc0_dc1_c1.hh:evaluateCurveAtTime", "include/hpp/bezier-com-traj/waypoints/waypoints_c0_dc0_dc1_c1.hh:evaluateAccelerationCurveAtTime", "include/hpp/bezier-com-traj/waypoints/waypoints_c0_dc0_ddc0.hh:evaluateCurveAtTime", "include/hpp/bezier-com-traj/waypoints/waypoints_c0_dc0_ddc0.hh:evaluateAccelerationCurveAtTime", "include/hpp/bezier-com-traj/waypoints/waypoints_c0_dc0_ddc0_c1.hh:evaluateCurveAtTime", "include/hpp/bezier-com-traj/waypoints/waypoints_c0_dc0_ddc0_c1.hh:evaluateAccelerationCurveAtTime", "include/hpp/bezier-com-traj/waypoints/waypoints_c0_dc0_ddc0_dc1_c1.hh:evaluateCurveAtTime", "include/hpp/bezier-com-traj/waypoints/waypoints_c0_dc0_ddc0_dc1_c1.hh:evaluateAccelerationCurveAtTime", "include/hpp/bezier-com-traj/waypoints/waypoints_c0_dc0_ddc0_ddc1_dc1_c1.hh:evaluateCurveAtTime", "include/hpp/bezier-com-traj/waypoints/waypoints_c0_dc0_ddc0_ddc1_dc1_c1.hh:evaluateAccelerationCurveAtTime", "include/hpp/bezier-com-traj/common_solve_methods.inl:computeDiscretizedWaypoints", "include/hpp/bezier-com-traj/common_solve_methods.inl:computeDiscretizedAccelerationWaypoints"]}
{"id": "C88", "title": "The kinematic and acceleration rows computed in double arithmetic mean the constraints, up to a stated error", "statement": "For the seven centre-of-mass flags, with all data (including the kinematic matrices and the acceleration bound) finite and at most 2^200, 0 < T <= 2^200 and finite sample times that are not negative, grouped in one non-empty block per phase: the inequality rows for the kinematic constraints and for the bound on the acceleration, computed in IEEE double arithmetic from the problem data, are finite. Read as exact inequalities, if a free point meets all of them up to some slack, then at every sample the exact curve through it meets the kinematic constraints of every phase in force there (both phases at the last sample of a phase), and each coordinate of its acceleration the bound, up to that slack plus an explicit error of the order of 2^-53 times the sizes of the data; conversely, a point whose curve meets them with that error as a margin meets all the rows, so none is cut off without reason. For accelerations T is at least 2^-100.", "quantifier": "every problem with one of the seven flags and data up to 2^200, every duration in the range, every number of phases, samples and kinematic rows, every order of summation of the right-hand sides, every free point and slack", "why_tests_cant": "a bound on the accumulated rounding error of every row, in both directions, for all doubles in the range and any number of phases", "anchors": ["src/computeCOMTraj.cpp:assignKinematicConstraints", "src/computeCOMTraj.cpp:assignAccelerationConstraints", "src/computeCOMTraj.cpp:stepIdPerPhase", "include/hpp/bezier-com-traj/common_solve_methods.inl:computeDiscretizedWaypoints", "include/hpp/bezier-com-traj/common_solve_methods.inl:computeDiscretizedAccelerationWaypoints"]}
{"id": "C89", "title": "With times, control points and rows all rounded to doubles, the returned curve still respects kinematics and acceleration at every instant", "statement": "For the seven centre-of-mass flags, data finite and at most 2^200, 2^-100 <= T <= 2^200 and positive phase durations: sample times (by steps of dt, when the sampling loop ends, or a fixed number of points per phase), control points and the kinematic and acceleration rows, all computed in IEEE double arithmetic, are produced without error. If a free point meets these rows up to some slack, then the curve made of the rounded control points and that free point respects the kinematic constraints of each phase throughout the phase, and each coordinate of its acceleration the bound, up to that slack plus three explicit tolerances: rounding of the rows, rounding of the control points, and a term proportional to the square of the distance between two samples. The phases cover [0, T], by steps of dt unless T is past the computed end of the last phase, with a fixed number of points always.", "quantifier": "every problem with one of the seven flags and data up to 2^200, every duration in the range, every number of phases, every step or number of points, every number of kinematic rows, every order of summation of the right-hand sides, every free point and slack, every instant", "why_tests_cant": "uncountably many instants, and a bound on the rounding error for all doubles in the range and any number of phases", "anchors": ["src/computeCOMTraj.cpp:assignKinematicConstraints", "src/computeCOMTraj.cpp:assignAccelerationConstraints", "src/utils.cpp:computeDiscretizedTime", "src/utils.cpp:computeDiscretizedTimeFixed", "include/hpp/bezier-com-traj/utils.hh:computeBezierCurve", "src/waypoints_definition.cpp:computeConstantWaypoints"]}
{"id": "C90", "title": "The discretised planner returns the one best motion, whenever there is one, and nothing else", "statement": "For the five flags whose stability constraint is exact and a cost that distinguishes the free points (distance, or acceleration when it depends on the free point at some sample): there is at most one motion that meets all constraints at all samples and costs no more than any other such motion. If it exists, the call succeeds and returns exactly its free point and its curve. If the call succeeds, what it returns is that motion.", "quantifier": "every well-posed problem with positive durations, phases sharing one gravity, every number of phases, rows, samples, every step or number of points, every back end that solves strictly convex problems", "why_tests_cant": "optimality and uniqueness among uncountably many motions, for every problem", "anchors": ["src/computeCOMTraj.cpp:computeCOMTraj", "src/computeCOMTraj.cpp:computeCOMTrajFixedSize", "src/computeCOMTraj.cpp:genTraj", "src/computeCOMTraj.cpp:genCostFunction"]}
{"id": "C91", "title": "Easing a problem or sampling it more coarsely never loses a plan, and writing it differently never changes the plan", "statement": "Let a second problem ask for no more than the first: same boundary conditions, flag and cost, kinematic constraints implied by those of the first, each polytope row a positive multiple of a row of the first with no smaller offset, any positive masses, no greater margin, no tighter acceleration bound. If the first problem succeeds with some samples, the second succeeds with samples taken from them, at no greater cost. If each of the two asks for no more than the other and the samples are the same, a successful result of one is, field for field, the result of the other: the order, repetition and length of the rows and the masses do not matter.", "quantifier": "every pair of well-posed problems so related (five flags with exact stability constraint), every number of phases and rows, every step and multiple of it, every number of points and divisor of it, every sound back end that solves strictly convex problems", "why_tests_cant": "a relation between the answers to two arbitrary problems", "anchors": ["src/computeCOMTraj.cpp:computeCOMTraj", "src/computeCOMTraj.cpp:computeCOMTrajFixedSize", "src/computeCOMTraj.cpp:genTraj", "src/computeCOMTraj.cpp:genCostFunction", "src/computeCOMTraj.cpp:assignStabilityConstraintsForTimeStep", "src/computeCOMTraj.cpp:assignKinematicConstraints"]}
{"id": "C92", "title": "The plan does not depend on the frame in which the problem is written, except through the stability margin and the acceleration bound", "statement": "Turn and shift the world: positions, velocities, gravity, kinematic rows and wrench polytopes are rewritten in the new frame. The discretised planner succeeds on the moved problem exactly when it does on the original, and its free point and its curve are the moved ones, at the same cost. This holds for every rotation when no acceleration bound is requested, and for every shift of the origin when the offset of each polytope row equals the margin. Without these conditions it is false: with the default margin 1/1000 and offsets zero, a shift of the origin turns a solvable problem into an infeasible one, and with an acceleration bound a rotation does.", "quantifier": "every well-posed problem (five flags with exact stability constraint), every rotation and shift, every number of phases, rows and samples, every sound back end that solves strictly convex problems", "why_tests_cant": "a relation between the answers to a problem and all its images under a continuous group of motions", "anchors": ["src/computeCOMTraj.cpp:computeCOMTraj", "src/computeCOMTraj.cpp:computeCOMTrajFixedSize", "src/computeCOMTraj.cpp:assignStabilityConstraintsForTimeStep", "src/computeCOMTraj.cpp:assignKinematicConstraints", "src/computeCOMTraj.cpp:assignAccelerationConstraints", "src/waypoints_definition.cpp:computeConstantWaypoints"]}
{"id": "C93", "title": "With positions and velocities given at both ends, the plan of the reversed problem is the reversed plan, if the samples are a fixed number per phase", "statement": "Exchange the start and the end of a problem, reverse the velocities and take the phases and durations in the other order. With the flag that fixes position and velocity at both ends and a fixed number of points per phase, the planner succeeds on the reversed problem exactly when it does on the original, with the same free point and the curve t -> c(T - t). With a time step this is false: the samples start at the beginning of each phase, and a problem can be solvable in one direction and infeasible in the other.", "quantifier": "every well-posed problem with that flag, every number of phases, rows and points per phase, both costs, every sound back end that solves strictly convex problems", "why_tests_cant": "a relation between the answers to two problems, for all problems and any number of phases", "anchors": ["src/computeCOMTraj.cpp:computeCOMTrajFixedSize", "src/computeCOMTraj.cpp:computeCOMTraj", "src/utils.cpp:computeDiscretizedTimeFixed", "src/utils.cpp:computeDiscretizedTime", "include/hpp/bezier-com-traj/waypoints/waypoints_c0_dc0_dc1_c1.hh:computeConstantWaypoints"]}
{"id": "C94", "title": "A problem written in other units of length and time has the same plan in those units, except that a margin fixes the unit of length", "statement": "Write a problem in other units: lengths l times and times u times as large as numbers, with velocities, accelerations, gravity, the rows and offsets of the contacts, the acceleration bound, the margin and the time step converted accordingly. The planner succeeds on one exactly when it does on the other; the free point is l times, and the curve t -> l c(t / u). For another unit of time this holds for every problem; for another unit of length if the offsets of all cone rows equal the margin (as without both). With the default margin of 1/1000 it fails for lengths: rows are normalised over forces and moments together, and a problem can be solvable in one unit of length and infeasible in another.", "quantifier": "every well-posed problem (five flags with exact stability constraint, phases sharing one gravity), all positive factors l and u, any number of phases and rows, both sampling modes, both costs, every sound back end that solves strictly convex problems", "why_tests_cant": "a relation between the answers to two problems, for all problems and factors", "anchors": ["src/computeCOMTraj.cpp:computeCOMTraj", "src/computeCOMTraj.cpp:computeCOMTrajFixedSize", "src/computeCOMTraj.cpp:updateH", "src/computeCOMTraj.cpp:dynamicStabilityConstraints", "src/common_solve_methods.cpp:Normalize", "src/utils.cpp:computeDiscretizedTime"]}
{"id": "C95", "title": "Describing one phase as two phases with the same contact leaves the plan as it is with the distance cost, but not with the acceleration cost", "statement": "Take a problem planned with a time step, and replace one of its phases by two phases with the same contact whose durations sum to that of the phase, the cut being at a multiple of the step after the start of the phase. With the distance cost, a successful result of the one call is exactly the result of the other: same free point, same curves, same cost. With the acceleration cost it need not be: the instant of the cut is listed for both phases and counts twice in the sum, so for one unconstrained phase of 2 s from rest at the origin to the position (1, 0, 0) and step 1 the free point moves from 3/7 to 5/11 of the way.", "quantifier": "every well-posed problem (five flags with exact stability constraint, phases sharing one gravity) with the distance cost, every phase, every positive time step and every cut at a multiple of it inside the phase, any number of phases and rows, every sound back end that solves strictly convex problems", "why_tests_cant": "a relation between the answers to two problems, for all problems, phases and cuts", "anchors": ["src/computeCOMTraj.cpp:computeCOMTraj", "src/utils.cpp:computeDiscretizedTime", "src/computeCOMTraj.cpp:computeConstraintsOneStep"]}
{"id": "C96", "title": "The acceleration cost determines the free point for every sampling, except with all boundary conditions given", "statement": "The sum of squared sampled accelerations depends on the free point for each of the seven accepted flags but one, whatever the durations and however few the samples. So for the five flags of C90 to C94 the planning problem with either cost never has two best motions. With position, velocity and acceleration given at both ends it depends on it exactly if some sample lies, as a fraction s of the duration, off the roots of s (1 - s) (5 s^2 - 5 s + 1). If none does, as for one phase with one point per phase (the two ends), all motions cost the same, and the call with the bundled solver makes it factorise a zero matrix without checking the outcome, so that nothing is specified about what follows, whatever the constraints.", "quantifier": "every well-posed problem, all positive durations, any number of phases and rows, every positive time step and positive number of points per phase; for the unspecified outcome, phases sharing one gravity, every start of the memory read by the solver and all constraints", "why_tests_cant": "a claim about all durations and samplings; a test samples a few, and the zero matrix appears for special samplings only", "anchors": ["src/costfunction_definition.cpp:computeCostMinAcceleration", "src/computeCOMTraj.cpp:computeCOMTrajFixedSize", "src/computeCOMTraj.cpp:computeCOMTraj", "src/eiquadprog-fast.cpp:solve_quadprog"]}
{"id": "C97", "title": "A plan of the continuous formulation is acceptable to the discretised planner for every sampling, but not conversely", "statement": "If computeCOMTraj without time step (polytopes given by their rows) succeeds and no fixed control point of the returned curve is numerically zero, its curve meets the discretised constraints for every time step and every number of points per phase, so the discretised calls succeed on the same problem, at a cost no greater than that of the continuous plan. The continuous formulation finds a plan whenever the control points of some motion, on every phase, meet the constraints, and one costing no more than it (accelerations being summed at seven points per phase). The converse is false: there is a problem for which the call with one point per phase succeeds and the continuous one cannot, as every motion leaves the kinematic constraint between the samples.", "quantifier": "every well-posed problem (five flags with exact stability constraint, phases sharing one gravity) with the distance or acceleration cost, the last phase starting before 1/1000 s or at least that long (for finding a plan, all phases at least 1/1000 s), and, where an acceleration bound is asked for and the derivative is not scaled by the library, a duration of at least 1 s; every sampling; every sound back end that solves strictly convex problems", "why_tests_cant": "a relation between the answers of two planners for all problems and all samplings", "anchors": ["src/computeCOMTraj.cpp:computeCOMTraj", "src/computeCOMTraj.cpp:computeCOMTrajFixedSize", "src/computeCOMTraj.cpp:computeConstraintsContinuous", "src/computeCOMTraj.cpp:computeConstraintsOneStep"]}
{"id": "C98", "title": "Two plans of a problem can be blended", "statement": "For two free points of a problem and every ratio, the motion of the mixture of the free points is, at every time, the mixture of the two motions. At every time at which both motions meet the kinematic constraint, the stability constraint with its margin and the acceleration bound, so does the mixture, and it costs no more than the mixture of their costs. In particular, from two successful discretised results for a problem, however sampled, every blend of the two curves has the boundary conditions of the problem and meets its constraints at the common samples.", "quantifier": "every well-posed problem with any of the seven flags, all pairs of free points, all ratios in [0, 1], all sets of times, both costs; for results, the five flags with exact stability constraint, phases sharing one gravity and every sound back end", "why_tests_cant": "a statement about all pairs of motions, all ratios and all times; the wrench is a product of two motions and is linear only because the product of the free point with itself vanishes", "anchors": ["src/computeCOMTraj.cpp:computeCOMTraj", "src/computeCOMTraj.cpp:computeCOMTrajFixedSize", "src/waypoints_definition.cpp:evaluateCurveAtTime", "src/waypoints_definition.cpp:evaluateAccelerationCurveAtTime"]}
{"id": "C99", "title": "The plan does not depend on the QP back end", "statement": "Two sound back ends that solve strictly convex problems give the same successful result for a problem, field for field, including the cost: the plan is determined by the problem and the sampling.", "quantifier": "every well-posed problem (five flags with exact stability constraint, phases sharing one gravity) with the distance or acceleration cost, every sampling, every two such back ends", "why_tests_cant": "quantifies over all back ends and problems; tests run with the one that is linked", "anchors": ["src/computeCOMTraj.cpp:computeCOMTraj", "src/computeCOMTraj.cpp:computeCOMTrajFixedSize", "src/solver-abstract.cpp:solve"]}
{"id": "C100", "title": "The zero-step planner returns the one best plan, whatever the QP back end", "statement": "Among the capture points (and momentum points, when angular momentum is taken into account) that meet the constraints of a zero-step problem for a time step, at most one has the least criterion (weighted squared distance from the start plus duration times the integral of the squared rate of angular momentum). solve0step returns its motion and momentum whenever it exists, and no other successful result; two sound back ends that solve strictly convex problems give the same successful result, field for field.", "quantifier": "every problem with one phase (positive mass, no zero row) and one positive duration, with and without angular momentum, every time step for which the number of steps fits an int, every two such back ends", "why_tests_cant": "a claim about all competing capture points and about all back ends; tests see one answer of the one that is linked", "anchors": ["src/solve_0_step.cpp:solve0step", "src/solve_0_step.cpp:computeCostFunction", "src/solve_0_step.cpp:compute6dControlPointInequalities"]}
{"id": "C101", "title": "Zero-step plans and samplings: refinement and blending", "statement": "A successful zero-step plan computed without time step meets the constraints for every time step, and one computed with k*N steps meets those for N steps; so solve0step succeeds for the coarser sampling as well, at no greater criterion. For two feasible choices of the free points and every ratio, the blend is feasible, its motion and momentum are the blends of the two, and its criterion is at most the blend of their criteria. The converse of the first claim is false: for some problem the call with one step always succeeds although every motion that meets the kinematic constraint leaves the cone of forces on the way, so that the call without step never succeeds.", "quantifier": "every problem with one phase and one positive duration, with and without angular momentum, all pairs of such samplings, all pairs of feasible points, all ratios in [0, 1]; sound back ends that solve strictly convex problems", "why_tests_cant": "a relation between the answers for all problems and samplings", "anchors": ["src/solve_0_step.cpp:solve0step", "src/solve_0_step.cpp:compute6dControlPointInequalities", "src/solve_0_step.cpp:computeNumSteps"]}
{"id": "C102", "title": "Zero-step plans follow the frame of reference, except for the origin when angular momentum is constrained", "statement": "If a zero-step problem is expressed in a frame that is turned by any rotation, solve0step succeeds exactly when it did before, with the turned motion, the turned rate of angular momentum and the same cost. The same holds if the origin is also shifted, provided that angular momentum is not taken into account or the contact has no rows for it. With angular momentum and such rows it is false: for some problem a call that succeeds for every sampling never succeeds after the origin has been shifted.", "quantifier": "every problem with one phase (positive mass, no zero row) and one positive duration, every rotation and shift, every time step for which the number of steps fits an int; sound back ends that solve strictly convex problems", "why_tests_cant": "a relation between the answers for all problems in all frames", "anchors": ["src/solve_0_step.cpp:solve0step", "src/solve_0_step.cpp:compute6dControlPointInequalities", "src/solve_0_step.cpp:computeCostFunction"]}
{"id": "C103", "title": "End-effector curve with five free points: what its evaluation returns", "statement": "For the end-effector curve with five free points, evaluateJerkCurveWaypointAtTime is the third derivative of a curve of degree 10 that keeps only the first three free points and the fixed points 0 to 3, 9 and 10, with two points at the origin; evaluateAccelerationCurveWaypointAtTime is its second derivative with the powers of the part without free points permuted; evaluateVelocityCurveWaypointAtTime is the sum of the five free points over the duration plus the first derivative of the same curve without free points, powers permuted. At the start they are the sum of the free points over the duration plus 5/6 of the given velocity, 15/22 of the given acceleration and 6/11 of the given jerk.", "quantifier": "every state, positive duration, parameter and five free points", "why_tests_cant": "identity over all times and free points", "anchors": ["include/hpp/bezier-com-traj/waypoints/waypoints_c0_dc0_ddc0_j0_x5_j1_ddc1_dc1_c1.hh:evaluateVelocityCurveWaypointAtTime", "include/hpp/bezier-com-traj/waypoints/waypoints_c0_dc0_ddc0_j0_x5_j1_ddc1_dc1_c1.hh:evaluateAccelerationCurveWaypointAtTime", "include/hpp/bezier-com-traj/waypoints/waypoints_c0_dc0_ddc0_j0_x5_j1_ddc1_dc1_c1.hh:evaluateJerkCurveWaypointAtTime"]}
{"id": "C104", "title": "Final velocity in the end-effector headers: when it is right", "statement": "computeFinalVelocityPoint of the three end-effector headers (callable directly, not offered by the dispatching function of the same name) does not depend on the free points. With one free point it is 3/4 of the given final velocity minus 3T/14 of the final acceleration plus T^2/56 of the final jerk, with three or five it is zero. So it is the velocity at the end of the curve exactly if T^2 j1 = 14 dc1 + 12 T ddc1 (one free point), or dc1 = 0 (three, five).", "quantifier": "every state, positive duration and free points", "why_tests_cant": "right for a motion that ends at rest; identity over all end states", "anchors": ["include/hpp/bezier-com-traj/waypoints/waypoints_c0_dc0_ddc0_j0_j1_ddc1_dc1_c1.hh:computeFinalVelocityPoint", "include/hpp/bezier-com-traj/waypoints/waypoints_c0_dc0_ddc0_j0_x3_j1_ddc1_dc1_c1.hh:computeFinalVelocityPoint", "include/hpp/bezier-com-traj/waypoints/waypoints_c0_dc0_ddc0_j0_x5_j1_ddc1_dc1_c1.hh:computeFinalVelocityPoint"]}
{"id": "C105", "title": "The end-effector plan does not depend on the solver or on the path between samples", "statement": "solveEndEffector with an end-effector flag, positive duration, a path defined on [0,1] and a weight in [0,1]: if it succeeds with one correct QP back end, it returns the same result, field by field, with every other correct back end, whichever LP solver is linked and whatever the uninitialised start vector contains. For every input, the result depends on the path only through its values at 50 equally spaced parameters k/49, and if the weight of the distance is not positive not on the path at all, even if evaluating it would fail.", "quantifier": "every end-effector problem, duration, path, weight, pair of correct QP back ends, LP solver and content of uninitialised memory", "why_tests_cant": "a test has one solver and one memory content; that the optimum is unique is a fact about all matrices the code can produce", "anchors": ["include/hpp/bezier-com-traj/solve_end_effector.hh:solveEndEffector", "include/hpp/bezier-com-traj/solve_end_effector.hh:computeDistanceCostFunction", "include/hpp/bezier-com-traj/solve_end_effector.hh:computeVelocityCost"]}
{"id": "C106", "title": "Number of unknowns announced for a flag", "statement": "dimVar returns three times the number of free control points declared by the flag (none of the free-variable bits: one; TWO_, THREE_, FOUR_, FIVE_FREE_VAR: two to five), whatever boundary conditions are set in its eight low bits. For the flags the planners support it is the number of coordinates of the free points of their curves.", "quantifier": "every combination of boundary-condition bits and every declared number of free points", "why_tests_cant": "tests use the supported flags only, none of which has two or four free points", "anchors": ["src/waypoints_definition.cpp:dimVar", "include/hpp/bezier-com-traj/flags.hh:ConstraintFlag"]}
{"id": "C107", "title": "An end effector is planned coordinate by coordinate", "statement": "solveEndEffector with an end-effector flag, positive duration and weight in [0,1] treats x, y and z independently. If two problems with the same flag, duration and weight agree in one coordinate of the start and end states and of the path, and both have a plan (possibly with different correct back ends), the two curves agree in that coordinate at every time, however the other coordinates differ. Conversely, if three problems have plans, then the problem (and path) that takes x from the first, y from the second and z from the third has a plan, whose curve takes its coordinates from theirs.", "quantifier": "every pair / triple of end-effector problems, paths, duration, weight, correct back end, time", "why_tests_cant": "relates the results for infinitely many pairs of inputs; a single coupling term or an end-dependent norm in the cost would break it only for some", "anchors": ["include/hpp/bezier-com-traj/solve_end_effector.hh:solveEndEffector", "include/hpp/bezier-com-traj/solve_end_effector.hh:computeEndEffectorConstraints", "include/hpp/bezier-com-traj/solve_end_effector.hh:computeEndEffectorCost", "include/hpp/bezier-com-traj/solve_end_effector.hh:computeDistanceCostFunction"]}
{"id": "C108", "title": "An end-effector plan turns and reflects with its problem", "statement": "solveEndEffector with an end-effector flag, positive duration and weight in [0,1] prefers no horizontal axis direction. If a problem with a path has a plan, and the start and end states and the path are all turned by a quarter about the vertical axis (or all reflected by changing the sign of x), then the new problem has a plan with any correct back end, and its curve is the turned (reflected) curve at every time. Repeating it covers the half turn, the other quarter turn, reflections of y and the exchange of x and y. Other angles are not claimed: the limits on velocity, acceleration and jerk form a box.", "quantifier": "every end-effector problem with a plan, path, duration, weight, correct back end, time", "why_tests_cant": "relates the results for infinitely many pairs of inputs; a sign or a bound wrong on one side of one axis shows only for inputs that come near it", "anchors": ["include/hpp/bezier-com-traj/solve_end_effector.hh:solveEndEffector", "include/hpp/bezier-com-traj/solve_end_effector.hh:computeEndEffectorConstraints", "include/hpp/bezier-com-traj/solve_end_effector.hh:computeEndEffectorCost", "include/hpp/bezier-com-traj/solve_end_effector.hh:computeDistanceCostFunction"]}
{"id": "C109", "title": "Where an end-effector plan moves with its problem", "statement": "solveEndEffector should not depend on where the origin of the coordinates is. With one free point and weight 1 (path only) it does not: if a problem has a plan, the problem and path moved by any vector have a plan with any correct back end, and its curve is the moved curve at every time. With one free point and weight 0 it does slightly, because the decimal constants of the velocity cost do not cancel: there is a problem such that its plan and that of its moved copy do not differ exactly by the translation. With three or five free points it does, because of an acceleration limit applied to a wrong expression: for a duration T up to 10^6 there is a plan only if the third control point of the curve, c0 + 2T/n dc0 + T^2/(n(n-1)) ddc0, is within 10000 (T/n + T^2/(n(n-1))) of the origin in every coordinate (n the degree of the curve), so a step with a plan loses it when it is moved two kilometres away.", "quantifier": "every end-effector problem, translation, path, duration, correct back end, time; for the second part every weight", "why_tests_cant": "tests plan near the origin; the claim is about every translation, and the loss of the plan appears only beyond a distance that depends on the duration", "anchors": ["include/hpp/bezier-com-traj/solve_end_effector.hh:solveEndEffector", "include/hpp/bezier-com-traj/solve_end_effector.hh:computeEndEffectorConstraints", "include/hpp/bezier-com-traj/waypoints/waypoints_c0_dc0_ddc0_j0_x3_j1_ddc1_dc1_c1.hh:computeAccelerationWaypoints", "include/hpp/bezier-com-traj/waypoints/waypoints_c0_dc0_ddc0_j0_x5_j1_ddc1_dc1_c1.hh:computeAccelerationWaypoints"]}
{"id": "C110", "title": "What the path weight of solveEndEffector does", "statement": "For a path defined on [0,1], weights in [0,1] and correct back ends, whether solveEndEffector finds a plan does not depend on the weight. Of two plans of the same problem for weights w < w', the one for w' has the smaller or equal sum of squared distances to the path over the 50 samples (with one free point, the distance is the one the code measures, which adds a multiple of c1 - c0 to the curve), and the integral of the squared speed of the one for w is at most that of the one for w' plus the error of the decimal constants of the velocity cost: 6 eps B^2 / ((2n - 1) T), with n the degree of the curve, B a bound of the control points of both and eps 10^-9, 10^-6 or 10^-4 for one, three or five free points. A negative weight gives the plan of weight zero.", "quantifier": "every end-effector problem, path, duration > 0, pair of weights in [0,1], correct back ends, initial guesses", "why_tests_cant": "the claim compares the optima of every pair of weights on every problem and path; a test compares a few", "anchors": ["include/hpp/bezier-com-traj/solve_end_effector.hh:solveEndEffector", "include/hpp/bezier-com-traj/waypoints/waypoints_definition.hh:computeVelocityCost", "include/hpp/bezier-com-traj/solve_end_effector.hh:computeDistanceCostFunction"]}
{"id": "C111", "title": "computeCOMTraj with initial and final jerk constraints", "statement": "computeCOMTraj and computeCOMTrajFixedSize accept the flag that selects position, velocity, acceleration and jerk at both ends (one free point), and a plan they report should meet the conditions the flag selects. It does not: a reported plan is a curve of degree 6 built from points computed for degree 8. It starts at c0 with velocity 3/4 dc0 and acceleration 15/28 ddc0, and ends at c1 - T/4 dc1 + T^2/56 ddc1, with velocity 3/4 dc1 - 3T/14 ddc1 + T^2/56 j1 and acceleration -30/T^2 c1 + 15/T dc1 - 75/28 ddc1 + 5T/28 j1. computeWwaypoints describes the wrench of that curve within the error of C06. The kinematic and acceleration limits are imposed at the samples of another curve, the one solveEndEffector would build, with the errors of its evaluation (C32, C33), so a reported plan can leave them at a sampled time, with a correct solver.", "quantifier": "every problem with this flag, durations, sampling, back end, gravity, time", "why_tests_cant": "no unit test uses this flag; the claim is about every problem that computeCOMTraj accepts with it", "anchors": ["include/hpp/bezier-com-traj/utils.hh:computeBezierCurve", "include/hpp/bezier-com-traj/waypoints/waypoints_c0_dc0_ddc0_j0_j1_ddc1_dc1_c1.hh:computeWwaypoints", "src/waypoints_definition.cpp:computeWwaypoints", "src/computeCOMTraj.cpp:computeCOMTraj", "src/computeCOMTraj.cpp:computeCOMTrajFixedSize"]}
{"id": "C112", "title": "What a reported plan satisfies whatever the solver answered", "statement": "Whatever the problem, durations, sampling and build, and whatever the QP or LP back end answers, a plan that computeCOMTraj or computeCOMTrajFixedSize reports as found is a curve on [0,T], T > 0 the sum of the durations, for one of the seven CoM flags or the flag with jerk constraints; the reported final velocity and acceleration are the derivatives of the curve at T; and, except for the flag with jerk constraints (C111), the curve meets every boundary condition the flag selects. Likewise a plan that solve0step reports as found is a curve on [0,T], T > 0 the first duration, that starts at the initial position with the initial velocity and stops, with velocity zero, at the point made of the first three reported variables. And a plan that solveEndEffector reports as found is a curve on [0,T], T > 0 the given duration, for one of the three end-effector flags, with the given position, velocity, acceleration and jerk at both ends, whose free points are the first reported variables.", "quantifier": "every problem (not only well-posed ones), duration list, time step or number of samples, solver choice and back-end answer", "why_tests_cant": "quantifies over all answers of the external solvers, including wrong ones, and over ill-posed problems", "anchors": ["src/computeCOMTraj.cpp:computeCOMTraj", "src/computeCOMTraj.cpp:computeCOMTrajFixedSize", "src/computeCOMTraj.cpp:genTraj", "src/waypoints_definition.cpp:computeWwaypoints", "src/solve_0_step.cpp:solve0step", "include/hpp/bezier-com-traj/solve_end_effector.hh:solveEndEffector"]}
{"id": "C113", "title": "What the planners do not look at", "statement": "The outcome of computeCOMTraj and computeCOMTrajFixedSize for a CoM flag or the flag with jerk constraints does not depend on the angular momentum, its switch, or those of the initial acceleration and jerk and the final position, velocity, acceleration and jerk that the flag does not select, with one exception: with the cost DISTANCE_TRAVELED the final position matters even if the flag does not select it, so that a body to be stopped anywhere is sent halfway to it. The outcome of solve0step depends only on the first phase, the first duration, the time step, the initial position, velocity and angular momentum and its switch; that of solveEndEffector only on the flag, the states at both ends, the path, its weight, the duration and the starting point of the solver (not on contacts, acceleration limit, margin, cost or representation).", "quantifier": "every pair of problems that agree in what is listed, all durations, samplings and back ends, successful or not", "why_tests_cant": "independence of a member is a statement about all pairs of values of it", "anchors": ["src/computeCOMTraj.cpp:computeCOMTraj", "src/computeCOMTraj.cpp:computeCOMTrajFixedSize", "src/costfunction_definition.cpp:computeCostMidPoint", "src/solve_0_step.cpp:solve0step", "include/hpp/bezier-com-traj/solve_end_effector.hh:solveEndEffector"]}
{"id": "C114", "title": "End-effector motions run backwards", "statement": "For the three end-effector flags, the curve of the reversed problem (ends exchanged, velocities and jerks negated) for the free points in reverse order is the curve of the problem run backwards. With three or five free points its sum of squared distances to the path run backwards, at any number of equally spaced samples, both ends included, is that of the curve to the path; with one free point it can differ, because the code measures the distance of the curve plus a multiple of c1 - c0.", "quantifier": "every problem with an end-effector flag, all durations, free points, numbers of samples and paths", "why_tests_cant": "quantifies over all states at both ends, free points and paths", "anchors": ["include/hpp/bezier-com-traj/solve_end_effector.hh:solveEndEffector", "include/hpp/bezier-com-traj/solve_end_effector.hh:computeDistanceCostFunction", "include/hpp/bezier-com-traj/waypoints/waypoints_c0_dc0_ddc0_j0_x3_j1_ddc1_dc1_c1.hh:computeConstantWaypoints"]}
