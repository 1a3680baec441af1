# Design

Target: the C++ sources of hpp-bezier-com-traj in `/repo` (read as text, never built or run here).
Development: Rocq / Coq 8.16.1, files in `rocq/theories`.

## 1. Method

* **Arithmetic.** `double` is modelled by the real numbers of Coq's standard library (`Reals`), i.e. exact
  arithmetic.  Rounding, NaN, infinities and overflow are *not* modelled, except for times (C75-C80, C84), fixed control points (C86), sampled coefficients (C87) and the kinematic and acceleration rows (C88).  Decimal literals of the source are
  kept as the exact fraction they denote in decimal.
* **Vectors and matrices.** Eigen's fixed 3-vectors / 3x3 matrices are records; dynamic ones are lists of
  rows with explicit sizes.  `Block`/`segment` writes outside the matrix are a distinct outcome.
* **Outcomes.** `outcome A = Ok a | Throw | UB`: a C++ exception is `Throw`, an out-of-range access, a null
  dereference or a violated Eigen size assertion is `UB`.
* **External code.** `ndcurves` (Bezier curves), Eigen, `centroidal_dynamics::Equilibrium` (H, h, mass,
  gravity, G of a contact phase), GLPK are not in `/repo`.  Bezier curves are the mathematical ones
  (specification file `SpecBezier.v`); a contact phase is a record of the values the code asks it for;
  solvers are arbitrary functions ("oracles") and theorems that need something of them say what as a hypothesis.
  The two hypotheses used (`qp_sound`, `qp_solves`) are met by a back end that exists: `ProofSolves.v`, `ExamplesSolves.v`.
* **Layout.** `Vec.v` (3-vectors), `Spec*.v` (specification), `Model*.v` (model, no proofs),
  `Proof*.v` (lemmas), `Properties*.v` (property theorems only, each with `Print Assumptions`).

## 2. Properties

The text of each property is in `properties.jsonl`.  M = what is modelled, P = how it is proved.

| id | M | P |
|----|---|---|
| C01 | computeConstantWaypoints and computeBezierCurve for 7 flags | general Bezier end-derivative lemmas for every degree, then field arithmetic on the control points |
| C02 | evaluateCurveAtTime formulas | ring identity against the Bernstein sum |
| C03 | evaluateAccelerationCurveAtTime formulas | field identity against second difference curve, linked to `derivable_pt_lim` |
| C04 | computeFinalVelocityPoint | as C01 |
| C05 | computeWwaypoints, initwp, block writes | field identity per component for 5 flags |
| C06 | computeWwaypoints with decimals | coefficient-wise error bound |
| C07 | computeConstantWaypoints of the capture flag | case analysis |
| C08 | the maps of waypoints_definition.cpp | case analysis over integers |
| C09 | `pi[k]` as partial access | computation of lengths |
| C10 C11 C12 | computeDiscretizedTimeFixed, computeDiscretizedTime, stepIdPerPhase | induction over phases / steps |
| C13 | removeZeroRows, Normalize | loop invariant, permutation of rows |
| C14 C15 C16 | computeConstraintsOneStep and everything it calls; computeCOMTraj, genTraj | row-list refinement: matrix = concatenation of blocks; solver oracle |
| C17 C18 C19 C20 C21 C47 | computeConstraintsContinuous, counters, symbolic waypoints | convex hull + subdivision; list induction |
| C22 C23 | costfunction_definition.cpp | algebra over lists of times |
| C24 | computeCOMTraj, computeCOMTrajFixedSize, solve0step, solveEndEffector, genTraj, ResultDataCOMTraj | case analysis on the oracle's answer; the fields of a result without success are spelt out (SpecFailed.v) |
| C25 C26 C27 C28 | solve_0_step.cpp and common_solve_methods.cpp | convex hull; integral of polynomials |
| C29..C33 | three jerk waypoint headers, computeC_of_T, solveEndEffector | field identities against the difference curves, exact error terms, counterexamples |
| C34 | computeConstraintsMatrix, computeEndEffectorConstraints | row-list refinement; convex hull of the derivative's control points |
| C35 | computeDistanceCostFunction (both) | algebra over the list of samples |
| C36 | computeVelocityCost (three headers), computeEndEffectorCost, solveEndEffector | integral of products of Bernstein polynomials against the decimal coefficients; LDL decomposition for strict convexity; optimality of the back end |
| C60 | computeConstantWaypointsInitPredef, computeConstantWaypointsGoalPredef | Bezier end-derivative lemmas, field arithmetic |
| C61 | the three sampled costs of solve_end_effector.hh (`ModelEff.v`, `ModelEffCost.v`) | algebra over the list of samples; mixed difference in two free points for the refutation |
| C37 C38 | solver-abstract.cpp | row-list refinement |
| C39 | glpk-wrapper.cpp | array model with bounds |
| C40 C41 C42 | eiquadprog-fast.cpp/.hpp, dense solve_quadprog and its helpers, as a step function between its labels l1, l2, l2a | Givens rotations keep J J' = H^-1 and J'N = R; dual feasibility and complementarity as invariants; the number of active constraints decreases within an iteration; explicit executions for the refutations |
| C43 C44 | data.hh ContactData and the contacts_ vector of ProblemData, with the python binding's constructors, getters, setters and addContact: a machine with a heap of Equilibrium objects that executes the operations of a client | invariants over all histories: pointers held by a problem occur nowhere else; a copy's pointer stays private; python-owned objects are alive while a name or a custodian is |
| C45 C46 | updateH, assignStabilityConstraints | algebra, witnesses |
| C48 | utils.cpp | algebra |
| C49 | computeNumIneq | witness for every such problem |
| C50 | SpecBezier | de Casteljau / polar form for every degree |
| C51 C52 | computeCOMTraj, computeCOMTrajFixedSize, genTraj with the QP back end as an argument | C15 in the completeness direction, C22, optimality of the back end; evaluation of the acceleration coefficients at 0 and T; C51 for the two decimal flags in `PropertiesDec.v`, with the error of C06 (`dec_slack`) as reserve and slack |
| C53 C54 | the planner with the modelled solver of C40-C42 in the place of the oracle | the Hessian is a multiple of the identity; rows bounded by the rate of the wrench, so factorisation and active constraints stay exact however close the rows are; the stopping test bounds the violation; C15 and C22 translate it back; the two decimal flags in `PropertiesDec.v`: the error of the wrench is affine in the free point, so the rate grows by at most 2 dec_slack |
| C62 C63 | the continuous formulation (double description) with the modelled solver | as C53 C54 with the control points of position, acceleration and wrench in the place of the samples, bounded by operator norms of the affine control points; C17 translates to every instant; the two decimal flags in `PropertiesDec2.v`: the rows are compared with those of the exact control points of the wrench (C06), piece by piece |
| C64 C65 | the zero-step problem (`Model0Step.v`) with the modelled solver | the accuracy of the solver bounded by the Hessian alone (diagonal of the Cholesky factor at least sqrt lam), rows bounded by the five waypoints of the wrench, C25-C27 for the meaning of rows and criterion |
| C66 C67 | the end-effector planner (`ModelEff.v`) with the modelled solver | lower bound of the Hessian of the velocity cost per flag (1/2, 1/100, 1/5000) and of its combination with the distance cost; norms and number of constraint rows; C41_accuracy; the exact answer when the unconstrained minimum is feasible |
| C68 C69 C71 | the functions of the python module (`ModelPy.v`) over the models of C25, C16, C34 | they build one-contact (resp. weight 0) problems: C64, C65, C66, C67 for these, with scale conditions in terms of their arguments |
| C72 | the loop of C40 with equalities | the invariant of C41_conditioned generalised to active equalities: factorisation and active constraints stay exact, an equality is never given up, what remains of a violated row is never below the thresholds |
| C73 | computeCOMTraj in the force formulation with solve_quadprog as the solver: the equalities that tie the forces to the wrench, the lower bounds of the forces, the weight 1e-6 of the forces in the cost | the equality rows of C18 are far from dependent because a row of one control point is -G there and zero at the other control points; C72 then gives exact equalities and a bounded violation of the bounds; clipping the negative forces moves the wrench by at most the violation times the lengths of the generators; convexity carries it from the control points to all instants |
| C74 | as C73; the objective of the QP as the cost of the motion plus 1e-6 times the squared forces | after its equality phase the solver is at the minimiser of the objective on the equalities (invariant of C72, convexity); if that point meets the inequalities the first test of the violation stops the loop; the equalities are translated to forces on the control points that the phases keep (`force_places`) |
| C75 | the sample parameters i*(1/n) and the normalised times min(t/T,1.) in IEEE double arithmetic (`ModelDouble.v`) | 1/n has a relative error of at most 2^-53, so n*(1/n) is at most 1+2^-53, which rounds to 1; monotonicity of rounding; the refutation computes one sample |
| C76 | computeDiscretizedTime in doubles, while loop with fuel (None: not finished) | the loop as a chain of additions; a chain that stays in place never ends, so a finished one increases; a step of at least 2^-52 of the end advances by at least half its size |
| C77 | computeDiscretizedTimeFixed in doubles; the sum is an argument | invariant: the exact time times (1 +- 2^-53)^(k+1) after k additions |
| C78 | the bounds passed to the curve library's extract, and its range test, in doubles | partial sums of positive numbers never decrease in rounded arithmetic; the refutation computes one case for the two orders Eigen uses |
| C79 | computeNumSteps in doubles, the conversion to int included | rounding is monotone and keeps integers below 2^53; relative error of the quotient |
| C80 | computeConstraintsOneStep at the times min(t/T,1.) computed in doubles (`constraints_f`), rows and points exact | the rows at arbitrary times per phase (as for C15) applied to the rounded times; C76 and C77 for the lists; error of one division |
| C81 | computeCOMTraj with a positive step and computeCOMTrajFixedSize, as for C16 | a function below m at two times is below m + sup of its second derivative * h^2/8 in between (mean value theorem); derivatives of the curve bounded by differences of control points; the refutation confines a curve that leaves a plane to this plane |
| C82 | solve0step with a positive step, as for C26 | as C81, for the wrench with angular momentum: its second derivative is bounded through the control points of the motion and of the angular momentum; the refutation confines the end point so that the mass must cross the limit of the cone between the two samples |
| C83 | as C53, C64, C81 and C82 | the lemmas of C81 for a contact whose bounds are loosened by the tolerance of C53, those of C82 with the tolerance of C64 |
| C84 | as C80 and C81 | two successive samples around any instant of a phase (the evaluated samples go from its start to its end); their distance from C76 and C77; the lemmas of C81 |
| C85 | `ModelPyEff.v`: computeEndEffectorConstraints, computeEndEffectorVelocityCost, computeEndEffectorConstantWaypoints of the python module | the functions called by computeEndEffector, then the lemmas of C34 and C36 |
| C86 | the ten computeConstantWaypoints in IEEE double arithmetic (`ModelPtsDouble.v`); the curve through the points is exact | a calculus of absolute errors relative to the sum of the sizes of the terms, with underflow; the derivatives at the ends are finite differences of the first and last points; a sum of rounded squares is 0 only if each square is at most 2^-1075; two witnesses |
| C87 | the fourteen evaluateCurveAtTime and evaluateAccelerationCurveAtTime and the two loops over the samples in IEEE double arithmetic (`ModelCoefDouble.v`) | the expressions as syntax trees, with a verified analysis that bounds the number of roundings and the sum of the absolute values of the terms; the exact value of a tree is the Bernstein form |
| C88 | assignKinematicConstraints and assignAccelerationConstraints in IEEE double arithmetic (`ModelRowsDouble.v`); the order of the additions in a right-hand side is an argument | error of a sum in any order; the coefficients from C87; a bound on the exact curve bounds the coefficients; the layout of the rows as for C14 |
| C89 | the models of C76, C77, C86 and C88 together | the error of the rows (C88) and of the control points (C86, and of the second derivative of a curve with perturbed control points) at the samples, then the bound between two samples of C84 |
| C90 | the models of C16 and C51 | a second minimiser and the midpoint of the two contradict strict convexity of the cost; the returned motion is feasible (C16) and no worse than any other (C51) |
| C91 | the models of C16 and C51, two problems | feasibility of a motion passes from a problem to an eased one; with C90 the answers are compared through the motions they describe |
| C92 | the models of C16 and C51, a problem and its image under a rotation and a translation (`SpecMove.v`) | control points, derivatives, gravito-inertial wrench and rows move together, so the best motion (C90) does; two witnesses for the failures |
| C93 | the models of C16 and C51, a problem and its time reversal (`SpecReverse.v`) | the control points, the samples of each phase and the times of the cost are mirrored, so the best motion (C90) is; a witness for steps of dt |
| C94 | the models of C16 and C51, a problem in two systems of units (`SpecUnits.v`) | control points, samples, times of the cost, rows and cost are multiplied by powers of the factors, so the best motion (C90) is; a witness for the unit of length with a margin |
| C95 | the models of C16 and C51, a problem and the one with a phase cut in two (`SpecCut.v`) | both have the same samples per contact, hence the same feasible motions, and the distance cost does not read the times, so the best motion (C90), the cost and the curves agree; a witness for the acceleration cost |
| C96 | the cost of C22 and the solver of C40 to C42 | the coefficient of the free point in the acceleration is a polynomial per flag, not zero at the first or last sample for six flags; for the seventh it is factored, and when it vanishes at all samples the Hessian is zero and the factorisation fails unchecked |
| C97 | the models of C16, C17 and C51 | every sample lies in its phase, so C17 gives the discretised constraints, and C51 a plan of no greater cost; for the continuous call, the rows follow from the control points (C17_exact) and the cost is strictly convex (C96) |
| C98 | the motions of C01 to C03, mixtures (`SpecMix.v`) | position and acceleration are affine in the free point with scalar coefficients (C02, C03), so in the moment the product of the free point with itself vanishes and all constraints are affine |
| C99 | the models of C16 and C51 with two back ends | both return the one best motion (C90), from which the result is computed |
| C100 | the model of C25 to C28, best choices (`Spec0Best.v`) | the rows are affine in the free points (C25, C26) and the criterion is strictly convex (C27), so the midpoint of two best choices would be better |
| C101 | as C100 | points of the wrench curve are mixtures of its control points; samples of a grid are samples of a multiple of it; rows affine, criterion convex; a witness turning a corner |
| C102 | the model of C25 to C28, moved problems (`SpecMove.v`, `Spec0Move.v`) | the choices of the free points that meet the constraints are placed one to one (C92), the criterion is unchanged, so the best one is placed (C100); a witness for the origin |
| C103 | evaluation functions of the header with five free points (`ModelWaypointsJerk.v`), the curve they belong to (`SpecEffFive.v`) | polynomial identity, derivatives of Bezier curves as in C32, C33 |
| C104 | computeFinalVelocityPoint of the three end-effector headers (`ModelWaypointsJerk.v`) | computation; the end velocity of the curve is unique (C29) |
| C105 | solveEndEffector (`ModelEff.v`), back ends and start vector as parameters | the cost is positive definite (C36), so the least feasible point is unique (midpoint identity); the path occurs only in the 50 samples |
| C106 | dimVar (`ModelDispatch.v`) | bitwise lemmas: bits above the eighth of a number below 256 are zero |
| C107 | solveEndEffector (`ModelEff.v`) for two or three problems | blocks are multiples of the identity and do not depend on the states, so exchanging a coordinate between two feasible points keeps feasibility and the sum of the two costs; the least point is unique (C105) |
| C108 | solveEndEffector (`ModelEff.v`) for a problem and its turned or reflected copy | the transformation is linear and keeps dot products, heights and the box of limits, so it maps feasible points to feasible points with the same cost, onto; the least point is unique (C105) |
| C109 | solveEndEffector (`ModelEff.v`) for a problem and its translated copy | one free point: the limited expressions are differences of control points and the distance cost depends on curve minus path; three or five: the limit on the third acceleration entry and the one on the fourth velocity entry together bound a fixed control point |
| C110 | two calls of solveEndEffector (`ModelEff.v`) that differ in the weight, back end and initial guess | the constraints do not depend on the weight; each plan is at least as good as the other for its own weight, and the two inequalities are combined with weights; the velocity cost is compared with the integral by C36; a negative weight only scales the cost |
| C111 | computeWwaypoints, computeBezierCurve, computeCOMTraj, computeCOMTrajFixedSize with the flag of the end-effector header with one free point | the curve has the points 0, 1, 2, x, 4, 5, 6 of the list of nine; the wrench rows are those of C06 for these points; a problem with one limit for the refutation |
| C112 | computeCOMTraj, computeCOMTrajFixedSize, genTraj, solve0step, solveEndEffector with arbitrary back ends | a reported plan went through computeWwaypoints, which fixes the flag (C08), and through genTraj, whose curve is the one of C01 for the first three components of the answer; solve0step: end values of the cubic of computeC_of_T; solveEndEffector: computeJerkWaypoints fixes the flag, then C29 |
| C113 | the four planners and everything they call, for pairs of problems | congruence of every function and loop in the members it reads; C90 for the exception |
| C114 | computeConstantWaypoints of the end-effector headers, computeC_of_T, the sampled distance of C35, for a problem and its reversal | the control points are those of the problem in reverse order; a Bezier curve with reversed control points runs backwards; the samples are symmetric |
| C70 | the attribute constraints_ of python's ProblemData: a machine with names and objects | invariants over all histories: a ProblemData is alive exactly while a name is bound to it |
| C55 C56 | the solver object EiquadprogFast: members, reset, setMaxIter, getters, solve_quadprog, solve_quadprog_sparse (`ModelQpObj.v`) | two executions stay alike on what later steps read, for any previous contents of the members; the invariant of C40 read off as a certificate |
| C57 C58 | the same calls with is_inverse_provided_, and the sparse variant | the loop of C40 never reads the cost: its execution is that of another problem with the same constraints, whose value differs by a constant |
| C59 | the loop of C40 | the value strictly increases between two visits of l1 and is determined by the active set, so no set returns; count of the sets |

## 3. Trusted base

* Coq's kernel (8.16.1), `coqc`; no axioms of our own.
* Standard-library axioms behind `Reals`: `ClassicalDedekindReals.sig_forall_dec`,
  `ClassicalDedekindReals.sig_not_dec`, `FunctionalExtensionality.functional_extensionality_dep`; and, for the Riemann integral (C27, C36, C64-C68, C71, C85 and what
  shares their files; also `ProofSolves.v`), for the mean value theorem (C81-C84, C89) and through Flocq (C75-C80, C84, C86-C89), `Classical_Prop.classic`.
  `Print Assumptions` under each theorem lists the ones it uses.
* Faithfulness of the model, read from the cited lines.  The formulas of the waypoint headers
  (`ModelWaypoints*.v`) were transcribed mechanically from the C++ expressions by a small script and then read
  against the source; each definition cites its lines.
  `audit/waypoints_diff.py` parses the ten headers and these definitions as text, evaluates both on random rationals and compares
  them (216 functions, no difference); it is a test of the transcription, not part of the proofs.
  In computeNumEqContinuous the iterator it2 is advanced past the end of the vector after the last phase (line 396); this is
  formally undefined and harmless on every implementation, and is not modelled as `UB`.
* Library behaviour that is not in `/repo`, as recalled from those libraries' documentation and sources:
  * ndcurves: a Bezier curve needs at least one point and T_max > T_min, else it throws; evaluation throws
    outside [T_min, T_max]; `split` throws when the cut is less than 1/1000 before the end; `extract` returns
    (part of) the curve itself when a bound is less than 1/1000 from an end; `compute_derivate` of a curve divides by
    the duration or not depending on the version (parameter `scaled`, theorems hold for both unless they say);
    `bezier_t::zero(3)` is one zero point on [0,1].
  * Eigen: `isZero()` compares every coefficient with 1e-12; assertions are off in release builds, so a
    size mismatch or an out-of-range block is `UB`; a fresh matrix is uninitialised.
  * GLPK: `glp_add_rows(0)`/`glp_add_cols(0)` abort (`UB`); free columns ignore bounds; the status of an optimum is 5.
  * `centroidal_dynamics::Equilibrium`: values H, h, mass, gravity, G are given data of the phase.
* End effector: `assert(weightDistance in [0,1])` is a hypothesis.
* QP solver (`ModelQp.v`): Eigen's LLT and triangular solves are their textbook algorithms; a Hessian that is not positive
  definite gives `UB` (unspecified factor).  `ModelQp.v` is one call on a new object, as in the library; `ModelQpObj.v` has the
  reuse of an object, is_inverse_provided_ and solve_quadprog_sparse, whose `cholsp_.solve` is exact.  The plan theorems (C16, C51 ...) take the solver as an
  argument; C40-C42 say what the bundled one does, and C53, C54, C62-C68 and C71 plug it into the planner (`solve_quadprog`, no assumption on the
  back end; sampled formulation and continuous formulation in double description; the five flags of C05 with exact wrench coefficients, and in the
  theorems with suffix `_decimal` the two flags of C06 with decimal ones).
* Ownership (`ModelHeap.v`): std::vector copies all elements when it moves or when the capacity does not suffice for an
  assignment, else assigns the existing ones (the growth policy is an argument); Boost.Python destroys an object it owns when
  the last name and the last custodian are gone, keeps the python object (not the C++ one) of a ward alive, and passes None as
  a null pointer.  An Equilibrium is one value; its member functions are arbitrary changes of it.
* Python module (`ModelPy.v`, `ModelPyEff.v`, python/bezier_com_traj.cpp): the two zeroStepCapturability, the two computeCOMTraj, computeEndEffector
  and its four accessors, the attribute x of results, Constraints and constraints_.  ContactData and contacts_ are in `ModelHeap.v`.
  Not modelled: the getters and setters of plain members, the class MatrixVector (its attributes are the result copied), the conversions of
  eigenpy, flags outside the range of the enumeration.  None passed for a pointer is null; an object returned with
  reference_existing_object does not keep its owner alive.
* Double arithmetic (`Double.v`, `ModelDouble.v`, `ModelPtsDouble.v`, `ModelCoefDouble.v`, `ModelRowsDouble.v`; C75-C80, C84, C86-C89): Flocq's binary64 with rounding to nearest even for the arithmetic on times: sample
  parameters, normalised times, both discretisations, number of steps, bounds of the extracted phases, and for the fixed control points and the coefficients of sampled positions and accelerations, and the rows made of them.  Trusted: the compiler evaluates
  double expressions in double precision without contraction or reassociation (no -ffast-math, no x87); an entry of `kin_ - Kin_ * v` is a sum of its four
  terms in some order, products rounded, possibly with 0 added or the product negated (`subtracts`); Eigen adds four numbers in one of the two
  orders of `packet_sum4` and `packet_sum4_avx`; the range tests of ndcurves' Bern and extract (from memory); Eigen evaluates
  expressions of 3-vectors coefficient by coefficient as written, vector/scalar by a division per coefficient, and norm() as the root of the sum of
  squares from left to right.  Flocq adds no axiom beyond the
  standard library's (Classical_Prop.classic).
* Not modelled: floating-point rounding elsewhere (evaluation of curves, stability rows, costs, solver); memory and time; the C++ type system; the demo/test programs; printing.

## 4. Where the code and the intended guarantee disagree

* C31, C34: for the end effector wrong acceleration waypoints are bounded, so the acceleration can exceed its bound
  (`C34_acceleration_refuted`); the upper jerk bound is the velocity bound (`C34_jerk_bound_refuted`).
* C32, C33: curve, velocity, acceleration and jerk evaluation of the end-effector headers are wrong by the stated terms.
  With five free points they belong to another curve, of degree 10 (C103).
* C104: computeFinalVelocityPoint of the end-effector headers is not the final velocity (copied formula of degree 6).
* C109: with three or five free points a wrong acceleration entry (C31) contains a position instead of a difference of positions, so no plan exists far from the origin of the coordinates. With one free point and weight 0 the decimal constants of the velocity cost do not cancel, so the plan follows a translation only approximately (`C109_smooth_refuted`).
* C111: computeCOMTraj accepts the flag with jerk constraints but builds a curve of degree 6 from the constant points for degree 8, so a reported plan misses the selected end conditions.
* C35: the distance cost of at most two points divides by zero.
* C08, C09, C29..C33: see the theorems; waypoint headers for jerk flags are partly copies of other headers.
* C18: force variables of shared control points are dropped using the count of generators, not their
  inclusion (`C18_refuted`).
* C17: with an unscaled derivative the acceleration bound is not the intended one.
* C21: a control point equal to zero is replaced by the free point in the continuous formulation.
* C102: with angular momentum and rows in ang_, whether a zero-step plan exists depends on the choice of the origin
  (`C102_origin_refuted`), a consequence of C28.
* C23: TARGET_END_VELOCITY is unusable.  C38: upper bounds overflow.  C39: more than 20000 coefficients overflow.
* C40: the solver's thresholds are absolute, so large Hessians give wrong answers (`C40_equality_refuted`,
  `C40_infeasible_refuted`).  C41: it can loop forever (`C41_loop_refuted`).  C42: out-of-range writes
  (`C42_restore_refuted`, `C42_repeated_equality_refuted`).
* C45, C46, C47: scaling of the margin, gravity of the first phase, acceleration bound always on.
* C52: a cost that is identically zero is handed to a solver for strictly convex problems.
* C25, C28: with angular momentum, Kin_/kin_ are written in the place of Ang_/ang_ and over the kinematic rows;
  the exact constraint is `z_mixed` (Spec0Step.v).
* C43: assigning a problem to one with contacts and enough capacity shares phases (`C43_problem_assignment_refuted`); the
  python property contactPhase_ and ContactData(None) can lose a phase (`C43_python_refuted`).
* C55: getActiveSetSize() is that of an earlier call after REDUNDANT_EQUALITIES (`C55_size_refuted`).
* C57: with is_inverse_provided_ the sign of the linear cost is lost, since OPTIMIZE_UNCONSTR_MINIM is defined
  (eiquadprog-fast.cpp:308-318), and reset() erases m_J (`C57_opposite`, `C57_forgotten`, `C57_refuted`).
* C58: solve_quadprog_sparse discards the result of cholsp_.matrixU().solve(m_J) (line 709) and therefore projects
  in the Euclidean distance (`C58_projection`, `C58_refuted`).
* C61: computeVelCostFunctionDiscretized drops the products of different free points: exact meaning for
  every number of samples in `C61_velocity`; `C61_velocity_refuted` is for three samples only. One sample: the step is 1/0, then
  multiplied by 0 (NaN in IEEE arithmetic, outcome UB in the model).
* C68: with angular momentum the rows of Kin apply to the sum of the two halves of x (as in C25, C28), so the capture point need
  not satisfy them (`C68_kinematics_refuted`); None for eq and more entries in kin than rows in Kin are undefined behaviour.
* C24, C69: solveEndEffector (and computeEndEffector) leaves the cost at its default -1, and dc1_, ddc1_ at zero whatever the
  motion's final velocity and acceleration.
* C70: the object returned by ProblemData.constraints_ dangles once the problem is gone (`C70_refuted`).
* C75: with 49 intervals (50 points) the last sample of the end-effector path is not its end (`C75_refuted`).
* C76: a positive time step that is lost in rounding makes computeDiscretizedTime push samples for ever (`C76_refuted`); a phase can have two
  samples 2^-53 apart (`C76_close`).
* C78: with four phases the vectorised sum of the durations can be below the end of the last phase, and extract throws (`C78_refuted`).
* C79: ten steps of the double nearest to 0.1, which exceed 1, are counted in a motion of duration 1 (`C79_refuted`).
* C81: the discretised planners impose the constraints at samples only; between them they can be violated (`C81_refuted`), by an amount of the
  order of the square of the time between samples (`C81_step`, `C81_fixed`).
* C82: the same for the discretised zero-step planner (`C82_refuted`, `C82_gap`).
* C86: a required start velocity of 2^-60 m/s at 1 m from the origin is planned as rest (`C86_velocity_refuted`); the exception of the flag with final
  velocity and no final position does not come for velocities whose squares underflow (`C86_guard_refuted`).
* C92: the margin is scaled with the length of a polytope row, moments included, so it depends on the origin: a problem solvable with the origin at
  the contact is infeasible with the origin elsewhere (`C92_origin_refuted`); the acceleration bound depends on the axes (`C92_axes_refuted`).
* C93: with a time step a problem can be solvable forwards and infeasible backwards (`C93_step_refuted`).
* C94: with a margin the answer depends on the unit of length (`C94_length_refuted`).
* C96: with all boundary conditions given and samples only where the acceleration does not depend on the free point, the bundled solver factorises a zero matrix (`C96_ends_refuted`).
* C113: with the distance cost the final position is used although the flag does not select it (`C113_refuted`).
* C114: with one free point the sampled distance of an end-effector motion to its path is not that of the reversed motion to the reversed path (`C114_path_refuted`).
* C95: the acceleration cost counts switching instants twice, so cutting a phase in two changes the plan (`C95_acceleration_refuted`).
