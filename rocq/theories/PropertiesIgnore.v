(** Property theorems C113: what the planners do not look at.  Vocabulary:
    SpecIgnore.v. *)
From Verif Require Import Vec SpecBezier ModelData ModelDispatch ModelUtils ModelCom ModelCont ModelSolver ModelTraj Model0Step ModelEff
  SpecTime SpecCom SpecTraj SpecIgnore ProofIgnore ProofIgnore2 ProofIgnore3.
Open Scope R_scope.

(** C113: computeCOMTraj, whatever the back ends, *)
Theorem C113_com : forall p q, In (flag_of p) (com_flags ++ [F_jerk]) -> same_com p q ->
  forall scaled with_glpk quadprog glpk Ts dt solver,
  computeCOMTraj scaled with_glpk quadprog glpk p Ts dt solver = computeCOMTraj scaled with_glpk quadprog glpk q Ts dt solver.
Proof. exact c113_step. Qed.
Print Assumptions C113_com.
(** computeCOMTrajFixedSize, *)
Theorem C113_com_fixed : forall p q, In (flag_of p) (com_flags ++ [F_jerk]) -> same_com p q ->
  forall scaled with_glpk quadprog glpk Ts n,
  computeCOMTrajFixedSize scaled with_glpk quadprog glpk p Ts n = computeCOMTrajFixedSize scaled with_glpk quadprog glpk q Ts n.
Proof. exact c113_fixed. Qed.
Print Assumptions C113_com_fixed.
(** solve0step (only the first phase and the first duration), *)
Theorem C113_zero_step : forall with_glpk quadprog glpk p q Ts Us dt,
  nth_error (contacts p) 0 = nth_error (contacts q) 0 -> nth_error Ts 0 = nth_error Us 0 ->
  c0 p = c0 q -> dc0 p = dc0 q -> l0 p = l0 q -> useAngularMomentum p = useAngularMomentum q ->
  solve0step with_glpk quadprog glpk p Ts dt = solve0step with_glpk quadprog glpk q Us dt.
Proof. exact c113_zero. Qed.
Print Assumptions C113_zero_step.
(** solveEndEffector. *)
Theorem C113_effector : forall with_glpk quadprog glpk init p q path T wd, same_ends p q ->
  solveEndEffector with_glpk quadprog glpk init p path T wd = solveEndEffector with_glpk quadprog glpk init q path T wd.
Proof. exact c113_effector. Qed.
Print Assumptions C113_effector.

(** C113: a flag that does not ask for the final position does not make it
    irrelevant. *)
Theorem C113_refuted : forall scaled with_glpk quadprog glpk, qp_solves quadprog -> exists p c Ts n r r',
  In (flag_of p) com_flags /\ fl_has (flag_of p) END_POS = false /\
  computeCOMTrajFixedSize scaled with_glpk quadprog glpk p Ts n = Ok r /\ rc_success r = true /\
  computeCOMTrajFixedSize scaled with_glpk quadprog glpk (with_c1 p c) Ts n = Ok r' /\ rc_success r' = true /\
  cv_fun (rc_c r) (total Ts) <> cv_fun (rc_c r') (total Ts).
Proof. exact c113_refuted. Qed.
Print Assumptions C113_refuted.
