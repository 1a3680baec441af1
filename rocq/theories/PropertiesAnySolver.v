(** Property theorems C112: what every plan reported by computeCOMTraj,
    computeCOMTrajFixedSize, solve0step or solveEndEffector satisfies, without
    any assumption on the problem or on the answers of the back ends.  Vocabulary:
    SpecCom.v, SpecTime.v, SpecEff.v. *)
From Verif Require Import Vec SpecBezier SpecTime ModelData ModelDispatch ModelUtils ModelCom ModelCont ModelSolver ModelTraj Model0Step ModelEff
  SpecCom SpecEff ProofAnySolver ProofAnySolver2 ProofAnySolver3.
Open Scope R_scope.

(** C112 *)
Theorem C112_any_solver : forall scaled with_glpk quadprog glpk pData Ts r,
  (exists dt solver, computeCOMTraj scaled with_glpk quadprog glpk pData Ts dt solver = Ok r) \/
  (exists p, computeCOMTrajFixedSize scaled with_glpk quadprog glpk pData Ts p = Ok r) -> rc_success r = true ->
  let T := total Ts in let f := cv_fun (rc_c r) in
  In (flag_of pData) (com_flags ++ [F_jerk]) /\ 0 < T /\ bc_T (rc_c r) = T /\
  is_deriv_n 1 f T (rc_dc1 r) /\ is_deriv_n 2 f T (rc_ddc1 r) /\
  (flag_of pData <> F_jerk -> meets_boundary pData T f).
Proof. exact c112_any. Qed.
Print Assumptions C112_any_solver.

(** C112: solve0step stops at the point made of the first three reported
    variables. *)
Theorem C112_zero_step : forall with_glpk quadprog glpk pData Ts dt r,
  solve0step with_glpk quadprog glpk pData Ts dt = Ok r -> r0_success r = true -> exists T Ts' x rest,
  let f := cv_fun (r0_c r) in
  Ts = T :: Ts' /\ 0 < T /\ r0_x r = l3 x ++ rest /\ bc_T (r0_c r) = T /\
  f 0 = c0 pData /\ is_deriv_n 1 f 0 (dc0 pData) /\ f T = x /\ is_deriv_n 1 f T vzero.
Proof. exact c112_zero. Qed.
Print Assumptions C112_zero_step.

(** C112: solveEndEffector; the free points of the curve are the first reported
    variables. *)
Theorem C112_effector : forall with_glpk quadprog glpk init pData path T wd r,
  solveEndEffector with_glpk quadprog glpk init pData path T wd = Ok r -> rc_success r = true ->
  In (flag_of pData) effector_flags /\ 0 < T /\ bc_T (rc_c r) = T /\ meets_all pData T (cv_fun (rc_c r)) /\
  exists xs rest, length xs = eff_free (flag_of pData) /\ rc_x r = flat xs ++ rest /\
    firstn (length xs) (skipn 4 (bc_pts (rc_c r))) = xs.
Proof. exact c112_eff. Qed.
Print Assumptions C112_effector.
