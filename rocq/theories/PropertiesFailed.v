(** Property theorems C24 for results without success.  Vocabulary: SpecFailed.v.  [quadprog], [glpk] are arbitrary back ends. *)
From Verif Require Import Vec SpecBezier ModelData ModelDispatch ModelCont ModelNd ModelSolver ModelTraj Model0Step ModelEff
  SpecCom SpecFailed ProofFailed.
Open Scope R_scope.

(** C24: a result without success carries nothing. *)
Theorem C24_failed : forall scaled with_glpk quadprog glpk pData Ts dt solver r,
  computeCOMTraj scaled with_glpk quadprog glpk pData Ts dt solver = Ok r -> rc_success r = false -> nothing r.
Proof. exact f24_com. Qed.
Print Assumptions C24_failed.
Theorem C24_failed_fixed : forall scaled with_glpk quadprog glpk pData Ts p r,
  computeCOMTrajFixedSize scaled with_glpk quadprog glpk pData Ts p = Ok r -> rc_success r = false -> nothing r.
Proof. exact f24_fixed. Qed.
Print Assumptions C24_failed_fixed.
Theorem C24_failed_0step : forall with_glpk quadprog glpk pData Ts dt r,
  solve0step with_glpk quadprog glpk pData Ts dt = Ok r -> r0_success r = false ->
  r0_cost r = -1 /\ r0_x r = [] /\ bc_T (r0_c r) = 1 /\ (forall t, cv_fun (r0_c r) t = vzero) /\
  forall t, 0 <= t <= 1 -> nd_value (r0_dL r) t = Ok vzero.
Proof. exact f24_zero. Qed.
Print Assumptions C24_failed_0step.
(** solveEndEffector never sets the cost, the momentum, and the final velocity and acceleration, with success neither. *)
Theorem C24_effector : forall with_glpk quadprog glpk init pData path T wd r,
  solveEndEffector with_glpk quadprog glpk init pData path T wd = Ok r ->
  rc_cost r = -1 /\ bc_T (rc_dL r) = 1 /\ (forall t, cv_fun (rc_dL r) t = vzero) /\ rc_dc1 r = vzero /\ rc_ddc1 r = vzero /\
  (rc_success r = false -> nothing r).
Proof. exact f24_eff. Qed.
Print Assumptions C24_effector.
