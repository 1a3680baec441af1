(** Property theorems C111: computeCOMTraj and computeWwaypoints with the flag
    of all eight state constraints.  Vocabulary: SpecCom.v, SpecTime.v, SpecCtr.v, SpecSolver.v,
    SpecEff.v ([eff_curve]: the curve of solveEndEffector). *)
From Verif Require Import Vec SpecBezier SpecTime ModelData ModelDispatch ModelUtils ModelCom ModelCont ModelSolver ModelTraj ModelEff
  SpecCom SpecWp SpecCtr SpecCont SpecSolver SpecTraj SpecEff ProofJerkCom ProofJerkCom2 ProofJerkCom3.
Open Scope R_scope.

(** C111: the wrench waypoints belong to the curve that is built, up to the error of C06. *)
Theorem C111_wrench : forall pData T x cv g M G,
  flag_of pData = F_jerk -> com_curve pData T x = Ok cv -> front_gravity pData = Ok g ->
  Forall (within M) (bc_pts cv) -> within G g ->
  exists ws, computeWwaypoints pData T = Ok ws /\
    forall t acc, 0 <= t <= T -> is_deriv_n 2 (cv_fun cv) t acc ->
      let d := v6sub (curve6 (map (fun w => ev_w6 w x) ws) T t) (wrench g (cv_fun cv t) acc) in
      within (err_force M T) (fst d) /\ within (err_moment G M T) (snd d).
Proof. exact c111_wrench. Qed.
Print Assumptions C111_wrench.

(** What that curve does at its ends, for every plan that is reported as found. *)
Theorem C111_ends : forall scaled wg quadprog glpk pData Ts r,
  flag_of pData = F_jerk ->
  (exists dt solver, computeCOMTraj scaled wg quadprog glpk pData Ts dt solver = Ok r) \/
  (exists p, computeCOMTrajFixedSize scaled wg quadprog glpk pData Ts p = Ok r) -> rc_success r = true ->
  let T := total Ts in let f := cv_fun (rc_c r) in
  (f 0 = c0 pData /\ is_deriv_n 1 f 0 (vscal (3 / 4) (dc0 pData)) /\ is_deriv_n 2 f 0 (vscal (15 / 28) (ddc0 pData))) /\
  f T = vadd (vsub (c1 pData) (vscal (T / 4) (dc1 pData))) (vscal (T ^ 2 / 56) (ddc1 pData)) /\
  is_deriv_n 1 f T (vadd (vsub (vscal (3 / 4) (dc1 pData)) (vscal (3 * T / 14) (ddc1 pData))) (vscal (T ^ 2 / 56) (j1 pData))) /\
  is_deriv_n 2 f T (vadd (vadd (vscal (- (30 / T ^ 2)) (c1 pData)) (vscal (15 / T) (dc1 pData)))
    (vadd (vscal (- (75 / 28)) (ddc1 pData)) (vscal (5 * T / 28) (j1 pData)))).
Proof. exact c111_ends. Qed.
Print Assumptions C111_ends.

(** The limits on position and acceleration at the samples are imposed on these
    expressions, which belong to the curve of the end-effector planner, with its errors. *)
Theorem C111_samples : forall pData T x s, flag_of pData = F_jerk -> 0 < T ->
  exists pi cv co ca, computeConstantWaypoints pData T = Ok pi /\ eff_curve pData T [x] = Ok cv /\
    evaluateCurveAtTime pData pi s = Ok co /\ evaluateAccelerationCurveAtTime pData pi T s = Ok ca /\
    ev_coefs co x = vadd (cv_fun cv (s * T)) (vscal ((1 - s) ^ 8) (vsub (c1 pData) (c0 pData))) /\
    is_deriv_n 2 (cv_fun cv) (s * T) (vsub (ev_coefs ca x) (vscal (56 / (T * T) * (1 - s) ^ 6) (vsub (c1 pData) (c0 pData)))).
Proof. exact c111_samples. Qed.
Print Assumptions C111_samples.

(** So the conditions selected by the flag and the limits imposed at the samples can both be missed. *)
Theorem C111_refuted : exists pData Ts c quadprog, qp_sound quadprog /\ flag_of pData = F_jerk /\ contacts pData = [c] /\ Ts = [1] /\ sampled_fixed Ts 1 0 (total Ts) /\
  forall scaled wg glpk, exists r, computeCOMTrajFixedSize scaled wg quadprog glpk pData Ts 1 = Ok r /\ rc_success r = true /\
    ~ meets_boundary pData (total Ts) (cv_fun (rc_c r)) /\ ~ kin_ok c (cv_fun (rc_c r) (total Ts)).
Proof. exact c111_refuted. Qed.
Print Assumptions C111_refuted.
