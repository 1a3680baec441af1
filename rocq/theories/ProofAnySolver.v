(** What a plan of computeCOMTraj reported as found satisfies whatever the back
    ends answered. *)
From Verif Require Import Vec SpecBezier SpecTime ModelData ModelWaypointsJerk ModelDispatch ModelUtils ModelCom ModelCont ModelSolver ModelTraj
  SpecCom ProofBezier ProofCurve ProofWaypoints ProofWaypointsErr ProofTraj2 ProofTime ProofJerkCom PropertiesWaypoints.
Open Scope R_scope.

Lemma traj_flag scaled wg quadprog glpk pData Ts r :
  (exists dt solver, computeCOMTraj scaled wg quadprog glpk pData Ts dt solver = Ok r) \/
  (exists p, computeCOMTrajFixedSize scaled wg quadprog glpk pData Ts p = Ok r) ->
  (exists res, genTraj scaled res pData (total Ts) = Ok r) /\ exists ws, computeWwaypoints pData (total Ts) = Ok ws.
Proof.
  intros H. rewrite <- total_sumR.
  assert (W1 : forall T ta Ab, computeConstraintsOneStep pData Ts T ta = Ok Ab -> exists ws, computeWwaypoints pData T = Ok ws).
  { intros T ta Ab E. unfold computeConstraintsOneStep, constraintsOneStep_raw, assignStabilityConstraints, computeDiscretizedWwaypoints in E.
    destruct (stepIdPerPhase ta) as [sw| |]; cbn [bind] in E; try discriminate E.
    destruct (computeNumIneq pData Ts sw) as [n| |]; cbn [bind] in E; try discriminate E.
    destruct (n <? 0)%Z; [discriminate E|].
    destruct (computeWwaypoints pData T) as [ws| |]; cbn [bind] in E; try discriminate E. exists ws; reflexivity. }
  assert (W2 : forall out, computeConstraintsContinuous scaled pData Ts = Ok out -> exists ws, computeWwaypoints pData (sumR Ts) = Ok ws).
  { intros out E. unfold computeConstraintsContinuous, cont_raw in E. cbv zeta in E.
    destruct (computeConstantWaypointsSymbolic pData (sumR Ts)) as [wc| |]; cbn [bind] in E; try discriminate E.
    destruct (computeWwaypoints pData (sumR Ts)) as [ws| |]; cbn [bind] in E; try discriminate E. exists ws; reflexivity. }
  destruct H as [(dt & solver & H)|(p & H)]; unfold computeCOMTraj, computeCOMTrajFixedSize in H; (destruct (negb _); [discriminate H|]).
  - destruct (Rlt_dec 0 dt).
    + destruct (computeDiscretizedTime Ts dt) as [ta| |]; cbn [bind] in H; try discriminate H.
      destruct (computeConstraintsOneStep _ _ _ _) as [Ab| |] eqn:E in H; cbn [bind] in H; try discriminate H.
      destruct (genCostFunction _ _ _ _ _) as [Hg| |] in H; cbn [bind] in H; try discriminate H.
      destruct (solve _ _ _ _ _ _ _ _ _ _ _ _ _) as [res| |] in H; cbn [bind] in H; try discriminate H.
      split; [exists res; exact H|exact (W1 _ _ _ E)].
    + destruct (computeConstraintsContinuous _ _ _) as [out| |] eqn:E in H; cbn [bind] in H; try discriminate H.
      destruct (genCostFunction _ _ _ _ _) as [Hg| |] in H; cbn [bind] in H; try discriminate H.
      destruct (solve _ _ _ _ _ _ _ _ _ _ _ _ _) as [res| |] in H; cbn [bind] in H; try discriminate H.
      split; [exists res; exact H|exact (W2 _ E)].
  - destruct (computeConstraintsOneStep _ _ _ _) as [Ab| |] eqn:E in H; cbn [bind] in H; try discriminate H.
    destruct (genCostFunction _ _ _ _ _) as [Hg| |] in H; cbn [bind] in H; try discriminate H.
    destruct (solve_noeq _ _ _ _ _ _ _ _ _) as [res| |] in H; cbn [bind] in H; try discriminate H.
    split; [exists res; exact H|exact (W1 _ _ _ E)].
Qed.

Lemma c112_any scaled wg quadprog glpk pData Ts r :
  (exists dt solver, computeCOMTraj scaled wg quadprog glpk pData Ts dt solver = Ok r) \/
  (exists p, computeCOMTrajFixedSize scaled wg quadprog glpk pData Ts p = Ok r) -> rc_success r = true ->
  let T := total Ts in let f := cv_fun (rc_c r) in
  In (flag_of pData) (com_flags ++ [F_jerk]) /\ 0 < T /\ bc_T (rc_c r) = T /\
  is_deriv_n 1 f T (rc_dc1 r) /\ is_deriv_n 2 f T (rc_ddc1 r) /\
  (flag_of pData <> F_jerk -> meets_boundary pData T f).
Proof.
  intros H S. cbv zeta. destruct (traj_flag _ _ _ _ _ _ _ H) as ((res & K) & ws & Hw).
  assert (Hf : In (flag_of pData) (com_flags ++ [F_jerk])).
  { destruct (in_dec Z.eq_dec (flag_of pData) (com_flags ++ [F_jerk])) as [I|I]; [exact I|exfalso].
    destruct (proj1 (C08_dispatch_rejects pData) I (total Ts) [] 0) as (_ & _ & X). rewrite X in Hw. discriminate Hw. }
  split; [exact Hf|].
  destruct (genTraj_inv _ _ _ _ _ K) as [(_ & ->)|(_ & _ & _ & x & beta & _ & _ & Hx)]; [discriminate S|].
  assert (B : 0 < total Ts /\ bc_T (rc_c r) = total Ts /\ (flag_of pData <> F_jerk -> meets_boundary pData (total Ts) (cv_fun (rc_c r)))).
  { apply in_app_or in Hf. destruct Hf as [Hf|[Hf|[]]].
    - destruct (boundary_ok _ _ _ _ Hf Hx) as (B1 & B2 & B3). auto.
    - symmetry in Hf. destruct (jerk_com_pts _ _ _ _ Hf Hx) as (HT & p0 & p1 & p2 & p3 & p5 & p6 & p7 & p8 & _ & ->).
      split; [exact HT|]. split; [reflexivity|]. contradiction. }
  destruct B as (B1 & B2 & B3). split; [exact B1|]. split; [exact B2|].
  assert (V : bc_derivate scaled (rc_c r) (bc_T (rc_c r)) 1 = Ok (rc_dc1 r) /\ bc_derivate scaled (rc_c r) (bc_T (rc_c r)) 2 = Ok (rc_ddc1 r)).
  { unfold genTraj in K. destruct (rd_success res); [|injection K as <-; discriminate S].
    destruct (head3 _) as [y| |]; cbn [bind] in K; try discriminate K.
    destruct (computeConstantWaypoints _ _) as [pi| |]; cbn [bind] in K; try discriminate K.
    destruct (computeBezierCurve _ _ _ _) as [cv| |]; cbn [bind] in K; try discriminate K.
    destruct (bc_derivate scaled cv (bc_T cv) 1) as [v| |] eqn:Ev; cbn [bind] in K; try discriminate K.
    destruct (bc_derivate scaled cv (bc_T cv) 2) as [a| |] eqn:Ea; cbn [bind] in K; try discriminate K.
    destruct (mk_bezier [vzero] _); cbn [bind] in K; try discriminate K. injection K as <-. cbn. split; assumption. }
  destruct V as [V1 V2].
  destruct (bc_derivate_ok scaled (rc_c r) (bc_T (rc_c r)) 1) as (v & Ev & Dv); [lra..|].
  destruct (bc_derivate_ok scaled (rc_c r) (bc_T (rc_c r)) 2) as (a & Ea & Da); [lra..|].
  rewrite V1 in Ev; injection Ev as <-. rewrite V2 in Ea; injection Ea as <-. rewrite B2 in Dv, Da.
  split; [exact Dv|]. split; [exact Da|exact B3].
Qed.
