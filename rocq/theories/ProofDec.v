(** Optimality of plans with the two flags whose wrench formulas use decimals, for a
    back end that solves its problem (C51 decimal). *)
From Verif Require Import Vec SpecBezier SpecTime ModelData ModelDispatch ModelUtils ModelRows ModelCom ModelNd ModelCont ModelSolver ModelTraj
  SpecCom SpecWp SpecCtr SpecSolver SpecTraj SpecDec ProofBezier ProofCurve ProofWaypoints ProofTime ProofTime2
  ProofRows ProofCom ProofCom2 ProofCom3 ProofSolver ProofTraj ProofTraj2 ProofTraj3.
Open Scope R_scope.

Section C51.
  Variable scaled wg : bool.
  Variable quadprog : qp -> list R -> outcome (Z * list R * R).
  Variable glpk : lp -> outcome (Z * R * list R).
  Hypothesis QO : qp_solves quadprog.
  Variable pData : problem.
  Variable Ts : list R.
  Variables (g : vec3) (G : R).
  Hypothesis WP : well_posed pData Ts.
  Hypothesis SG : same_gravity pData g.
  Hypothesis HG : within G g.
  Hypothesis Hf : In (flag_of pData) dec_w_flags.

  Lemma opt_sat Ab H gg x : (forall v, v <> vzero -> 0 < quad H (l3 v)) -> sat Ab x -> exists r x',
    (res <- solve wg quadprog glpk (mat3cols Ab) (map snd Ab) (MX 3 []) [] H gg (repeat 0 3) [] [] SOLVER_QUADPROG ;;
     genTraj scaled res pData (total Ts)) = Ok r /\
    rc_success r = true /\ rc_x r = l3 x' /\ com_curve pData (total Ts) x' = Ok (rc_c r) /\ sat Ab x' /\
    quad H (l3 x') + 2 * rdot gg (l3 x') <= quad H (l3 x) + 2 * rdot gg (l3 x).
  Proof.
    intros PD Hx. destruct (solve_opt wg quadprog glpk QO Ab H gg x PD Hx) as (x' & obj & ES & F & Eo & O). rewrite ES. cbn [bind].
    destruct (genTraj_ok scaled (ResultData true obj (l3 x')) pData Ts x' [] WP eq_refl) as (r & Er & Hs & Hc & Hx' & Hcv' & _).
    { cbn [rd_x]. now rewrite app_nil_r. }
    exists r, x'. rewrite Er. repeat (split; [first [reflexivity|assumption]|]). specialize (O x Hx). lra.
  Qed.

  Lemma c51_dist_step_dec dt x cv M : 0 < dt -> costFunction pData = DISTANCE_TRAVELED ->
    com_curve pData (total Ts) x = Ok cv -> Forall (within M) (bc_pts cv) ->
    plan_feasible_by pData (sampled_step Ts dt) (- dec_slack G M (total Ts)) (cv_fun cv) -> exists r x',
    computeCOMTraj scaled wg quadprog glpk pData Ts dt SOLVER_QUADPROG = Ok r /\ rc_success r = true /\ rc_x r = l3 x' /\
    com_curve pData (total Ts) x' = Ok (rc_c r) /\
    (forall M', Forall (within M') (bc_pts (rc_c r)) -> plan_feasible_by pData (sampled_step Ts dt) (dec_slack G M' (total Ts)) (cv_fun (rc_c r))) /\
    vnorm2 (vsub x' (mid_of pData)) <= vnorm2 (vsub x (mid_of pData)).
  Proof.
    intros Hdt HC Hcv HMx HF. destruct (c15_step_dec pData Ts dt g G WP Hdt SG HG Hf) as (ta & Ab & Et & EA & HM).
    destruct (cost_dist pData Ts ta HC) as (H & gg & K & EC & PD & HK). rewrite (traj_step scaled wg _ _ _ _ WP dt ta Ab Hdt Et EA), EC. cbn [bind fst snd].
    destruct (opt_sat Ab H gg x PD (proj2 (HM x cv M Hcv HMx) HF)) as (r & x' & E & Hs & Hx & Hcv' & Fe & O).
    exists r, x'. repeat (split; [assumption|]). split; [intros M' HM'; exact (proj1 (HM x' _ M' Hcv' HM') Fe)|]. rewrite <- !HK. lra.
  Qed.
  Lemma c51_dist_fixed_dec p x cv M : (1 <= p)%nat -> costFunction pData = DISTANCE_TRAVELED ->
    com_curve pData (total Ts) x = Ok cv -> Forall (within M) (bc_pts cv) ->
    plan_feasible_by pData (sampled_fixed Ts p) (- dec_slack G M (total Ts)) (cv_fun cv) -> exists r x',
    computeCOMTrajFixedSize scaled wg quadprog glpk pData Ts p = Ok r /\ rc_success r = true /\ rc_x r = l3 x' /\
    com_curve pData (total Ts) x' = Ok (rc_c r) /\
    (forall M', Forall (within M') (bc_pts (rc_c r)) -> plan_feasible_by pData (sampled_fixed Ts p) (dec_slack G M' (total Ts)) (cv_fun (rc_c r))) /\
    vnorm2 (vsub x' (mid_of pData)) <= vnorm2 (vsub x (mid_of pData)).
  Proof.
    intros Hp HC Hcv HMx HF. destruct (c15_fixed_dec pData Ts p g G WP Hp SG HG Hf) as (Ab & EA & HM).
    destruct (cost_dist pData Ts (computeDiscretizedTimeFixed Ts p) HC) as (H & gg & K & EC & PD & HK). rewrite (traj_fixed scaled wg _ _ _ _ WP p Ab EA), EC. cbn [bind fst snd].
    destruct (opt_sat Ab H gg x PD (proj2 (HM x cv M Hcv HMx) HF)) as (r & x' & E & Hs & Hx & Hcv' & Fe & O).
    exists r, x'. repeat (split; [assumption|]). split; [intros M' HM'; exact (proj1 (HM x' _ M' Hcv' HM') Fe)|]. rewrite <- !HK. lra.
  Qed.
  Lemma c51_acc_step_dec dt x cv ta M : 0 < dt -> costFunction pData = ACCELERATION ->
    computeDiscretizedTime Ts dt = Ok ta -> acc_depends pData Ts ta ->
    com_curve pData (total Ts) x = Ok cv -> Forall (within M) (bc_pts cv) ->
    plan_feasible_by pData (sampled_step Ts dt) (- dec_slack G M (total Ts)) (cv_fun cv) -> exists r x' s s',
    computeCOMTraj scaled wg quadprog glpk pData Ts dt SOLVER_QUADPROG = Ok r /\ rc_success r = true /\ rc_x r = l3 x' /\
    com_curve pData (total Ts) x' = Ok (rc_c r) /\
    (forall M', Forall (within M') (bc_pts (rc_c r)) -> plan_feasible_by pData (sampled_step Ts dt) (dec_slack G M' (total Ts)) (cv_fun (rc_c r))) /\
    sum_acc2 (cv_fun (rc_c r)) ta s' /\ sum_acc2 (cv_fun cv) ta s /\ s' <= s.
  Proof.
    intros Hdt HC Et HD Hcv HMx HF. destruct (c15_step_dec pData Ts dt g G WP Hdt SG HG Hf) as (ta' & Ab & Et' & EA & HM). rewrite Et in Et'. injection Et' as <-.
    destruct (cost_acc pData Ts WP ta (step_times_of Ts dt ta Hdt (wp_pos _ _ WP) Et) HD HC) as (H & gg & K & EC & PD & HK).
    rewrite (traj_step scaled wg _ _ _ _ WP dt ta Ab Hdt Et EA), EC. cbn [bind fst snd].
    destruct (opt_sat Ab H gg x PD (proj2 (HM x cv M Hcv HMx) HF)) as (r & x' & E & Hs & Hx & Hcv' & Fe & O).
    eexists r, x', _, _. repeat (split; [eassumption|]). split; [intros M' HM'; exact (proj1 (HM x' _ M' Hcv' HM') Fe)|].
    split; [apply (HK x' _ Hcv')|]. split; [apply (HK x _ Hcv)|]. lra.
  Qed.
  Lemma c51_acc_fixed_dec p x cv M : (1 <= p)%nat -> costFunction pData = ACCELERATION ->
    acc_depends pData Ts (computeDiscretizedTimeFixed Ts p) ->
    com_curve pData (total Ts) x = Ok cv -> Forall (within M) (bc_pts cv) ->
    plan_feasible_by pData (sampled_fixed Ts p) (- dec_slack G M (total Ts)) (cv_fun cv) -> exists r x' s s',
    computeCOMTrajFixedSize scaled wg quadprog glpk pData Ts p = Ok r /\ rc_success r = true /\ rc_x r = l3 x' /\
    com_curve pData (total Ts) x' = Ok (rc_c r) /\
    (forall M', Forall (within M') (bc_pts (rc_c r)) -> plan_feasible_by pData (sampled_fixed Ts p) (dec_slack G M' (total Ts)) (cv_fun (rc_c r))) /\
    sum_acc2 (cv_fun (rc_c r)) (computeDiscretizedTimeFixed Ts p) s' /\ sum_acc2 (cv_fun cv) (computeDiscretizedTimeFixed Ts p) s /\ s' <= s.
  Proof.
    intros Hp HC HD Hcv HMx HF. destruct (c15_fixed_dec pData Ts p g G WP Hp SG HG Hf) as (Ab & EA & HM).
    destruct (cost_acc pData Ts WP _ (fixed_times_of Ts p Hp (wp_ne _ _ WP) (wp_pos _ _ WP)) HD HC) as (H & gg & K & EC & PD & HK).
    rewrite (traj_fixed scaled wg _ _ _ _ WP p Ab EA), EC. cbn [bind fst snd].
    destruct (opt_sat Ab H gg x PD (proj2 (HM x cv M Hcv HMx) HF)) as (r & x' & E & Hs & Hx & Hcv' & Fe & O).
    eexists r, x', _, _. repeat (split; [eassumption|]). split; [intros M' HM'; exact (proj1 (HM x' _ M' Hcv' HM') Fe)|].
    split; [apply (HK x' _ Hcv')|]. split; [apply (HK x _ Hcv)|]. lra.
  Qed.
End C51.
