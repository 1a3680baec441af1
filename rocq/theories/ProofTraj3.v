(** Completeness and optimality of plans (C51), degenerate cost (C52). *)
From Verif Require Import Vec SpecBezier SpecTime ModelData ModelDispatch ModelUtils ModelRows ModelCom ModelNd ModelCont ModelSolver ModelTraj
  SpecCom SpecWp SpecCtr SpecCont SpecSolver SpecTraj ProofBezier ProofCurve ProofWaypoints ProofWaypoints2 ProofTime ProofCom ProofCom2 ProofCom3
  ProofNd ProofCont3 ProofCont5 ProofCont9 ProofSolver ProofSolver2 ProofTraj ProofTraj2.
Open Scope R_scope.

Lemma l3_zero x : l3 x <> repeat 0 3 -> x <> vzero.
Proof. intros H ->. apply H. reflexivity. Qed.
Lemma vnorm2_pos x : x <> vzero -> 0 < vnorm2 x.
Proof.
  intros H. destruct x as [a b c]. unfold vnorm2, vdot; cbn [vx vy vz].
  assert (0 <= a * a /\ 0 <= b * b /\ 0 <= c * c) as (? & ? & ?) by (repeat split; apply Rle_0_sqr).
  destruct (Req_dec (a * a + b * b + c * c) 0) as [E|E]; [|lra]. exfalso. apply H.
  assert (a * a = 0) by lra. assert (b * b = 0) by lra. assert (c * c = 0) by lra. unfold vzero. f_equal; apply Rsqr_0_uniq; assumption.
Qed.

Section Solves.
  Variable scaled wg : bool.
  Variable quadprog : qp -> list R -> outcome (Z * list R * R).
  Variable glpk : lp -> outcome (Z * R * list R).
  Hypothesis QO : qp_solves quadprog.

  (** a feasible strictly convex problem in three variables *)
  Lemma solve_opt Ab H g x : (forall v, v <> vzero -> 0 < quad H (l3 v)) -> sat Ab x -> exists x' obj,
    solve wg quadprog glpk (mat3cols Ab) (map snd Ab) (MX 3 []) [] H g (repeat 0 3) [] [] SOLVER_QUADPROG = Ok (ResultData true obj (l3 x')) /\
    sat Ab x' /\ obj = 1 / 2 * quad H (l3 x') + rdot g (l3 x') /\
    forall y, sat Ab y -> 1 / 2 * quad H (l3 x') + rdot g (l3 x') <= 1 / 2 * quad H (l3 y) + rdot g (l3 y).
  Proof.
    intros PD Hx.
    destruct (c37_ok (mat3cols Ab) (map snd Ab) (MX 3 []) [] H g (repeat 0 3) []) as (q & EH & Eg & HF & HE).
    { apply mat3cols_wf. } { unfold mat3cols; cbn [mx_rows]. now rewrite !map_length. } { left; reflexivity. }
    assert (HF' : forall y, qp_feasible q (l3 y) <-> sat Ab y).
    { intros y. rewrite HF by reflexivity. rewrite leM_sat. unfold eqM, above; cbn [mx_rows]. split; [tauto|].
      intros S. split; [exact S|]. split; [constructor|left; reflexivity]. }
    destruct (QO q (repeat 0 3)) as (xs & Eq & Lx & Fx & Ox).
    { intros v Lv NZ. rewrite EH. destruct (list3 v Lv) as [w ->]. apply PD. apply l3_zero. exact NZ. }
    { exists (l3 x). split; [reflexivity|]. apply HF'. exact Hx. }
    destruct (list3 xs Lx) as [x' ->]. exists x', (qp_value q (l3 x')). rewrite HE, Eq. cbn [bind Z.eqb EIQUADPROG_FAST_OPTIMAL].
    split; [reflexivity|]. split; [apply HF'; exact Fx|]. unfold qp_value in *. rewrite EH, Eg in *. split; [reflexivity|].
    intros y Hy. apply (Ox (l3 y) eq_refl). apply HF'. exact Hy.
  Qed.

  Section Disc.
    Variable pData : problem.
    Variable Ts : list R.
    Hypothesis WP : well_posed pData Ts.
    Variable Ab : list (vec3 * R).
    Variable sampled : nat -> R -> Prop.
    Hypothesis HM : forall x cv, com_curve pData (total Ts) x = Ok cv -> (sat Ab x <-> plan_feasible pData sampled (cv_fun cv)).

    Lemma opt_generic H g x cv : (forall v, v <> vzero -> 0 < quad H (l3 v)) ->
      com_curve pData (total Ts) x = Ok cv -> plan_feasible pData sampled (cv_fun cv) -> exists r x',
      (res <- solve wg quadprog glpk (mat3cols Ab) (map snd Ab) (MX 3 []) [] H g (repeat 0 3) [] [] SOLVER_QUADPROG ;;
       genTraj scaled res pData (total Ts)) = Ok r /\
      rc_success r = true /\ rc_x r = l3 x' /\ com_curve pData (total Ts) x' = Ok (rc_c r) /\
      plan_feasible pData sampled (cv_fun (rc_c r)) /\
      rc_cost r = 1 / 2 * quad H (l3 x') + rdot g (l3 x') /\
      quad H (l3 x') + 2 * rdot g (l3 x') <= quad H (l3 x) + 2 * rdot g (l3 x).
    Proof.
      intros PD Hcv Hf. apply (HM x cv Hcv) in Hf. destruct (solve_opt Ab H g x PD Hf) as (x' & obj & ES & F & Eo & O).
      rewrite ES. cbn [bind].
      destruct (genTraj_ok scaled (ResultData true obj (l3 x')) pData Ts x' [] WP eq_refl) as (r & Er & Hs & Hc & Hx & Hcv' & _).
      { cbn [rd_x]. now rewrite app_nil_r. }
      exists r, x'. rewrite Er. repeat (split; [first [reflexivity|assumption]|]). split; [apply (HM x' _ Hcv'); exact F|].
      split; [rewrite Hc; exact Eo|]. specialize (O x Hf). lra.
    Qed.
  End Disc.
End Solves.

Lemma dist_pd pData Ts T ta H g : costFunction pData = DISTANCE_TRAVELED -> genCostFunction pData Ts T ta 3 = Ok (H, g) ->
  forall v, v <> vzero -> 0 < quad H (l3 v).
Proof.
  intros HC E v NZ. unfold genCostFunction, cost_genCostFunction in E. rewrite HC in E. cbn [Z.eqb ACCELERATION DISTANCE_TRAVELED Pos.eqb] in E.
  unfold computeCostMidPoint in E. change 3%nat with (3 + 0)%nat in E. rewrite set_Hg_ok in E. injection E as <- _.
  pose proof (quad_Hmat mid 0 (1 / 1000000) v [] eq_refl) as Q. rewrite app_nil_r in Q. rewrite Q.
  replace (vdot (mvmul mid v) v) with (vnorm2 v) by (unfold vnorm2, vdot, mvmul, mid, vdot; cbn; ring).
  pose proof (vnorm2_pos v NZ). unfold sumsq; cbn. lra.
Qed.

Lemma sum_acc_quad x : forall ws M v M' v', sum_acc ws M v = (M', v') ->
  vdot (mvmul M' x) x = vdot (mvmul M x) x + sum_list (map (fun w => fst w * fst w) ws) * vnorm2 x.
Proof.
  induction ws as [|w ws IH]; intros M v M' v' E; cbn in E; [injection E as <- <-; cbn; lra|].
  apply IH in E. rewrite E. cbn [map sum_list fold_right]. unfold sum_list.
  unfold mid, mvmul, madd, mscal, vnorm2, vdot, vsub, vadd, vscal. cbn [vx vy vz row0 row1 row2]. ring.
Qed.
Lemma sum_list_sq (ws : list coefs) : 0 <= sum_list (map (fun w => fst w * fst w) ws) /\
  ((exists w, In w ws /\ fst w <> 0) -> 0 < sum_list (map (fun w => fst w * fst w) ws)).
Proof.
  induction ws as [|w ws [IH1 IH2]]; cbn; [split; [lra|intros (w & [] & _)]|]. pose proof (Rle_0_sqr (fst w)) as H. unfold Rsqr in H.
  unfold sum_list in *. split; [lra|]. intros (w' & [<-|Hin] & NZ).
  - assert (0 < fst w * fst w) by (destruct (Rdichotomy _ _ NZ); nra). lra.
  - assert (0 < fold_right Rplus 0 (map (fun w0 => fst w0 * fst w0) ws)) by (apply IH2; exists w'; auto). lra.
Qed.

Lemma forall2_in {A B} (P : A -> B -> Prop) l m a : Forall2 P l m -> In a l -> exists b, In b m /\ P a b.
Proof. induction 1 as [|x y l m H _ IH]; intros []; subst; [exists y; cbn; auto|]. destruct (IH H0) as (b & Hb & HP). exists b; cbn; auto. Qed.

Lemma acc_pd pData Ts ta H g : well_posed pData Ts -> times_of Ts ta -> acc_depends pData Ts ta ->
  costFunction pData = ACCELERATION -> genCostFunction pData Ts (total Ts) ta 3 = Ok (H, g) ->
  forall v, v <> vzero -> 0 < quad H (l3 v).
Proof.
  intros WP HT HD HC E v NZ. destruct (disc_acc_ok pData Ts ta WP HT) as (ws & Ews & Hws).
  destruct (sum_acc ws mzero vzero) as [M u] eqn:ES.
  unfold genCostFunction, cost_genCostFunction in E. rewrite HC in E. cbn [Z.eqb ACCELERATION Pos.eqb] in E.
  unfold computeCostMinAcceleration in E. rewrite Ews in E. cbn [bind] in E. rewrite ES in E. change 3%nat with (3 + 0)%nat in E. rewrite set_Hg_ok in E. injection E as <- _.
  pose proof (quad_Hmat M 0 (1 / 1000000) v [] eq_refl) as Q. rewrite app_nil_r in Q. rewrite Q, (sum_acc_quad v ws mzero vzero M u ES).
  replace (vdot (mvmul mzero v) v) with 0 by (unfold mvmul, mzero, vzero, vdot; cbn; ring). unfold sumsq; cbn [rdot].
  destruct (sum_list_sq ws) as [_ HP]. assert (0 < sum_list (map (fun w => fst w * fst w) ws)).
  { apply HP. destruct HD as (tp & x & y & cvx & cvy & ax & ay & Hin & Hcx & Hcy & Hax & Hay & NE).
    pose proof (Hws x cvx Hcx) as Fx. pose proof (Hws y cvy Hcy) as Fy.
    apply In_nth_error in Hin. destruct Hin as [i Hi]. apply forall2_nth in Fx. apply forall2_nth in Fy. destruct Fx as [Lx Fx]. destruct Fy as [_ Fy].
    destruct (nth_error ws i) as [w|] eqn:Ew; [|apply nth_error_None in Ew; assert (i < length ta)%nat by (apply nth_error_Some; congruence); lia].
    specialize (Fx i tp w Hi Ew). specialize (Fy i tp w Hi Ew).
    exists w. split; [eapply nth_error_In; eauto|]. intros Hz. apply NE.
    rewrite (is_deriv_n_unique 2 _ _ _ _ _ (fun _ => eq_refl) Hax Fx), (is_deriv_n_unique 2 _ _ _ _ _ (fun _ => eq_refl) Hay Fy).
    unfold ev_coefs. rewrite Hz. unfold vadd, vscal; cbn. f_equal; ring. }
  pose proof (vnorm2_pos v NZ). assert (0 < sum_list (map (fun w : R * vec3 => fst w * fst w) ws) * vnorm2 v) by (apply Rmult_lt_0_compat; assumption). lra.
Qed.

Section C51.
  Variable scaled wg : bool.
  Variable quadprog : qp -> list R -> outcome (Z * list R * R).
  Variable glpk : lp -> outcome (Z * R * list R).
  Hypothesis QO : qp_solves quadprog.
  Variable pData : problem.
  Variable Ts : list R.
  Variable g : vec3.
  Hypothesis WP : well_posed pData Ts.
  Hypothesis SG : same_gravity pData g.
  Hypothesis Hf : In (flag_of pData) exact_w_flags.

  Lemma traj_step dt ta Ab : 0 < dt -> computeDiscretizedTime Ts dt = Ok ta -> computeConstraintsOneStep pData Ts (total Ts) ta = Ok Ab ->
    computeCOMTraj scaled wg quadprog glpk pData Ts dt SOLVER_QUADPROG =
    (Hg <- genCostFunction pData Ts (total Ts) ta 3 ;;
     res <- solve wg quadprog glpk (mat3cols Ab) (map snd Ab) (MX 3 []) [] (fst Hg) (snd Hg) (repeat 0 3) [] [] SOLVER_QUADPROG ;;
     genTraj scaled res pData (total Ts)).
  Proof.
    intros Hdt Et EA. unfold computeCOMTraj. rewrite (wp_len pData Ts WP), total_sumR. destruct (Rlt_dec 0 dt); [|tauto].
    rewrite Et. cbn [bind]. rewrite EA. reflexivity.
  Qed.
  Lemma traj_fixed p Ab : computeConstraintsOneStep pData Ts (total Ts) (computeDiscretizedTimeFixed Ts p) = Ok Ab ->
    computeCOMTrajFixedSize scaled wg quadprog glpk pData Ts p =
    (Hg <- genCostFunction pData Ts (total Ts) (computeDiscretizedTimeFixed Ts p) 3 ;;
     res <- solve wg quadprog glpk (mat3cols Ab) (map snd Ab) (MX 3 []) [] (fst Hg) (snd Hg) (repeat 0 3) [] [] SOLVER_QUADPROG ;;
     genTraj scaled res pData (total Ts)).
  Proof.
    intros EA. unfold computeCOMTrajFixedSize. rewrite (wp_len pData Ts WP), total_sumR, EA. reflexivity.
  Qed.

  Lemma cost_dist ta : costFunction pData = DISTANCE_TRAVELED -> exists H gg K,
    genCostFunction pData Ts (total Ts) ta 3 = Ok (H, gg) /\ (forall v, v <> vzero -> 0 < quad H (l3 v)) /\
    forall x, quad H (l3 x) + 2 * rdot gg (l3 x) + K = vnorm2 (vsub x (mid_of pData)).
  Proof.
    intros HC. destruct (c22_dist pData Ts (total Ts) ta 0 HC) as (H & gg & K & E & _ & _ & _ & HK). exists H, gg, K.
    split; [exact E|]. split; [exact (dist_pd pData Ts _ ta H gg HC E)|]. intros x. specialize (HK x [] eq_refl). rewrite app_nil_r in HK.
    unfold sumsq in HK; cbn [rdot] in HK. lra.
  Qed.
  Lemma cost_acc ta : times_of Ts ta -> acc_depends pData Ts ta -> costFunction pData = ACCELERATION -> exists H gg K,
    genCostFunction pData Ts (total Ts) ta 3 = Ok (H, gg) /\ (forall v, v <> vzero -> 0 < quad H (l3 v)) /\
    forall x cv, com_curve pData (total Ts) x = Ok cv -> sum_acc2 (cv_fun cv) ta (quad H (l3 x) + 2 * rdot gg (l3 x) + K).
  Proof.
    intros HT HD HC. destruct (c22_acc pData Ts ta 0 WP HT HC) as (H & gg & K & E & _ & _ & _ & HK). exists H, gg, K.
    split; [exact E|]. split; [exact (acc_pd pData Ts ta H gg WP HT HD HC E)|]. intros x cv Hcv.
    destruct (HK x cv [] Hcv eq_refl) as (s & Hs & Es). rewrite app_nil_r in Es.
    replace (quad H (l3 x) + 2 * rdot gg (l3 x) + K) with s; [exact Hs|]. unfold sumsq in Es; cbn [rdot] in Es. lra.
  Qed.
  Lemma sum_acc2_unique f ta s s' : sum_acc2 f ta s -> sum_acc2 f ta s' -> s = s'.
  Proof.
    intros (a & Ha & ->) (b & Hb & ->). f_equal. f_equal. revert b Hb. induction Ha as [|tp x ta a H _ IH]; intros b Hb; inversion Hb; subst; [reflexivity|].
    f_equal; [|auto]. exact (is_deriv_n_unique 2 _ _ _ _ _ (fun _ => eq_refl) H H2).
  Qed.

  Lemma c51_dist_step dt x cv : 0 < dt -> costFunction pData = DISTANCE_TRAVELED ->
    com_curve pData (total Ts) x = Ok cv -> plan_feasible pData (sampled_step Ts dt) (cv_fun cv) -> exists r x',
    computeCOMTraj scaled wg quadprog glpk pData Ts dt SOLVER_QUADPROG = Ok r /\ rc_success r = true /\ rc_x r = l3 x' /\
    com_curve pData (total Ts) x' = Ok (rc_c r) /\ plan_feasible pData (sampled_step Ts dt) (cv_fun (rc_c r)) /\
    vnorm2 (vsub x' (mid_of pData)) <= vnorm2 (vsub x (mid_of pData)).
  Proof.
    intros Hdt HC Hcv HF. destruct (c15_step pData Ts dt g WP Hdt SG Hf) as (ta & Ab & Et & EA & HM).
    destruct (cost_dist ta HC) as (H & gg & K & EC & PD & HK). rewrite (traj_step dt ta Ab Hdt Et EA), EC. cbn [bind fst snd].
    destruct (opt_generic scaled wg quadprog glpk QO pData Ts WP Ab (sampled_step Ts dt) HM H gg x cv PD Hcv HF)
      as (r & x' & E & Hs & Hx & Hcv' & Fe & _ & O).
    exists r, x'. repeat (split; [assumption|]). rewrite <- !HK. lra.
  Qed.
  Lemma c51_dist_fixed p x cv : (1 <= p)%nat -> costFunction pData = DISTANCE_TRAVELED ->
    com_curve pData (total Ts) x = Ok cv -> plan_feasible pData (sampled_fixed Ts p) (cv_fun cv) -> exists r x',
    computeCOMTrajFixedSize scaled wg quadprog glpk pData Ts p = Ok r /\ rc_success r = true /\ rc_x r = l3 x' /\
    com_curve pData (total Ts) x' = Ok (rc_c r) /\ plan_feasible pData (sampled_fixed Ts p) (cv_fun (rc_c r)) /\
    vnorm2 (vsub x' (mid_of pData)) <= vnorm2 (vsub x (mid_of pData)).
  Proof.
    intros Hp HC Hcv HF. destruct (c15_fixed pData Ts p g WP Hp SG Hf) as (Ab & EA & HM).
    destruct (cost_dist (computeDiscretizedTimeFixed Ts p) HC) as (H & gg & K & EC & PD & HK). rewrite (traj_fixed p Ab EA), EC. cbn [bind fst snd].
    destruct (opt_generic scaled wg quadprog glpk QO pData Ts WP Ab (sampled_fixed Ts p) HM H gg x cv PD Hcv HF)
      as (r & x' & E & Hs & Hx & Hcv' & Fe & _ & O).
    exists r, x'. repeat (split; [assumption|]). rewrite <- !HK. lra.
  Qed.
  Lemma c51_acc_step dt x cv ta : 0 < dt -> costFunction pData = ACCELERATION ->
    computeDiscretizedTime Ts dt = Ok ta -> acc_depends pData Ts ta ->
    com_curve pData (total Ts) x = Ok cv -> plan_feasible pData (sampled_step Ts dt) (cv_fun cv) -> exists r x' s s',
    computeCOMTraj scaled wg quadprog glpk pData Ts dt SOLVER_QUADPROG = Ok r /\ rc_success r = true /\ rc_x r = l3 x' /\
    com_curve pData (total Ts) x' = Ok (rc_c r) /\ plan_feasible pData (sampled_step Ts dt) (cv_fun (rc_c r)) /\
    sum_acc2 (cv_fun (rc_c r)) ta s' /\ sum_acc2 (cv_fun cv) ta s /\ s' <= s.
  Proof.
    intros Hdt HC Et HD Hcv HF. destruct (c15_step pData Ts dt g WP Hdt SG Hf) as (ta' & Ab & Et' & EA & HM). rewrite Et in Et'. injection Et' as <-.
    destruct (cost_acc ta (step_times_of Ts dt ta Hdt (wp_pos _ _ WP) Et) HD HC) as (H & gg & K & EC & PD & HK).
    rewrite (traj_step dt ta Ab Hdt Et EA), EC. cbn [bind fst snd].
    destruct (opt_generic scaled wg quadprog glpk QO pData Ts WP Ab (sampled_step Ts dt) HM H gg x cv PD Hcv HF)
      as (r & x' & E & Hs & Hx & Hcv' & Fe & _ & O).
    eexists r, x', _, _. repeat (split; [eassumption|]). split; [apply (HK x' _ Hcv')|]. split; [apply (HK x _ Hcv)|]. lra.
  Qed.
  Lemma c51_acc_fixed p x cv : (1 <= p)%nat -> costFunction pData = ACCELERATION ->
    acc_depends pData Ts (computeDiscretizedTimeFixed Ts p) ->
    com_curve pData (total Ts) x = Ok cv -> plan_feasible pData (sampled_fixed Ts p) (cv_fun cv) -> exists r x' s s',
    computeCOMTrajFixedSize scaled wg quadprog glpk pData Ts p = Ok r /\ rc_success r = true /\ rc_x r = l3 x' /\
    com_curve pData (total Ts) x' = Ok (rc_c r) /\ plan_feasible pData (sampled_fixed Ts p) (cv_fun (rc_c r)) /\
    sum_acc2 (cv_fun (rc_c r)) (computeDiscretizedTimeFixed Ts p) s' /\ sum_acc2 (cv_fun cv) (computeDiscretizedTimeFixed Ts p) s /\ s' <= s.
  Proof.
    intros Hp HC HD Hcv HF. destruct (c15_fixed pData Ts p g WP Hp SG Hf) as (Ab & EA & HM).
    destruct (cost_acc _ (fixed_times_of Ts p Hp (wp_ne _ _ WP) (wp_pos _ _ WP)) HD HC) as (H & gg & K & EC & PD & HK).
    rewrite (traj_fixed p Ab EA), EC. cbn [bind fst snd].
    destruct (opt_generic scaled wg quadprog glpk QO pData Ts WP Ab (sampled_fixed Ts p) HM H gg x cv PD Hcv HF)
      as (r & x' & E & Hs & Hx & Hcv' & Fe & _ & O).
    eexists r, x', _, _. repeat (split; [eassumption|]). split; [apply (HK x' _ Hcv')|]. split; [apply (HK x _ Hcv)|]. lra.
  Qed.
End C51.

(** ** C52 *)
Lemma c52_const pData Ts ta : well_posed pData Ts -> flag_of pData = F_acc_all -> Forall (fun tp => fst tp = 0 \/ fst tp = total Ts) ta ->
  costFunction pData = ACCELERATION -> exists H g, genCostFunction pData Ts (total Ts) ta 3 = Ok (H, g) /\
  forall x, quad H (l3 x) = 0 /\ rdot g (l3 x) = 0.
Proof.
  intros WP Hfl HT0 HC. pose proof (total_posd pData Ts WP) as TP.
  assert (HT : times_of Ts ta). { eapply Forall_impl; [|exact HT0]. cbn. intros a [->| ->]; lra. }
  destruct (c22_acc pData Ts ta 0 WP HT HC) as (H & g & K & E & _ & _ & _ & HK). exists H, g. split; [exact E|].
  assert (C : exists s0, forall x, quad H (l3 x) + 2 * rdot g (l3 x) = s0).
  { destruct WP as (Hin & Hcap & _). exists (sum_list (map vnorm2 (map (fun tp => if Req_EM_T (fst tp) 0 then ddc0 pData else ddc1 pData) ta)) - K).
    intros x. destruct (com_curve_total pData (total Ts) x Hin Hcap TP) as [cv Hcv].
    destruct (HK x cv [] Hcv eq_refl) as (s & Hs & Es). rewrite app_nil_r in Es.
    destruct (boundary_ok pData (total Ts) x cv Hin Hcv) as (_ & _ & _ & _ & B0 & _ & _ & B1).
    specialize (B0 ltac:(rewrite Hfl; reflexivity)). specialize (B1 ltac:(rewrite Hfl; reflexivity)).
    assert (sum_acc2 (cv_fun cv) ta (sum_list (map vnorm2 (map (fun tp => if Req_EM_T (fst tp) 0 then ddc0 pData else ddc1 pData) ta)))) as Hs'.
    { eexists. split; [|reflexivity]. rewrite <- (map_id ta) at 1. apply forall2_map, forall2_diag. eapply Forall_impl; [|exact HT0].
      intros tp [Ht|Ht]; cbv beta; destruct (Req_EM_T (fst tp) 0) as [Z|Z]; try (rewrite Z in *; exact B0); [tauto|rewrite Ht; exact B1]. }
    rewrite (sum_acc2_unique _ _ _ _ Hs Hs') in Es. unfold sumsq in Es; cbn [rdot] in Es. lra. }
  destruct C as [s0 HS].
  assert (Hq : forall k x, quad H (l3 (vscal k x)) = k * k * quad H (l3 x)).
  { intros k x. unfold quad. assert (forall a : list R, rdot a (l3 (vscal k x)) = k * rdot a (l3 x)) as R1.
    { intros [|a1 [|a2 [|a3 a]]]; cbn; try ring; destruct a; cbn; ring. }
    rewrite R1. replace (map (fun r => rdot r (l3 (vscal k x))) H) with (map (Rmult k) (map (fun r => rdot r (l3 x)) H)).
    - rewrite rdot_scal_l. ring.
    - rewrite map_map. apply map_ext. intros; now rewrite R1. }
  assert (Hg : forall k x, rdot g (l3 (vscal k x)) = k * rdot g (l3 x)).
  { intros k x. destruct g as [|a1 [|a2 [|a3 a]]]; cbn; try ring; destruct a; cbn; ring. }
  intros x. pose proof (HS x) as H1. pose proof (HS (vscal (-1) x)) as H2. pose proof (HS (vscal 2 x)) as H3.
  rewrite Hq, Hg in H2, H3. lra.
Qed.
