(** Continuous plans with the bundled QP solver (C62, C63). *)
From Verif Require Import Vec SpecBezier SpecTime ModelData ModelWaypoints ModelDispatch ModelUtils ModelRows ModelCom ModelNd ModelCont ModelSolver ModelTraj ModelQp
  SpecCom SpecWp SpecCtr SpecCont SpecSolver SpecTraj SpecEnd SpecEnd2 ProofBezier ProofCurve ProofWaypoints ProofWaypoints2 ProofTime ProofTime2
  ProofRows ProofEmit ProofCom ProofCom2 ProofCom3 ProofNd ProofCont ProofCont2 ProofCont3 ProofCont4 ProofCont5 ProofCont6 ProofCont7 ProofCont8
  ProofSolver ProofTraj ProofTraj2 ProofTraj3 ProofQp3 ProofQp14 ProofEnd ProofEnd2 ProofEnd3 ProofEnd4 ProofEnd5 ProofEnd6 SpecQp.
Open Scope R_scope.

Lemma traj_cont scaled wg quadprog glpk pData Ts dt rows : well_posed pData Ts -> dt <= 0 ->
  computeConstraintsContinuous scaled pData Ts = Ok (CO (map (padr 0) rows) [] [] 3) ->
  computeCOMTraj scaled wg quadprog glpk pData Ts dt SOLVER_QUADPROG =
  (Hg <- genCostFunction pData Ts (total Ts) (computeDiscretizedTimeFixed Ts 7) 3 ;;
   res <- solve wg quadprog glpk (mat3cols rows) (map snd rows) (MX 3 []) [] (fst Hg) (snd Hg) (repeat 0 3) [] [] SOLVER_QUADPROG ;;
   genTraj scaled res pData (total Ts)).
Proof.
  intros WP Hdt E. unfold computeCOMTraj. rewrite (wp_len pData Ts WP), total_sumR. destruct (Rlt_dec 0 dt); [lra|].
  rewrite E. cbn [bind co_cols co_A co_D co_min map mx_cols]. unfold mat3cols.
  replace (map fst (map (padr 0) rows)) with (map (fun r : vec3 * R => l3 (fst r)) rows)
    by (rewrite map_map; apply map_ext; intros []; unfold padr; cbn [fst repeat]; rewrite app_nil_r; reflexivity).
  replace (map snd (map (padr 0) rows)) with (map snd rows) by (rewrite map_map; reflexivity). rewrite ?map_map. reflexivity.
Qed.
Lemma padr0 rows : map (padr 0) rows = map (fun r : vec3 * R => (l3 (fst r), snd r)) rows.
Proof. apply map_ext. intros []. unfold padr; cbn [fst snd repeat]. rewrite app_nil_r. reflexivity. Qed.

Section Plan.
  Variables (scaled wg : bool) (mem : qst) (glpk : lp -> outcome (Z * R * list R)).

  Lemma c62_continuous pData Ts dt g lam B kap pi ws : well_posed pData Ts -> splittable Ts -> dt <= 0 -> same_gravity pData g ->
    representation pData = DOUBLE_DESCRIPTION -> In (flag_of pData) exact_w_flags ->
    computeConstantWaypoints pData (total Ts) = Ok pi -> computeWwaypoints pData (total Ts) = Ok ws ->
    cost_weight pData Ts (computeDiscretizedTimeFixed Ts 7) lam -> on_scale pData lam B kap -> acc_ctrl_rate scaled Ts <= B ->
    wrench_ctrl_rate pData (total Ts) g (length ws) B ->
    let tau := plan_tol (cont_rows_needed true (length pi) (length ws) (contacts pData)) lam in
    exists r, computeCOMTraj scaled wg (solve_quadprog mem) glpk pData Ts dt SOLVER_QUADPROG = Ok r /\
      (rc_success r = true -> plan_curve pData Ts r /\
       (plan_no_zero_point r -> forall i c t, nth_error (contacts pData) i = Some c -> in_phase Ts i t ->
          contact_near pData tau (tau * B) c (cv_fun (rc_c r)) t /\ accel_within (acc_bound_near scaled pData Ts tau) (cv_fun (rc_c r)) t)).
  Proof.
    intros WP SP Hdt SG HD Hf Epi Ews CW OS HA WR tau.
    pose proof (fixed_times_of Ts 7 ltac:(lia) (wp_ne _ _ WP) (wp_pos _ _ WP)) as HT.
    destruct (cont_rows scaled pData Ts WP g lam B kap ws SG HD Hf SP OS HA Ews WR) as (pi' & rows & Epi' & EO & Lr & HR & HN).
    rewrite Epi in Epi'. injection Epi' as <-. destruct (gencost_id pData Ts _ lam WP HT CW) as (H & v & EC & HH). pose proof OS as (_ & _ & Hl & _).
    destruct (plan_answer scaled wg mem glpk pData Ts rows lam H v (MX 3 []) [] WP eq_refl eq_refl HH Hl HR) as (res & r & ES & EG & HO).
    exists r. rewrite (traj_cont scaled wg _ _ _ _ dt rows WP Hdt EO), EC. cbn [bind fst snd]. rewrite ES. cbn [bind]. split; [exact EG|].
    intros Hs. destruct (HO Hs) as (x & Hx & Hcv & Hpl & Ex). split; [exact Hpl|]. intros Hnz. rewrite Lr in Hx. fold tau in Hx.
    apply (HN tau x (rc_c r)); [apply plan_tol_nonneg; pose proof eps_pos; lra|exact Hcv| |exact Hx].
    intros p Hp Hz. specialize (Hnz p Hp Hz). rewrite Ex in Hnz. unfold l3 in Hnz. injection Hnz as E1 E2 E3. apply v3_eq; assumption.
  Qed.

  Lemma ctrl_sat pData Ts g rows ws : well_posed pData Ts -> long_phases Ts -> same_gravity pData g ->
    representation pData = DOUBLE_DESCRIPTION -> In (flag_of pData) exact_w_flags -> computeWwaypoints pData (total Ts) = Ok ws ->
    computeConstraintsContinuous scaled pData Ts = Ok (CO (map (padr 0) rows) [] [] 3) ->
    forall x cv, com_curve pData (total Ts) x = Ok cv -> no_zero_point cv x /\ ctrl_feasible scaled pData Ts (length ws) cv -> sat rows x.
  Proof.
    intros WP HL SG HD Hf Ews EO x cv Hcv [Hnz HC]. destruct (c17_exact scaled pData Ts WP g HL SG Hf) as (out & ws' & EO' & Ews' & HE).
    rewrite EO in EO'. injection EO' as <-. rewrite Ews in Ews'. injection Ews' as <-. cbn [co_A] in HE.
    destruct (HE x cv Hcv Hnz) as (Pc & Pa & Pw & HP & HI). apply (satX_pad 0 rows x []). apply HI. intros i c ph Hc Eph.
    destruct (HP i c ph Hc Eph) as ((L1 & C1) & (L2 & C2) & (L3 & C3)).
    destruct (HC i c ph (Pc i) (Pa i) (Pw i) Hc Eph L1 C1 L2 C2 L3 C3) as (F1 & F2 & F3). auto.
  Qed.
  Lemma cont_dd pData Ts : well_posed pData Ts -> splittable Ts -> representation pData = DOUBLE_DESCRIPTION ->
    exists rows, computeConstraintsContinuous scaled pData Ts = Ok (CO (map (padr 0) rows) [] [] 3).
  Proof.
    intros WP SP HD. destruct (cont_main scaled pData Ts WP SP) as (pi & ws' & ddc & lc & la & lw & M). cbv zeta in M.
    destruct M as (_ & _ & _ & _ & _ & _ & _ & _ & _ & _ & _ & _ & _ & _ & Eout).
    assert (Hdd : useDD_of pData = true) by (unfold useDD_of; rewrite HD; reflexivity).
    unfold items_of in Eout. rewrite Hdd in Eout. cbn [sumcols strips rhss combine fold_right] in Eout. eexists. exact Eout.
  Qed.

  Lemma c63_best pData Ts dt g lam ws x cv : well_posed pData Ts -> long_phases Ts -> dt <= 0 -> same_gravity pData g ->
    representation pData = DOUBLE_DESCRIPTION -> In (flag_of pData) exact_w_flags -> computeWwaypoints pData (total Ts) = Ok ws ->
    cost_weight pData Ts (computeDiscretizedTimeFixed Ts 7) lam -> 0 < lam ->
    com_curve pData (total Ts) x = Ok cv -> no_zero_point cv x -> ctrl_feasible scaled pData Ts (length ws) cv ->
    cheapest pData Ts (computeDiscretizedTimeFixed Ts 7) x (cv_fun cv) ->
    exists r, computeCOMTraj scaled wg (solve_quadprog mem) glpk pData Ts dt SOLVER_QUADPROG = Ok r /\
      rc_success r = true /\ rc_x r = l3 x /\ rc_c r = cv.
  Proof.
    intros WP HL Hdt SG HD Hf Ews CW L0 Hcv Hnz HC CH. pose proof (fixed_times_of Ts 7 ltac:(lia) (wp_ne _ _ WP) (wp_pos _ _ WP)) as HT.
    destruct (cont_dd pData Ts WP (long_split _ HL) HD) as [rows EO].
    destruct (best_go scaled wg mem glpk pData Ts lam _ WP HT CW rows _ (ctrl_sat pData Ts g rows ws WP HL SG HD Hf Ews EO) x cv L0 Hcv (conj Hnz HC) CH) as (H & gg & r & EC & ER & R1).
    exists r. rewrite (traj_cont scaled wg _ _ _ _ dt rows WP Hdt EO), EC. cbn [bind fst snd]. split; [exact ER|exact R1].
  Qed.
  Lemma c63_optimal pData Ts dt g lam B kap ws : well_posed pData Ts -> long_phases Ts -> dt <= 0 -> same_gravity pData g ->
    representation pData = DOUBLE_DESCRIPTION -> In (flag_of pData) exact_w_flags -> computeWwaypoints pData (total Ts) = Ok ws ->
    let ta := computeDiscretizedTimeFixed Ts 7 in
    cost_weight pData Ts ta lam -> on_scale pData lam B kap -> acc_ctrl_rate scaled Ts <= B ->
    wrench_ctrl_rate pData (total Ts) g (length ws) B ->
    exists rows H gg r, computeConstraintsContinuous scaled pData Ts = Ok (CO (map (fun r => (l3 (fst r), snd r)) rows) [] [] 3) /\
      genCostFunction pData Ts (total Ts) ta 3 = Ok (H, gg) /\
      computeCOMTraj scaled wg (solve_quadprog mem) glpk pData Ts dt SOLVER_QUADPROG = Ok r /\
      (well_scaled (eqp_of (plan_qp H gg rows)) ->
       forall y cvy, com_curve pData (total Ts) y = Ok cvy -> no_zero_point cvy y -> ctrl_feasible scaled pData Ts (length ws) cvy ->
       (rc_success r = true /\ exists x s s', rc_x r = l3 x /\ com_curve pData (total Ts) x = Ok (rc_c r) /\
          plan_cost pData ta x (cv_fun (rc_c r)) s /\ plan_cost pData ta y (cv_fun cvy) s' /\ s <= s') \/
       (rc_success r = false /\ (1000 <= subsets (length rows) 3)%nat /\ exists st, returns (eqp_of (plan_qp H gg rows)) mem st_MAX_ITER st)).
  Proof.
    intros WP HL Hdt SG HD Hf Ews ta CW OS HA WR. pose proof (fixed_times_of Ts 7 ltac:(lia) (wp_ne _ _ WP) (wp_pos _ _ WP)) as HT.
    destruct (cont_rows scaled pData Ts WP g lam B kap ws SG HD Hf (long_split _ HL) OS HA Ews WR) as (pi & rows & _ & EO & _ & HR & _).
    pose proof OS as (_ & _ & Hl & _).
    destruct (opt_go scaled wg mem glpk pData Ts lam ta WP HT CW rows _ (ctrl_sat pData Ts g rows ws WP HL SG HD Hf Ews EO) Hl HR) as (H & gg & r & EC & ER & R1).
    exists rows, H, gg, r. rewrite (traj_cont scaled wg _ _ _ _ dt rows WP Hdt EO). rewrite padr0 in EO. split; [exact EO|]. split; [exact EC|].
    fold ta. rewrite EC. cbn [bind fst snd]. split; [exact ER|]. intros HW y cvy Hy Hnz HC. exact (R1 HW y cvy Hy (conj Hnz HC)).
  Qed.
End Plan.
