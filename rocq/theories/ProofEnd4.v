(** Plans made with the bundled QP solver: the best motion (C54). *)
From Coq Require Import Lia Lra Psatz.
From Verif Require Import Vec SpecBezier SpecTime ModelData ModelDispatch ModelUtils ModelRows ModelCom ModelNd ModelCont ModelSolver ModelTraj ModelQp
  SpecCom SpecWp SpecCtr SpecSolver SpecTraj SpecEnd ProofBezier ProofCurve ProofWaypoints ProofWaypoints2 ProofTime ProofTime2
  ProofCom ProofCom2 ProofCom3 ProofSolver ProofTraj ProofTraj2 ProofTraj3 ProofQp3 ProofQp6 ProofQp7 ProofQp11 ProofQp14 ProofQp15 ProofEnd ProofEnd3 SpecQp.
Open Scope R_scope.

(** * The solver when the unconstrained minimiser is feasible *)
Lemma violation_feasible q x : ineqs_hold q x -> violation q x = 0.
Proof. intros H. apply sumf_zero. intros i Hi. specialize (H i Hi). apply Rmax_left. lra. Qed.
Lemma slack_ext q x y i : (forall k, (k < e_n q)%nat -> x k = y k) -> slack q x i = slack q y i.
Proof. intros H. unfold slack, dot. f_equal. apply sumf_ext. intros k Hk. rewrite H by exact Hk. reflexivity. Qed.
Lemma direct q mem y : (1 < e_max q)%nat -> convex q -> e_E q = 0%nat -> ineqs_hold q y -> (forall i, (i < e_n q)%nat -> hmul q y i + e_g q i = 0) ->
  exists st, execution q mem 1 = Ok (Done st_OPTIMAL st) /\ forall i, (i < e_n q)%nat -> q_x st i = y i.
Proof.
  intros HM HC E0 HI HG. destruct (init_ok q mem HC) as (L & st & _ & HL & EI & Hq & I & Hit & Ht).
  assert (EX : forall i, (i < e_n q)%nat -> q_x st i = y i).
  { destruct HC as [_ PD]. set (w := fun i => q_x st i - y i).
    assert (HW : forall i, (i < e_n q)%nat -> hmul q w i = 0).
    { intros i Hi. pose proof (i_st _ _ _ _ _ I i Hi) as S1. rewrite Hq in S1. cbn [sumf] in S1. specialize (HG i Hi).
      assert (E : hmul q w i = hmul q (q_x st) i - hmul q y i).
      { enough (hmul q w i + hmul q y i = hmul q (q_x st) i) by lra. unfold hmul, dot, w. rewrite <- sumf_plus. apply sumf_ext. intros; ring. }
      lra. }
    assert (Z : dot (e_n q) w (hmul q w) = 0) by (apply sumf_zero; intros i Hi; rewrite HW by exact Hi; ring).
    intros i Hi. destruct (Req_dec (w i) 0) as [E|E]; [unfold w in E; lra|].
    specialize (PD w (ex_intro _ i (conj Hi E))). lra. }
  assert (V : violation q (q_x st) = 0).
  { rewrite <- (violation_feasible q y HI). apply sumf_ext. intros i Hi. rewrite (slack_ext q (q_x st) y i EX). reflexivity. }
  unfold execution. rewrite EI, E0. cbn [add_equalities steps step]. unfold step_L1. cbv zeta. rewrite Hit, Hq, E0. cbn [Nat.sub mark bind].
  rewrite (proj2 (Nat.leb_gt _ _) HM).
  match goal with |- context [sumf (e_I q) ?f] => change f with (fun i => Rmin 0 (slack q (q_x st) i)) end.
  rewrite psi_violation, V. pose proof (tolerance_nonneg q L HL). destruct (Rle_dec 0 (q_tol st)) as [_|N]; [|rewrite Ht in N; lra].
  eexists. split; [reflexivity|]. exact EX.
Qed.
Lemma solve_direct mem p init y : convex (eqp_of p) -> qp_ce0 p = [] -> ineqs_hold (eqp_of p) y ->
  (forall i, (i < e_n (eqp_of p))%nat -> hmul (eqp_of p) y i + e_g (eqp_of p) i = 0) ->
  exists obj, solve_quadprog mem p init = Ok (st_OPTIMAL, list_of (length (qp_g p)) y, obj).
Proof.
  intros HC E0 HI HG. destruct (direct (eqp_of p) mem y (proj1 (Nat.ltb_lt 1 DEFAULT_MAX_ITER) eq_refl) HC ltac:(cbn; rewrite E0; reflexivity) HI HG) as (st & E & HX). exists (q_f st).
  unfold solve_quadprog. assert (EM : execution (eqp_of p) mem (max_steps (eqp_of p)) = Ok (Done st_OPTIMAL st)).
  { unfold execution in *. replace (max_steps (eqp_of p)) with (1 + (max_steps (eqp_of p) - 1))%nat by (unfold max_steps; lia). rewrite steps_add, E. apply steps_done. }
  rewrite EM. do 3 f_equal. unfold list_of. apply map_ext_in. intros i Hi. apply in_seq in Hi. apply HX. cbn. lia.
Qed.

Lemma plan_qp_p3 H v rows : plan_qp H (l3 v) rows = p3 H v rows.
Proof. unfold plan_qp, p3. f_equal. rewrite map_map. reflexivity. Qed.

(** * The cost as a quadratic function *)
Lemma gencost_form pData Ts ta lam : well_posed pData Ts -> times_of Ts ta -> cost_weight pData Ts ta lam ->
  exists H v K, genCostFunction pData Ts (total Ts) ta 3 = Ok (H, l3 v) /\
    (forall i j, (i < 3)%nat -> (j < 3)%nat -> mat_of H i j = if Nat.eqb i j then lam else 0) /\
    (forall x cv, com_curve pData (total Ts) x = Ok cv -> exists s, plan_cost pData ta x (cv_fun cv) s) /\
    forall x cv s, com_curve pData (total Ts) x = Ok cv -> plan_cost pData ta x (cv_fun cv) s ->
      s = lam * vnorm2 x + 2 * vdot v x + K.
Proof.
  intros WP HT HW. destruct (gencost_id pData Ts ta lam WP HT HW) as (H & v & EC & HH).
  assert (Q : forall x, quad H (l3 x) = lam * vnorm2 x).
  { intros x. assert (EH : exists a b c d e f g h i, H = [[a;b;c];[d;e;f];[g;h;i]]).
    { destruct HW as [[HC _]|[HC _]].
      - destruct (c22_dist pData Ts (total Ts) ta 0 HC) as (H' & g' & K & E & L1 & L2 & _). cbn [Nat.add] in *. rewrite EC in E. injection E as -> _.
        destruct H' as [|r0 [|r1 [|r2 [|]]]]; try discriminate. inversion L2 as [|? ? A0 L3]; subst. inversion L3 as [|? ? A1 L4]; subst. inversion L4 as [|? ? A2 _]; subst.
        destruct r0 as [|? [|? [|? [|]]]]; try discriminate. destruct r1 as [|? [|? [|? [|]]]]; try discriminate. destruct r2 as [|? [|? [|? [|]]]]; try discriminate.
        repeat eexists.
      - destruct (c22_acc pData Ts ta 0 WP HT HC) as (H' & g' & K & E & L1 & L2 & _). cbn [Nat.add] in *. rewrite EC in E. injection E as -> _.
        destruct H' as [|r0 [|r1 [|r2 [|]]]]; try discriminate. inversion L2 as [|? ? A0 L3]; subst. inversion L3 as [|? ? A1 L4]; subst. inversion L4 as [|? ? A2 _]; subst.
        destruct r0 as [|? [|? [|? [|]]]]; try discriminate. destruct r1 as [|? [|? [|? [|]]]]; try discriminate. destruct r2 as [|? [|? [|? [|]]]]; try discriminate.
        repeat eexists. }
    destruct EH as (a & b & c & d & e & f & g & h & i & ->).
    pose proof (HH 0%nat 0%nat ltac:(lia) ltac:(lia)) as H00. pose proof (HH 0%nat 1%nat ltac:(lia) ltac:(lia)) as H01. pose proof (HH 0%nat 2%nat ltac:(lia) ltac:(lia)) as H02.
    pose proof (HH 1%nat 0%nat ltac:(lia) ltac:(lia)) as H10. pose proof (HH 1%nat 1%nat ltac:(lia) ltac:(lia)) as H11. pose proof (HH 1%nat 2%nat ltac:(lia) ltac:(lia)) as H12.
    pose proof (HH 2%nat 0%nat ltac:(lia) ltac:(lia)) as H20. pose proof (HH 2%nat 1%nat ltac:(lia) ltac:(lia)) as H21. pose proof (HH 2%nat 2%nat ltac:(lia) ltac:(lia)) as H22.
    unfold mat_of in *. cbn [nth Nat.eqb] in *. rewrite H00, H01, H02, H10, H11, H12, H20, H21, H22.
    unfold quad, vnorm2, vdot, l3; cbn. ring. }
  assert (G : forall x, rdot (l3 v) (l3 x) = vdot v x) by (intros; unfold vdot, l3; cbn; ring).
  destruct HW as [[HC ->]|[HC HW]].
  - destruct (c22_dist pData Ts (total Ts) ta 0 HC) as (H' & g' & K & E & _ & _ & _ & HK). cbn [Nat.add] in *. rewrite EC in E. injection E as <- <-.
    exists H, v, K. split; [exact EC|]. split; [exact HH|]. split.
    + intros x cv _. eexists. left. split; [exact HC|reflexivity].
    + intros x cv s _ [[_ ->]|[HC' _]]; [|rewrite HC in HC'; discriminate]. specialize (HK x [] eq_refl). rewrite app_nil_r, Q, G in HK.
      unfold sumsq in HK; cbn [rdot] in HK. lra.
  - destruct (c22_acc pData Ts ta 0 WP HT HC) as (H' & g' & K & E & _ & _ & _ & HK). cbn [Nat.add] in *. rewrite EC in E. injection E as <- <-.
    exists H, v, K. split; [exact EC|]. split; [exact HH|]. split.
    + intros x cv Hcv. destruct (HK x cv [] Hcv eq_refl) as (s & S & _). exists s. right. split; [exact HC|exact S].
    + intros x cv s Hcv [[HC' _]|[_ S]]; [rewrite HC in HC'; discriminate|]. destruct (HK x cv [] Hcv eq_refl) as (s' & S' & ES).
      rewrite app_nil_r, Q, G in ES. unfold sumsq in ES; cbn [rdot] in ES. rewrite (sum_acc2_unique _ _ _ _ S S'). lra.
Qed.

Section Best.
  Variable scaled wg : bool.
  Variable mem : qst.
  Variable glpk : lp -> outcome (Z * R * list R).

  Lemma q3_objective lam H v rows x : (forall i j, (i < 3)%nat -> (j < 3)%nat -> mat_of H i j = if Nat.eqb i j then lam else 0) ->
    objective (eqp_of (p3 H v rows)) x = 1 / 2 * (lam * vnorm2 (x3 x)) + vdot v (x3 x).
  Proof.
    intros HH. unfold objective. change (e_n (eqp_of (p3 H v rows))) with 3%nat. unfold dot at 1 2. cbn [sumf].
    rewrite !(q3_hmul lam H v rows HH) by lia. change (e_g (eqp_of (p3 H v rows))) with (vec_of (l3 v)).
    unfold vec_of, l3, vnorm2, vdot, x3; cbn. ring.
  Qed.
  Lemma q3_convex lam H v rows : (forall i j, (i < 3)%nat -> (j < 3)%nat -> mat_of H i j = if Nat.eqb i j then lam else 0) -> 0 < lam ->
    convex (eqp_of (p3 H v rows)).
  Proof.
    intros HH L0. split; [apply (q3_symmetric lam H v rows HH)|]. intros w (i & Hi & Hw). change (e_n (eqp_of (p3 H v rows))) with 3%nat in *.
    unfold dot. cbn [sumf]. rewrite !(q3_hmul lam H v rows HH) by lia.
    pose proof (Rle_0_sqr (w 0%nat)). pose proof (Rle_0_sqr (w 1%nat)). pose proof (Rle_0_sqr (w 2%nat)).
    assert (0 < w 0%nat * w 0%nat + w 1%nat * w 1%nat + w 2%nat * w 2%nat).
    { pose proof (Rsqr_pos_lt _ Hw) as P. unfold Rsqr in *. destruct i as [|[|[|i]]]; [| | |lia]; lra. }
    nra.
  Qed.
  Lemma q3_ineqs H v rows y : sat rows y -> ineqs_hold (eqp_of (p3 H v rows)) (vec_of (l3 y)).
  Proof.
    intros S i Hi. change (e_I (eqp_of (p3 H v rows))) with (length (map snd rows)) in Hi. rewrite map_length in Hi.
    destruct (nth_error rows i) as [r|] eqn:E; [|apply nth_error_None in E; lia]. rewrite (q3_slack H v rows _ i r E).
    unfold sat in S. rewrite Forall_forall in S. pose proof (S r (nth_error_In _ _ E)) as Sr.
    replace (x3 (vec_of (l3 y))) with y by (destruct y; reflexivity). lra.
  Qed.

  Lemma solve_qp (rows : list (vec3 * R)) H v s x obj : solve_quadprog mem (p3 H v rows) (repeat 0 3) = Ok (s, l3 x, obj) ->
    solve wg (solve_quadprog mem) glpk (mat3cols rows) (map snd rows) (MX 3 []) [] H (l3 v) (repeat 0 3) [] [] SOLVER_QUADPROG =
    Ok (ResultData (Z.eqb s EIQUADPROG_FAST_OPTIMAL) (if Z.eqb s EIQUADPROG_FAST_OPTIMAL then obj else -1) (l3 x)).
  Proof.
    intros E. unfold solve. rewrite Z.eqb_refl. cbn [addBoundaryConstraintsQuadProg addConstraintMinBoundQuadProg addConstraintMaxBoundQuadProg bind fst snd].
    cbn [map mat3cols mx_rows]. unfold p3 in E. rewrite E. reflexivity.
  Qed.
  Lemma best_answer pData Ts rows lam H v x : well_posed pData Ts ->
    (forall i j, (i < 3)%nat -> (j < 3)%nat -> mat_of H i j = if Nat.eqb i j then lam else 0) -> 0 < lam ->
    sat rows x -> vadd (vscal lam x) v = vzero ->
    exists res r, solve wg (solve_quadprog mem) glpk (mat3cols rows) (map snd rows) (MX 3 []) [] H (l3 v) (repeat 0 3) [] [] SOLVER_QUADPROG = Ok res /\
      genTraj scaled res pData (total Ts) = Ok r /\ rc_success r = true /\ rc_x r = l3 x /\ com_curve pData (total Ts) x = Ok (rc_c r).
  Proof.
    intros WP HH L0 S Z. destruct (solve_direct mem (p3 H v rows) (repeat 0 3) (vec_of (l3 x)) (q3_convex lam H v rows HH L0) eq_refl (q3_ineqs H v rows x S)) as (obj & E).
    { intros i Hi. change (e_n (eqp_of (p3 H v rows))) with 3%nat in Hi. rewrite (q3_hmul lam H v rows HH) by exact Hi.
      change (e_g (eqp_of (p3 H v rows))) with (vec_of (l3 v)). unfold vec_of, l3.
      pose proof (f_equal vx Z) as Z0. pose proof (f_equal vy Z) as Z1. pose proof (f_equal vz Z) as Z2. cbn in Z0, Z1, Z2.
      destruct i as [|[|[|i]]]; [| | |lia]; cbn [nth]; assumption. }
    replace (list_of (length (qp_g (p3 H v rows))) (vec_of (l3 x))) with (l3 x) in E by reflexivity.
    destruct (genTraj_ok scaled (ResultData true obj (l3 x)) pData Ts x [] WP eq_refl) as (r & EG & Hs & _ & Hx & Hcv & _); [cbn; reflexivity|].
    exists (ResultData true obj (l3 x)), r. split; [rewrite (solve_qp rows H v _ _ _ E); reflexivity|]. auto.
  Qed.

  Lemma stationary lam v x : 0 < lam -> (forall y, lam * vnorm2 x + 2 * vdot v x <= lam * vnorm2 y + 2 * vdot v y) -> vadd (vscal lam x) v = vzero.
  Proof.
    intros L0 HM. specialize (HM (vscal (- / lam) v)). set (k := / lam) in *. assert (K : lam * k = 1) by (unfold k; field; lra). assert (KP : 0 < k) by (apply Rinv_0_lt_compat; lra).
    clearbody k. destruct x as [x1 x2 x3]. destruct v as [v1 v2 v3]. unfold vnorm2, vdot, vadd, vscal, vzero in *. cbn [vx vy vz] in *.
    assert (S : (lam * x1 + v1) * (lam * x1 + v1) + (lam * x2 + v2) * (lam * x2 + v2) + (lam * x3 + v3) * (lam * x3 + v3) <= 0).
    { replace (lam * (- k * v1 * (- k * v1) + - k * v2 * (- k * v2) + - k * v3 * (- k * v3)) + 2 * (v1 * (- k * v1) + v2 * (- k * v2) + v3 * (- k * v3)))
        with ((lam * k - 2) * (k * (v1 * v1 + v2 * v2 + v3 * v3))) in HM by ring. rewrite K in HM.
      apply Rmult_le_compat_l with (r := lam) in HM; [|lra].
      replace (lam * ((1 - 2) * (k * (v1 * v1 + v2 * v2 + v3 * v3)))) with (- (lam * k * (v1 * v1 + v2 * v2 + v3 * v3))) in HM by ring. rewrite K in HM. lra. }
    pose proof (Rle_0_sqr (lam * x1 + v1)) as P1. pose proof (Rle_0_sqr (lam * x2 + v2)) as P2. pose proof (Rle_0_sqr (lam * x3 + v3)) as P3. unfold Rsqr in *.
    assert (Z : forall a, a * a <= 0 -> a = 0) by (intros a Ha; pose proof (Rle_0_sqr a) as Pa; unfold Rsqr in Pa; apply Rsqr_0_uniq; unfold Rsqr; lra).
    apply v3_eq; cbn; apply Z; lra.
  Qed.

  Section Go.
    Variables (pData : problem) (Ts : list R) (g : vec3) (lam : R) (ta : list (R * Z)).
    Hypothesis WP : well_posed pData Ts.
    Hypothesis HT : times_of Ts ta.
    Hypothesis CW : cost_weight pData Ts ta lam.
    Variable rows : list (vec3 * R).
    Variable P : vec3 -> bcurve -> Prop.
    Hypothesis HM : forall x cv, com_curve pData (total Ts) x = Ok cv -> P x cv -> sat rows x.

    Lemma best_go x cv : 0 < lam -> com_curve pData (total Ts) x = Ok cv -> P x cv -> cheapest pData Ts ta x (cv_fun cv) ->
      exists H gg r, genCostFunction pData Ts (total Ts) ta 3 = Ok (H, gg) /\
        (res <- solve wg (solve_quadprog mem) glpk (mat3cols rows) (map snd rows) (MX 3 []) [] H gg (repeat 0 3) [] [] SOLVER_QUADPROG ;; genTraj scaled res pData (total Ts)) = Ok r /\
        rc_success r = true /\ rc_x r = l3 x /\ rc_c r = cv.
    Proof.
      intros L0 Hcv HP HB. destruct (gencost_form pData Ts ta lam WP HT CW) as (H & v & K & EC & HH & EX & HK).
      assert (ST : vadd (vscal lam x) v = vzero).
      { apply stationary; [exact L0|]. intros y. destruct (curve_T pData Ts WP y) as (? & cvy & _ & _ & Hy & _).
        destruct (EX x cv Hcv) as [s Hs]. destruct (EX y cvy Hy) as [s' Hs']. pose proof (HB y cvy s s' Hy Hs Hs') as L.
        rewrite (HK x cv s Hcv Hs), (HK y cvy s' Hy Hs') in L. lra. }
      destruct (best_answer pData Ts rows lam H v x WP HH L0 (HM x cv Hcv HP) ST) as (res & r & ES & EG & S1 & S2 & S3).
      exists H, (l3 v), r. split; [exact EC|]. rewrite ES. cbn [bind]. split; [exact EG|]. split; [exact S1|]. split; [exact S2|]. congruence.
    Qed.

    Hypothesis HL : eps52 < lam.
    Hypothesis HR : forall r, In r rows -> eps52 * vnorm2 (fst r) < lam * lam.
    Lemma opt_go : exists H gg r, genCostFunction pData Ts (total Ts) ta 3 = Ok (H, gg) /\
        (res <- solve wg (solve_quadprog mem) glpk (mat3cols rows) (map snd rows) (MX 3 []) [] H gg (repeat 0 3) [] [] SOLVER_QUADPROG ;; genTraj scaled res pData (total Ts)) = Ok r /\
        (well_scaled (eqp_of (plan_qp H gg rows)) ->
         forall y cvy, com_curve pData (total Ts) y = Ok cvy -> P y cvy ->
         (rc_success r = true /\ exists x s s', rc_x r = l3 x /\ com_curve pData (total Ts) x = Ok (rc_c r) /\
            plan_cost pData ta x (cv_fun (rc_c r)) s /\ plan_cost pData ta y (cv_fun cvy) s' /\ s <= s') \/
         (rc_success r = false /\ (1000 <= subsets (length rows) 3)%nat /\ exists st, returns (eqp_of (plan_qp H gg rows)) mem st_MAX_ITER st)).
    Proof.
      destruct (gencost_form pData Ts ta lam WP HT CW) as (H & v & K & EC & HH & EX & HK). pose proof eps_pos as EP.
      set (q := eqp_of (p3 H v rows)). assert (HC : convex q) by (apply (q3_convex lam H v rows HH); lra).
      destruct (solve_quadprog_ok mem (p3 H v rows) (repeat 0 3) lam (q3_symmetric lam H v rows HH) (q3_conditioned lam H v rows HH HL HR) eq_refl) as (L & s & st & _ & E & RT & _).
      change (list_of (length (qp_g (p3 H v rows))) (q_x st)) with (l3 (x3 (q_x st))) in E. pose proof (solve_qp rows H v _ _ _ E) as ES.
      assert (NF : forall y cvy, well_scaled q -> com_curve pData (total Ts) y = Ok cvy -> P y cvy -> s = st_OPTIMAL \/ s = st_MAX_ITER).
      { intros y cvy HW Hy HP. apply (c40_solves q mem HC HW ltac:(cbn; lia) st s RT).
        - intros (c & (k & Hk & _) & _). cbn in Hk. lia.
        - exists (vec_of (l3 y)). split; [intros i Hi; cbn in Hi; lia|]. apply q3_ineqs. exact (HM y cvy Hy HP). }
      destruct (Z.eqb_spec s EIQUADPROG_FAST_OPTIMAL) as [Es|Es].
      - destruct (genTraj_ok scaled (ResultData true (q_f st) (l3 (x3 (q_x st)))) pData Ts (x3 (q_x st)) [] WP eq_refl) as (r & EG & S1 & _ & S2 & S3 & _); [cbn; reflexivity|].
        exists H, (l3 v), r. split; [exact EC|]. rewrite ES. cbn [bind]. split; [exact EG|]. intros HW y cvy Hy HP. rewrite plan_qp_p3 in HW. left. split; [exact S1|].
        destruct (EX _ _ S3) as [s1 Hs1]. destruct (EX _ _ Hy) as [s2 Hs2]. exists (x3 (q_x st)), s1, s2. repeat (split; [assumption|]).
        rewrite (HK _ _ _ S3 Hs1), (HK _ _ _ Hy Hs2).
        destruct (c40_bound q mem HC HW ltac:(cbn; lia) st s RT (or_introl Es)) as (_ & _ & B).
        assert (E0 : eqs_hold q (vec_of (l3 y))) by (intros i Hi; cbn in Hi; lia).
        specialize (B (vec_of (l3 y)) (conj E0 (q3_ineqs H v rows y (HM y cvy Hy HP)))).
        unfold q in B. rewrite !(q3_objective lam H v rows _ HH) in B. replace (x3 (vec_of (l3 y))) with y in B by (destruct y; reflexivity). lra.
      - exists H, (l3 v), default_result. split; [exact EC|]. rewrite ES. cbn [bind]. split; [apply genTraj_fail; reflexivity|].
        intros HW y cvy Hy HP. rewrite plan_qp_p3 in HW |- *. right. split; [reflexivity|]. destruct (NF y cvy HW Hy HP) as [E'|E']; [contradiction|]. subst s. split; [|exists st; exact RT].
        destruct (Nat.le_gt_cases 1000 (subsets (length rows) 3)) as [|LT]; [assumption|]. exfalso.
        refine (c59_limit q mem st_MAX_ITER st HC HW ltac:(cbn; lia) _ RT eq_refl).
        change (e_I q) with (length (map snd rows)). rewrite map_length. exact LT.
    Qed.
  End Go.
End Best.

(** * The rows of the planner are on the scale of the solver *)
Lemma fixed_short pData Ts p g lam B kap rows : well_posed pData Ts -> (1 <= p)%nat -> same_gravity pData g -> In (flag_of pData) exact_w_flags ->
  on_scale pData lam B kap -> (forall i t, sampled_fixed Ts p i t -> wrench_rate pData (total Ts) g B t) ->
  computeConstraintsOneStep pData Ts (total Ts) (computeDiscretizedTimeFixed Ts p) = Ok rows ->
  forall r, In r rows -> eps52 * vnorm2 (fst r) < lam * lam.
Proof.
  intros WP Hp SG Hf OS WR EA. pose proof (wp_ne _ _ WP) as Hne. pose proof (wp_pos _ _ WP) as HF. rewrite (fixed_tagged Ts p Hp Hne) in EA.
  assert (Eg : front_gravity pData = Ok g) by (exact (front_grav pData Ts g WP SG)).
  pose proof WP as (Hfc & Hcap & _).
  destruct (ws_ex pData (total Ts) g Hfc Hcap (T_pos pData Ts WP) Eg) as [ws Ews]. destruct (curve_T pData Ts WP vzero) as (pi & _ & Epi & _).
  set (bs := fixed_bs Ts p) in *.
  destruct (filled pData Ts bs WP (fixed_bs_len Ts p) (fixed_bs_ne Ts p Hp) (fixed_times Ts p Hp HF) ws pi g Ews Epi Eg) as (n' & _ & _ & _ & _ & EA').
  rewrite EA in EA'. injection EA' as ER. change (_ ++ _) with (all_rows pData Ts bs g ws pi) in ER.
  assert (WR' : forall b t, In b bs -> In t b -> wrench_rate pData (total Ts) g B t).
  { intros b t Hb Ht. apply In_nth_error in Hb. destruct Hb as [i Hi]. apply (WR i). apply fixed_sampled; [exact Hp| |left; exists b; auto].
    rewrite <- (fixed_bs_len Ts p). apply nth_error_Some. fold bs. congruence. }
  intros r0 Hr0. rewrite ER in Hr0. exact (rows_short pData Ts bs WP (fixed_bs_len Ts p) (fixed_times Ts p Hp HF) g Hf lam B kap OS WR' ws pi Ews Epi Eg r0 Hr0).
Qed.
Lemma step_short pData Ts dt ta g lam B kap rows : well_posed pData Ts -> 0 < dt -> same_gravity pData g -> In (flag_of pData) exact_w_flags ->
  computeDiscretizedTime Ts dt = Ok ta ->
  on_scale pData lam B kap -> (forall i t, sampled_step Ts dt i t -> wrench_rate pData (total Ts) g B t) ->
  computeConstraintsOneStep pData Ts (total Ts) ta = Ok rows ->
  forall r, In r rows -> eps52 * vnorm2 (fst r) < lam * lam.
Proof.
  intros WP Hdt SG Hf Et OS WR EA. pose proof (wp_pos _ _ WP) as HF.
  destruct (c11_ok Ts dt Hdt HF) as (bs & Eb & HL & Hbs & _). rewrite Et in Eb. injection Eb as ->.
  assert (Eg : front_gravity pData = Ok g) by (exact (front_grav pData Ts g WP SG)).
  pose proof WP as (Hfc & Hcap & _).
  destruct (ws_ex pData (total Ts) g Hfc Hcap (T_pos pData Ts WP) Eg) as [ws Ews]. destruct (curve_T pData Ts WP vzero) as (pi & _ & Epi & _).
  pose proof (step_bs_ne Ts dt bs Hbs) as HNe. pose proof (step_times Ts dt bs Hdt HF HL Hbs) as HTm.
  destruct (filled pData Ts bs WP HL HNe HTm ws pi g Ews Epi Eg) as (n' & _ & _ & _ & _ & EA').
  rewrite EA in EA'. injection EA' as ER. change (_ ++ _) with (all_rows pData Ts bs g ws pi) in ER.
  pose proof (fun i t Hi => step_sampled Ts dt bs i t Hdt HF HL Hbs Hi) as Hsm.
  assert (WR' : forall b t, In b bs -> In t b -> wrench_rate pData (total Ts) g B t).
  { intros b t Hb Ht. apply In_nth_error in Hb. destruct Hb as [i Hi]. apply (WR i). apply Hsm; [|left; exists b; auto].
    rewrite <- HL. apply nth_error_Some. congruence. }
  intros r0 Hr0. rewrite ER in Hr0. exact (rows_short pData Ts bs WP HL HTm g Hf lam B kap OS WR' ws pi Ews Epi Eg r0 Hr0).
Qed.

(** * C54 *)
Lemma c54_best_fixed scaled wg mem glpk pData Ts p g lam x cv : well_posed pData Ts -> (1 <= p)%nat -> same_gravity pData g -> In (flag_of pData) exact_w_flags ->
  cost_weight pData Ts (computeDiscretizedTimeFixed Ts p) lam -> 0 < lam ->
  com_curve pData (total Ts) x = Ok cv -> plan_feasible pData (sampled_fixed Ts p) (cv_fun cv) ->
  cheapest pData Ts (computeDiscretizedTimeFixed Ts p) x (cv_fun cv) ->
  exists r, computeCOMTrajFixedSize scaled wg (solve_quadprog mem) glpk pData Ts p = Ok r /\ rc_success r = true /\ rc_x r = l3 x /\ rc_c r = cv.
Proof.
  intros WP Hp SG Hf CW L0 Hcv FE CH. pose proof (fixed_times_of Ts p Hp (wp_ne _ _ WP) (wp_pos _ _ WP)) as HT.
  destruct (c15_fixed pData Ts p g WP Hp SG Hf) as (rows & EA & HM).
  destruct (best_go scaled wg mem glpk pData Ts lam _ WP HT CW rows (fun _ cv => plan_feasible pData (sampled_fixed Ts p) (cv_fun cv)) (fun x cv H => proj2 (HM x cv H)) x cv L0 Hcv FE CH) as (H & gg & r & EC & ER & R1).
  exists r. rewrite (traj_fixed scaled wg _ _ _ _ WP p rows EA), EC. cbn [bind fst snd]. split; [exact ER|exact R1].
Qed.
Lemma c54_best_step scaled wg mem glpk pData Ts dt ta g lam x cv : well_posed pData Ts -> 0 < dt -> same_gravity pData g -> In (flag_of pData) exact_w_flags ->
  computeDiscretizedTime Ts dt = Ok ta -> cost_weight pData Ts ta lam -> 0 < lam ->
  com_curve pData (total Ts) x = Ok cv -> plan_feasible pData (sampled_step Ts dt) (cv_fun cv) ->
  cheapest pData Ts ta x (cv_fun cv) ->
  exists r, computeCOMTraj scaled wg (solve_quadprog mem) glpk pData Ts dt SOLVER_QUADPROG = Ok r /\ rc_success r = true /\ rc_x r = l3 x /\ rc_c r = cv.
Proof.
  intros WP Hdt SG Hf Et CW L0 Hcv FE CH. pose proof (step_times_of Ts dt ta Hdt (wp_pos _ _ WP) Et) as HT.
  destruct (c15_step pData Ts dt g WP Hdt SG Hf) as (ta' & rows & Et' & EA & HM). rewrite Et in Et'. injection Et' as <-.
  destruct (best_go scaled wg mem glpk pData Ts lam _ WP HT CW rows (fun _ cv => plan_feasible pData (sampled_step Ts dt) (cv_fun cv)) (fun x cv H => proj2 (HM x cv H)) x cv L0 Hcv FE CH) as (H & gg & r & EC & ER & R1).
  exists r. rewrite (traj_step scaled wg _ _ _ _ WP dt ta rows Hdt Et EA), EC. cbn [bind fst snd]. split; [exact ER|exact R1].
Qed.
Lemma c54_optimal_fixed scaled wg mem glpk pData Ts p g lam B kap : well_posed pData Ts -> (1 <= p)%nat -> same_gravity pData g -> In (flag_of pData) exact_w_flags ->
  let ta := computeDiscretizedTimeFixed Ts p in
  cost_weight pData Ts ta lam -> on_scale pData lam B kap ->
  (forall i t, sampled_fixed Ts p i t -> wrench_rate pData (total Ts) g B t) ->
  exists rows H gg r, computeConstraintsOneStep pData Ts (total Ts) ta = Ok rows /\
    genCostFunction pData Ts (total Ts) ta 3 = Ok (H, gg) /\
    computeCOMTrajFixedSize scaled wg (solve_quadprog mem) glpk pData Ts p = Ok r /\
    (well_scaled (eqp_of (plan_qp H gg rows)) ->
     forall y cvy, com_curve pData (total Ts) y = Ok cvy -> plan_feasible pData (sampled_fixed Ts p) (cv_fun cvy) ->
     (rc_success r = true /\ exists x s s', rc_x r = l3 x /\ com_curve pData (total Ts) x = Ok (rc_c r) /\
        plan_cost pData ta x (cv_fun (rc_c r)) s /\ plan_cost pData ta y (cv_fun cvy) s' /\ s <= s') \/
     (rc_success r = false /\ (1000 <= subsets (length rows) 3)%nat /\ exists st, returns (eqp_of (plan_qp H gg rows)) mem st_MAX_ITER st)).
Proof.
  intros WP Hp SG Hf ta CW OS WR. pose proof (fixed_times_of Ts p Hp (wp_ne _ _ WP) (wp_pos _ _ WP)) as HT.
  destruct (c15_fixed pData Ts p g WP Hp SG Hf) as (rows & EA & HM). pose proof OS as (_ & _ & HL & _).
  destruct (opt_go scaled wg mem glpk pData Ts lam ta WP HT CW rows (fun _ cv => plan_feasible pData (sampled_fixed Ts p) (cv_fun cv)) (fun x cv H => proj2 (HM x cv H)) HL
    (fixed_short pData Ts p g lam B kap rows WP Hp SG Hf OS WR EA)) as (H & gg & r & EC & ER & R1).
  exists rows, H, gg, r. split; [exact EA|]. split; [exact EC|]. split; [|exact R1].
  rewrite (traj_fixed scaled wg _ _ _ _ WP p rows EA). fold ta. rewrite EC. cbn [bind fst snd]. exact ER.
Qed.
Lemma c54_optimal_step scaled wg mem glpk pData Ts dt ta g lam B kap : well_posed pData Ts -> 0 < dt -> same_gravity pData g -> In (flag_of pData) exact_w_flags ->
  computeDiscretizedTime Ts dt = Ok ta ->
  cost_weight pData Ts ta lam -> on_scale pData lam B kap ->
  (forall i t, sampled_step Ts dt i t -> wrench_rate pData (total Ts) g B t) ->
  exists rows H gg r, computeConstraintsOneStep pData Ts (total Ts) ta = Ok rows /\
    genCostFunction pData Ts (total Ts) ta 3 = Ok (H, gg) /\
    computeCOMTraj scaled wg (solve_quadprog mem) glpk pData Ts dt SOLVER_QUADPROG = Ok r /\
    (well_scaled (eqp_of (plan_qp H gg rows)) ->
     forall y cvy, com_curve pData (total Ts) y = Ok cvy -> plan_feasible pData (sampled_step Ts dt) (cv_fun cvy) ->
     (rc_success r = true /\ exists x s s', rc_x r = l3 x /\ com_curve pData (total Ts) x = Ok (rc_c r) /\
        plan_cost pData ta x (cv_fun (rc_c r)) s /\ plan_cost pData ta y (cv_fun cvy) s' /\ s <= s') \/
     (rc_success r = false /\ (1000 <= subsets (length rows) 3)%nat /\ exists st, returns (eqp_of (plan_qp H gg rows)) mem st_MAX_ITER st)).
Proof.
  intros WP Hdt SG Hf Et CW OS WR. pose proof (step_times_of Ts dt ta Hdt (wp_pos _ _ WP) Et) as HT.
  destruct (c15_step pData Ts dt g WP Hdt SG Hf) as (ta' & rows & Et' & EA & HM). rewrite Et in Et'. injection Et' as <-. pose proof OS as (_ & _ & HL & _).
  destruct (opt_go scaled wg mem glpk pData Ts lam ta WP HT CW rows (fun _ cv => plan_feasible pData (sampled_step Ts dt) (cv_fun cv)) (fun x cv H => proj2 (HM x cv H)) HL
    (step_short pData Ts dt ta g lam B kap rows WP Hdt SG Hf Et OS WR EA)) as (H & gg & r & EC & ER & R1).
  exists rows, H, gg, r. split; [exact EA|]. split; [exact EC|]. split; [|exact R1].
  rewrite (traj_step scaled wg _ _ _ _ WP dt ta rows Hdt Et EA), EC. cbn [bind fst snd]. exact ER.
Qed.

(** * Every problem has a weight *)
Lemma c53_weight pData Ts ta : well_posed pData Ts -> times_of Ts ta -> costFunction pData = ACCELERATION ->
  exists lam, cost_weight pData Ts ta lam /\ (0 < lam <-> acc_depends pData Ts ta).
Proof.
  intros WP HT HC. destruct (disc_acc_ok pData Ts ta WP HT) as (ws & _ & Hws). set (lam := sum_list (map (fun w => fst w * fst w) ws)). exists lam.
  assert (U : forall (cv : bcurve) (x : vec3) axs, com_curve pData (total Ts) x = Ok cv -> Forall2 (fun tp a => is_deriv_n 2 (cv_fun cv) (fst tp) a) ta axs ->
    axs = map (fun w => ev_coefs w x) ws).
  { intros cv x axs Hcv HA. specialize (Hws x cv Hcv). clear - Hws HA. revert axs HA. induction Hws as [|tp w ta ws H _ IH]; intros axs HA; inversion HA; subst; [reflexivity|].
    cbn [map]. f_equal; [|auto]. exact (is_deriv_n_unique 2 _ _ _ _ _ (fun _ => eq_refl) H2 H). }
  split.
  - right. split; [exact HC|]. intros x y cvx cvy axs ays Hx Hy Ax Ay. rewrite (U cvx x axs Hx Ax), (U cvy y ays Hy Ay). unfold lam. clear.
    induction ws as [|w ws IH]; cbn [map combine sum_list fold_right]; [cbn; lra|]. unfold sum_list in *. rewrite IH.
    cbn [fst snd]. unfold ev_coefs, vnorm2, vdot, vsub, vadd, vscal; cbn [vx vy vz]. ring.
  - assert (N : forall l : list (R * vec3), 0 <= sum_list (map (fun w => fst w * fst w) l)).
    { induction l as [|w l IH]; cbn; [lra|]. pose proof (Rle_0_sqr (fst w)) as P. unfold Rsqr, sum_list in *. lra. }
    split.
    + intros L0. assert (E : exists tp w, In (tp, w) (combine ta ws) /\ fst w <> 0).
      { assert (HL : length ta = length ws). { destruct (curve_T pData Ts WP vzero) as (? & cv0 & _ & _ & H0 & _). pose proof (Hws vzero cv0 H0) as F. clear - F. induction F; cbn; congruence. }
        unfold lam in L0. clear - L0 HL N. revert ws HL L0. induction ta as [|tp ta' IH]; intros [|w ws] HL L0; try discriminate; [cbn in L0; lra|].
        destruct (Req_dec (fst w) 0) as [E|E].
        - destruct (IH ws ltac:(cbn in HL; lia)) as (tp' & w' & HI & HN).
          { cbn in L0. unfold sum_list. rewrite E in L0. lra. }
          exists tp', w'. split; [right; exact HI|exact HN].
        - exists tp, w. split; [left; reflexivity|exact E]. }
      destruct E as (tp & w & HI & HN). set (d := V3 1 0 0).
      destruct (curve_T pData Ts WP d) as (? & cvd & _ & _ & Hd & _). destruct (curve_T pData Ts WP vzero) as (? & cv0 & _ & _ & H0 & _).
      assert (F : forall x cv, com_curve pData (total Ts) x = Ok cv -> is_deriv_n 2 (cv_fun cv) (fst tp) (ev_coefs w x)).
      { intros y cv Hcv. specialize (Hws y cv Hcv). clear - Hws HI. induction Hws as [|a b ta ws H _ IH]; [destruct HI|]. destruct HI as [E|HI]; [injection E as -> ->; exact H|auto]. }
      exists tp, d, vzero, cvd, cv0, (ev_coefs w d), (ev_coefs w vzero). split; [eapply in_combine_l; exact HI|].
      split; [exact Hd|]. split; [exact H0|]. split; [apply F, Hd|]. split; [apply F, H0|].
      intros E. apply HN. pose proof (f_equal vx E) as E'. unfold ev_coefs, d in E'; cbn in E'. lra.
    + intros (tp & y & z & cvy & cvz & ay & az & HI & Hy & Hz & Ay & Az & HN).
      destruct (Rle_lt_or_eq_dec 0 lam (N ws)) as [P|E]; [exact P|]. exfalso. apply HN.
      assert (Z : forall w, In w ws -> fst w = 0).
      { unfold lam in E. clear - E N. induction ws as [|w ws IH]; intros w' []; cbn in E; pose proof (N ws) as Nw; pose proof (Rle_0_sqr (fst w)) as P; unfold Rsqr, sum_list in *.
        - subst. apply Rsqr_0_uniq. unfold Rsqr. lra.
        - apply IH; [lra|exact H]. }
      assert (F : forall x0 cv a, com_curve pData (total Ts) x0 = Ok cv -> is_deriv_n 2 (cv_fun cv) (fst tp) a -> exists w, In w ws /\ In (tp, w) (combine ta ws) /\ a = ev_coefs w x0).
      { intros x0 cv a Hcv Ha. specialize (Hws x0 cv Hcv). clear - Hws HI Ha. induction Hws as [|a' b ta ws H _ IH]; [destruct HI|]. destruct HI as [E|HI].
        - subst a'. exists b. split; [left; reflexivity|]. split; [left; reflexivity|]. exact (is_deriv_n_unique 2 _ _ _ _ _ (fun _ => eq_refl) Ha H).
        - destruct (IH HI) as (w & W1 & W2 & W3). exists w. split; [right; exact W1|]. split; [right; exact W2|exact W3]. }
      destruct (curve_T pData Ts WP vzero) as (? & cv0 & _ & _ & H0 & _).
      destruct (F y cvy ay Hy Ay) as (w & W1 & W2 & ->). pose proof (Z w W1) as Zw.
      assert (G : forall x0 cv, com_curve pData (total Ts) x0 = Ok cv -> is_deriv_n 2 (cv_fun cv) (fst tp) (ev_coefs w x0)).
      { intros x0 cv Hcv. specialize (Hws x0 cv Hcv). clear - Hws W2. induction Hws as [|a b ta ws H _ IH]; [destruct W2|]. destruct W2 as [E|HI]; [injection E as -> ->; exact H|auto]. }
      rewrite (is_deriv_n_unique 2 _ _ _ _ _ (fun _ => eq_refl) Az (G z cvz Hz)). unfold ev_coefs. rewrite Zw. apply v3_eq; cbn; ring.
Qed.
