(** Concrete inputs for the theorems of PropertiesEnd.v: standing still at (0,0,4/5)
    (the problem of ExamplesTraj.v). *)
From Coq Require Import Lia Lra Psatz.
From Verif Require Import Vec SpecBezier SpecTime ModelData ModelDispatch ModelUtils ModelRows ModelCom ModelCont ModelSolver ModelTraj ModelQp
  SpecCom SpecWp SpecCtr SpecSolver SpecTraj SpecEnd ProofCurve ProofTime ProofEmit ProofCom ProofCom2 ProofCom3 ProofTraj3 ProofQp3 ProofEnd ProofEnd2 PropertiesEnd ExamplesCom ExamplesTraj SpecQp.
Open Scope R_scope.

Lemma eps_tiny : 1000000 * eps52 < 1.
Proof.
  unfold eps52. assert (P : 0 < 2 ^ 52) by (apply pow_lt; lra). apply Rmult_lt_reg_r with (2 ^ 52); [exact P|].
  rewrite Rmult_assoc, Rinv_l by lra. simpl. lra.
Qed.
Lemma st_weight ta : cost_weight (st_pb DISTANCE_TRAVELED) [1; 1/2] ta 1.
Proof. left. split; reflexivity. Qed.
Lemma vnorm_bound v r : 0 <= r -> vnorm2 v <= r * r -> vnorm v <= r.
Proof. intros Hr H. unfold vnorm. rewrite <- (sqrt_square r Hr). apply sqrt_le_1; [apply ProofEnd.vnorm2_ge|nra|exact H]. Qed.
Lemma st_scale : on_scale (st_pb DISTANCE_TRAVELED) 1 171 1.
Proof.
  pose proof eps_tiny. pose proof eps_pos. repeat (split; [lra|]).
  intros c K [<-|[<-|[]]] HK; cbn in HK.
  - destruct HK as [<-|[<-|[]]]; apply vnorm_bound; unfold vnorm2, vdot; cbn; lra.
  - destruct HK as [<-|[]]; apply vnorm_bound; unfold vnorm2, vdot; cbn; lra.
Qed.
Lemma st_rate t : 0 <= t <= total [1; 1/2] -> wrench_rate (st_pb DISTANCE_TRAVELED) (total [1; 1/2]) (V3 0 0 (-981/100)) 171 t.
Proof.
  intros Ht. pose proof (C53_rate (st_pb DISTANCE_TRAVELED) (total [1; 1/2]) (V3 0 0 (-981/100)) 10 1 (BCurve [V3 0 0 (4/5); V3 0 0 (4/5); vzero; V3 0 0 (4/5)] (3/2)) t) as H.
  replace (1 + (120 + 240 * 1) / (total [1; 1/2] * total [1; 1/2]) + 10) with 171 in H by (rewrite st_total; lra).
  apply H; [cbn; tauto| | |apply vnorm_bound; [lra|unfold vnorm2, vdot; cbn; lra]|exact Ht].
  - rewrite st_total. cbv [com_curve]. cbn. unfold mk_bezier. destruct (Rle_dec (3/2) 0); [lra|].
    unfold vzero. repeat f_equal; apply v3_eq; cbn; field.
  - repeat (apply Forall_cons; [apply vnorm_bound; [lra|unfold vnorm2, vdot; cbn; lra]|]). apply Forall_nil.
Qed.
Lemma st_fixed_range p i t : (1 <= p)%nat -> sampled_fixed [1; 1/2] p i t -> 0 <= t <= total [1; 1/2].
Proof.
  intros Hp (j & d & Hj & Hd & ->). rewrite st_total. assert (P : 0 < INR p) by (apply (lt_INR 0); lia). pose proof (pos_INR j). apply le_INR in Hj.
  assert (Q : 0 <= INR j / INR p <= 1).
  { split; [apply Rmult_le_pos; [lra|apply Rlt_le, Rinv_0_lt_compat, P]|]. apply Rmult_le_reg_r with (INR p); [exact P|]. unfold Rdiv. rewrite Rmult_assoc, Rinv_l; lra. }
  destruct i as [|[|[|i]]]; try discriminate; injection Hd as <-; unfold phase_start; cbn; lra.
Qed.
Lemma st_step_range dt i t : 0 < dt -> sampled_step [1; 1/2] dt i t -> 0 <= t <= total [1; 1/2].
Proof.
  intros Hdt (Hi & H). rewrite st_total. destruct i as [|[|i]]; [| |cbn in Hi; lia]; unfold phase_start, phase_end in H; cbn in H;
    (destruct H as [->|(k & -> & H)]; [lra|]); pose proof (Rmult_le_pos _ _ (pos_INR k) (Rlt_le _ _ Hdt)); lra.
Qed.
Lemma st_cheapest ta : cheapest (st_pb DISTANCE_TRAVELED) [1; 1/2] ta st_x (cv_fun st_cv).
Proof.
  intros y cv s s' _ [[_ ->]|[H _]] [[_ ->]|[H' _]]; try discriminate.
  replace (vsub st_x (mid_of (st_pb DISTANCE_TRAVELED))) with vzero; [apply Rle_trans with 0; [unfold vnorm2, vdot; cbn; lra|apply ProofEnd.vnorm2_ge]|].
  unfold mid_of, st_x. apply v3_eq; cbn; field.
Qed.

(** The hypotheses of C53 and C54 hold for every number of points, and the plan
    succeeds: it stands still. *)
Example ex_C53_fixed : forall scaled wg mem glpk p, (1 <= p)%nat ->
  well_posed (st_pb DISTANCE_TRAVELED) [1; 1/2] /\ same_gravity (st_pb DISTANCE_TRAVELED) (V3 0 0 (-981/100)) /\
  In (flag_of (st_pb DISTANCE_TRAVELED)) exact_w_flags /\
  cost_weight (st_pb DISTANCE_TRAVELED) [1; 1/2] (computeDiscretizedTimeFixed [1; 1/2] p) 1 /\
  on_scale (st_pb DISTANCE_TRAVELED) 1 171 1 /\
  (forall i t, sampled_fixed [1; 1/2] p i t -> wrench_rate (st_pb DISTANCE_TRAVELED) (total [1; 1/2]) (V3 0 0 (-981/100)) 171 t) /\
  exists r, computeCOMTrajFixedSize scaled wg (solve_quadprog mem) glpk (st_pb DISTANCE_TRAVELED) [1; 1/2] p = Ok r /\
    rc_success r = true /\ rc_x r = l3 st_x /\ rc_c r = st_cv.
Proof.
  intros scaled wg mem glpk p Hp. split; [apply st_wp|]. split; [apply st_same|]. split; [cbn; tauto|]. split; [apply st_weight|]. split; [apply st_scale|]. split.
  - intros i t Hs. apply st_rate. exact (st_fixed_range p i t Hp Hs).
  - apply (C54_best_fixed scaled wg mem glpk (st_pb DISTANCE_TRAVELED) [1; 1/2] p (V3 0 0 (-981/100)) 1 st_x st_cv (st_wp _) Hp (st_same _)
      ltac:(cbn; tauto) (st_weight _) ltac:(lra) (st_curve _) (st_feasible _ _) (st_cheapest _)).
Qed.
Example ex_C53_step : forall scaled wg mem glpk dt, 0 < dt ->
  exists ta, computeDiscretizedTime [1; 1/2] dt = Ok ta /\
  cost_weight (st_pb DISTANCE_TRAVELED) [1; 1/2] ta 1 /\
  (forall i t, sampled_step [1; 1/2] dt i t -> wrench_rate (st_pb DISTANCE_TRAVELED) (total [1; 1/2]) (V3 0 0 (-981/100)) 171 t) /\
  exists r, computeCOMTraj scaled wg (solve_quadprog mem) glpk (st_pb DISTANCE_TRAVELED) [1; 1/2] dt SOLVER_QUADPROG = Ok r /\
    rc_success r = true /\ rc_x r = l3 st_x /\ rc_c r = st_cv.
Proof.
  intros scaled wg mem glpk dt Hdt. destruct (c15_step (st_pb DISTANCE_TRAVELED) [1; 1/2] dt (V3 0 0 (-981/100)) (st_wp _) Hdt (st_same _) ltac:(cbn; tauto)) as (ta & _ & Et & _).
  exists ta. split; [exact Et|]. split; [apply st_weight|]. split.
  - intros i t Hs. apply st_rate. exact (st_step_range dt i t Hdt Hs).
  - apply (C54_best_step scaled wg mem glpk (st_pb DISTANCE_TRAVELED) [1; 1/2] dt ta (V3 0 0 (-981/100)) 1 st_x st_cv (st_wp _) Hdt (st_same _)
      ltac:(cbn; tauto) Et (st_weight _) ltac:(lra) (st_curve _) (st_feasible _ _) (st_cheapest _)).
Qed.

(** Starting sideways, with c_y >= -1/16 asked at the times 0, 1/2, 1: the middle of
    the ends is not feasible, the hypotheses of C54_optimal hold. *)
Definition sw_c : contact := Contact (Some (CPhase [] 50 (V3 0 0 (-981/100)) [])) [V3 0 (-1) 0] [1/16] [] [].
Definition sw_pb : problem :=
  Problem [sw_c] (V3 0 0 (4/5)) (V3 0 (-1) 0) vzero vzero (V3 0 0 (4/5)) vzero vzero vzero vzero false
    (Constraints F_c1 false 5 0) DISTANCE_TRAVELED DOUBLE_DESCRIPTION.
Lemma sw_wp : well_posed sw_pb [1].
Proof.
  split; [cbn; tauto|]. split; [reflexivity|]. split; [discriminate|].
  split; [repeat constructor; lra|]. split; [reflexivity|].
  repeat constructor; eexists; (split; [reflexivity|]; split; [cbn; lra|]; split; [|cbn; lia]). constructor.
Qed.
Lemma sw_same : same_gravity sw_pb (V3 0 0 (-981/100)).
Proof. intros c ph [<-|[]] H; injection H as <-; reflexivity. Qed.
Lemma sw_total : total [1] = 1. Proof. cbn. lra. Qed.
Definition sw_cv (x : vec3) : bcurve := BCurve [V3 0 0 (4/5); V3 0 (-1/3) (4/5); x; V3 0 0 (4/5)] 1.
Lemma sw_curve x : com_curve sw_pb (total [1]) x = Ok (sw_cv x).
Proof.
  rewrite sw_total. cbv [com_curve]. cbn. unfold mk_bezier. destruct (Rle_dec 1 0); [lra|].
  unfold sw_cv. repeat f_equal; apply v3_eq; cbn; field.
Qed.
Lemma sw_pos x t : vy (cv_fun (sw_cv x) t) = - (t * ((1 - t) * (1 - t))) + 3 * (t * t) * (1 - t) * vy x.
Proof. cbv [cv_fun bc_pts bc_T sw_cv length pred map curve bez3 bezl bez sumf bern binom nth vx vy vz Nat.add Nat.sub INR pow]. field. Qed.
Lemma sw_times t i : sampled_fixed [1] 2 i t -> t = 0 \/ t = 1 / 2 \/ t = 1.
Proof.
  intros (j & d & Hj & Hd & ->). destruct i as [|[|i]]; try discriminate. injection Hd as <-. unfold phase_start. cbn [firstn total fold_right].
  destruct j as [|[|[|j]]]; [left|right; left|right; right|lia]; cbn; field.
Qed.
Lemma sw_scale : on_scale sw_pb 1 371 1.
Proof.
  pose proof eps_tiny. pose proof eps_pos. repeat (split; [lra|]).
  intros c K [<-|[]] HK; cbn in HK. destruct HK as [<-|[]]; apply vnorm_bound; unfold vnorm2, vdot; cbn; lra.
Qed.
Lemma sw_rate t : 0 <= t <= total [1] -> wrench_rate sw_pb (total [1]) (V3 0 0 (-981/100)) 371 t.
Proof.
  intros Ht. pose proof (C53_rate sw_pb (total [1]) (V3 0 0 (-981/100)) 10 1 (sw_cv vzero) t) as H.
  replace (1 + (120 + 240 * 1) / (total [1] * total [1]) + 10) with 371 in H by (rewrite sw_total; lra).
  apply H; [cbn; tauto|apply sw_curve| |apply vnorm_bound; [lra|unfold vnorm2, vdot; cbn; lra]|exact Ht].
  repeat (apply Forall_cons; [apply vnorm_bound; [lra|unfold vnorm2, vdot; cbn; lra]|]). apply Forall_nil.
Qed.
Lemma sw_cof pi t : computeConstantWaypoints sw_pb (total [1]) = Ok pi -> fst (cof sw_pb [1] pi t) = 3 * (t * t) * (1 - t).
Proof. cbn. intros E. injection E as <-. unfold cof. cbn. unfold total; cbn. field. Qed.
Lemma sw_rows rows : computeConstraintsOneStep sw_pb [1] (total [1]) (computeDiscretizedTimeFixed [1] 2) = Ok rows ->
  (length rows <= 3)%nat /\ forall r, In r rows -> exists a, fst r = V3 0 a 0 /\ (a = 0 \/ a = - (3 / 8)).
Proof.
  pose proof sw_wp as WP. pose proof (wp_pos _ _ WP) as HF. rewrite (fixed_tagged [1] 2 ltac:(lia) (wp_ne _ _ WP)). intros EA.
  assert (Eg : front_gravity sw_pb = Ok (V3 0 0 (-981/100))) by reflexivity.
  destruct (ws_ex sw_pb (total [1]) _ ltac:(cbn; tauto) ltac:(cbn; discriminate) (T_pos sw_pb [1] WP) Eg) as [ws Ews].
  destruct (curve_T sw_pb [1] WP vzero) as (pi & _ & Epi & _).
  destruct (filled sw_pb [1] (fixed_bs [1] 2) WP (fixed_bs_len [1] 2) (fixed_bs_ne [1] 2 ltac:(lia)) (fixed_times [1] 2 ltac:(lia) HF) ws pi _ Ews Epi Eg) as (n' & _ & _ & _ & _ & EA').
  rewrite EA in EA'. match type of EA' with _ = Ok ?l => assert (ER : rows = l) by congruence end. clear EA EA'. subst rows.
  split; [apply Nat.leb_le; reflexivity|]. intros r Hr. apply in_app_or in Hr. destruct Hr as [Hr|Hr].
  { exfalso. unfold all_stab in Hr. cbn in Hr. exact Hr. }
  apply in_app_or in Hr. destruct Hr as [Hr|[]].
  assert (K : forall t, In r (krows sw_c (cof sw_pb [1] pi t)) -> fst r = V3 0 (- (3 * (t * t) * (1 - t))) 0).
  { intros t [<-|[]]. unfold kin_row. cbn [fst]. rewrite (sw_cof pi t Epi). apply v3_eq; cbn; ring. }
  unfold all_kin in Hr. cbn [contacts sw_pb fixed_bs fixed_blocks rows_of flat_map seq map app rev] in Hr. rewrite !app_nil_r in Hr.
  repeat (apply in_app_or in Hr; destruct Hr as [Hr|Hr]); try (destruct Hr; fail);
    rewrite (K _ Hr); eexists; (split; [reflexivity|]); cbn [INR]; ((left; field) || (right; field)).
Qed.
Lemma sw_scaled rows gg H : genCostFunction sw_pb [1] (total [1]) (computeDiscretizedTimeFixed [1] 2) 3 = Ok (H, gg) ->
  (forall r, In r rows -> exists a, fst r = V3 0 a 0 /\ (a = 0 \/ a = - (3 / 8))) -> well_scaled (eqp_of (plan_qp H gg rows)).
Proof.
  intros EC HR. cbn in EC. injection EC as <- <-. set (q := eqp_of _). pose proof eps_pos as EP. pose proof eps_tiny as ES. assert (EE : eps52 * eps52 < / 10000) by nra.
  change (e_n q) with 3%nat.
  assert (HH : forall z i, (i < 3)%nat -> hmul q z i = z i).
  { intros z i Hi. unfold hmul, dot. change (e_n q) with 3%nat. cbn [sumf]. unfold q, eqp_of, plan_qp; cbn [e_H qp_H]. unfold mat_of. destruct i as [|[|[|i]]]; [| | |lia]; cbn [nth]; ring. }
  assert (RW : forall i, (i < e_I q)%nat -> e_CI q i 0%nat = 0 /\ e_CI q i 2%nat = 0 /\ (e_CI q i 1%nat = 0 \/ e_CI q i 1%nat = 3 / 8)).
  { intros i Hi. change (e_I q) with (length (map (@snd vec3 R) rows)) in Hi. rewrite map_length in Hi. destruct (nth_error rows i) as [r|] eqn:E; [|apply nth_error_None in E; lia].
    destruct (HR r (nth_error_In _ _ E)) as (a & Ea & Ha). unfold q, eqp_of, plan_qp; cbn [e_CI qp_CI]. unfold mat_of.
    assert (EN : nth i (map (fun r : vec3 * R => l3 (vopp (fst r))) rows) [] = l3 (vopp (fst r))) by (erewrite nth_error_nth by (apply map_nth_error; exact E); reflexivity).
    rewrite EN, Ea. cbn. lra. }
  intros v z Hv (a & b & D1 & _ & D3). change (e_n q) with 3%nat in D1, D3. cbn [e_E q eqp_of qp_ce0 plan_qp length sumf] in D1.
  assert (Hv' : exists i, (i < e_I q)%nat /\ v = e_CI q i) by (destruct Hv as [(i & Hi & _)|Hv]; [cbn in Hi; lia|exact Hv]).
  destruct Hv' as (i0 & Hi0 & ->). destruct (RW i0 Hi0) as (V0 & V2 & V1).
  assert (Z : forall c : nat, c = 0%nat \/ c = 2%nat -> z c = 0).
  { intros c Hc. assert (c < 3)%nat as Hc3 by (destruct Hc; subst; lia). specialize (D1 c Hc3). rewrite HH in D1 by exact Hc3.
    replace (sumf (e_I q) (fun k => b k * e_CI q k c)) with 0 in D1; [destruct Hc; subst c; rewrite D1, ?V0, ?V2; ring|].
    symmetry. apply ProofBezier.sumf_zero. intros k Hk. destruct (RW k Hk) as (W0 & W2 & _). destruct Hc; subst c; rewrite ?W0, ?W2; ring. }
  pose proof (Z 0%nat (or_introl eq_refl)) as Z0. pose proof (Z 2%nat (or_intror eq_refl)) as Z2.
  destruct (Req_dec (z 1%nat) 0) as [Z1|Z1].
  { left. intros [|[|[|i]]] Hi; [exact Z0|exact Z1|exact Z2|cbn in Hi; lia]. }
  right. assert (E1 : z 1%nat = e_CI q i0 1%nat).
  { pose proof (D1 1%nat ltac:(lia)) as E. rewrite HH in E by lia. replace (sumf (e_I q) (fun k => b k * e_CI q k 1%nat)) with 0 in E; [lra|].
    symmetry. apply ProofBezier.sumf_zero. intros k Hk. destruct (Req_dec (b k) 0) as [B|B]; [rewrite B; ring|].
    specialize (D3 k Hk B). unfold dot in D3. cbn [sumf] in D3. rewrite Z0, Z2 in D3. assert (e_CI q k 1%nat * z 1%nat = 0) as P by lra.
    apply Rmult_integral in P. destruct P as [P|P]; [rewrite P; ring|contradiction]. }
  assert (E2 : e_CI q i0 1%nat = 3 / 8) by (destruct V1 as [V1|V1]; [exfalso; apply Z1; lra|exact V1]).
  change (e_n q) with 3%nat. unfold dot. cbn [sumf]. rewrite Z0, Z2, E1, E2, V0, V2. split; [lra|]. split; [lra|].
  intros v' w Hv' Hw. assert (Hv2 : exists i, (i < e_I q)%nat /\ v' = e_CI q i) by (destruct Hv' as [(i & Hi & _)|Hv']; [cbn in Hi; lia|exact Hv']).
  destruct Hv2 as (i1 & Hi1 & ->). destruct (RW i1 Hi1) as (W0 & W2 & W1).
  pose proof (Hw 1%nat ltac:(lia)) as Ew. rewrite HH in Ew by lia. rewrite W0, W2, Ew. destruct W1 as [W1|W1]; rewrite W1; nra.
Qed.
Lemma sw_feasible x : vy x = 1 / 6 -> plan_feasible sw_pb (sampled_fixed [1] 2) (cv_fun (sw_cv x)).
Proof.
  intros Hx i c t Hc Hs. apply sw_times in Hs. destruct i as [|[|i]]; try discriminate. injection Hc as <-. split; [split|intros E; discriminate].
  - intros [|j] K k HK Hk; [|destruct j; discriminate]; injection HK as <-; injection Hk as <-.
    unfold vdot; cbn [vx vy vz]. rewrite sw_pos, Hx. destruct Hs as [->|[->| ->]]; lra.
  - eexists. destruct (com_acc (sw_cv x) t) as [acc Ha]. exists acc. split; [reflexivity|]. split; [exact Ha|]. constructor.
Qed.
Example ex_C54_optimal : forall scaled wg mem glpk,
  ~ plan_feasible sw_pb (sampled_fixed [1] 2) (cv_fun (sw_cv (mid_of sw_pb))) /\
  exists rows H gg r, genCostFunction sw_pb [1] (total [1]) (computeDiscretizedTimeFixed [1] 2) 3 = Ok (H, gg) /\
    computeCOMTrajFixedSize scaled wg (solve_quadprog mem) glpk sw_pb [1] 2 = Ok r /\
    well_scaled (eqp_of (plan_qp H gg rows)) /\
    rc_success r = true /\ exists x, rc_x r = l3 x /\ vnorm2 (vsub x (mid_of sw_pb)) <= 1 / 36.
Proof.
  intros scaled wg mem glpk. split.
  - intros F. destruct (F 0%nat sw_c (1/2) eq_refl) as [[K _] _].
    + exists 1%nat, 1. split; [lia|]. split; [reflexivity|]. unfold phase_start; cbn; field.
    + specialize (K 0%nat _ _ eq_refl eq_refl). unfold vdot in K; cbn [vx vy vz] in K. rewrite sw_pos in K. unfold mid_of in K; cbn in K. lra.
  - destruct (C54_optimal_fixed scaled wg mem glpk sw_pb [1] 2 (V3 0 0 (-981/100)) 1 371 1 sw_wp ltac:(lia) sw_same ltac:(cbn; tauto)) as (rows & H & gg & r & EA & EC & ER & HO).
    + left. split; reflexivity.
    + apply sw_scale.
    + intros i t Hs. apply sw_rate. apply sw_times in Hs. rewrite sw_total. destruct Hs as [->|[->| ->]]; lra.
    + destruct (sw_rows rows EA) as [HLen HRow]. pose proof (sw_scaled rows gg H EC HRow) as HW. exists rows, H, gg, r. split; [exact EC|]. split; [exact ER|]. split; [exact HW|].
      destruct (HO HW (V3 0 (1/6) (4/5)) _ (sw_curve _) (sw_feasible (V3 0 (1/6) (4/5)) eq_refl)) as [(S1 & x & s & s' & S2 & S3 & S4 & S5 & S6)|(_ & F & _)].
      2: { exfalso. destruct (length rows) as [|[|[|[|l]]]]; cbn in F; lia. }
      split; [exact S1|]. exists x. split; [exact S2|]. destruct S4 as [[_ ->]|[E _]]; [|discriminate]. destruct S5 as [[_ ->]|[E _]]; [|discriminate].
      eapply Rle_trans; [exact S6|]. unfold mid_of, vnorm2, vdot; cbn. lra.
Qed.
