(** C90: the plan is the best motion. *)
From Verif Require Import Vec SpecBezier SpecTime ModelData ModelDispatch ModelUtils ModelRows ModelCom ModelNd ModelCont ModelSolver ModelTraj
  SpecCom SpecWp SpecCtr SpecCont SpecSolver SpecTraj SpecEnd SpecBest ProofBezier ProofCurve ProofWaypoints ProofWaypoints2 ProofTime ProofCom ProofCom2 ProofCom3
  ProofNd ProofCont3 ProofCont5 ProofCont9 ProofSolver ProofSolver2 ProofTraj ProofTraj2 ProofTraj3.
Open Scope R_scope.

Lemma l3_inj x y : l3 x = l3 y -> x = y.
Proof. destruct x, y. unfold l3; cbn. intros E. injection E as -> -> ->. reflexivity. Qed.

Lemma v3_dec (x y : vec3) : x = y \/ x <> y.
Proof.
  destruct x as [a b c], y as [d e f].
  destruct (Req_dec a d) as [->|N]; [|right; intros E; injection E; intros; contradiction].
  destruct (Req_dec b e) as [->|N]; [|right; intros E; injection E; intros; contradiction].
  destruct (Req_dec c f) as [->|N]; [left; reflexivity|right; intros E; injection E; intros; contradiction].
Qed.
Lemma vsub_zero x y : vsub x y = vzero -> x = y.
Proof. unfold vsub, vzero. intros E. injection E as E1 E2 E3. apply v3_eq; lra. Qed.

(** the value of a quadratic form at a middle *)
Definition half (x y : vec3) : vec3 := vscal (1 / 2) (vadd x y).
Lemma quad_half H g x y : length H = 3%nat -> Forall (fun r => length r = 3%nat) H -> length g = 3%nat ->
  quad H (l3 (half x y)) + 2 * rdot g (l3 (half x y)) =
  1 / 2 * (quad H (l3 x) + 2 * rdot g (l3 x)) + 1 / 2 * (quad H (l3 y) + 2 * rdot g (l3 y)) - 1 / 4 * quad H (l3 (vsub x y)).
Proof.
  intros LH FH Lg. destruct (list3 g Lg) as [gv ->].
  destruct H as [|r0 [|r1 [|r2 [|]]]]; try discriminate LH.
  inversion FH as [|? ? L0 F1]; inversion F1 as [|? ? L1 F2]; inversion F2 as [|? ? L2 _]. subst.
  destruct (list3 r0 L0) as [a ->], (list3 r1 L1) as [b ->], (list3 r2 L2) as [c ->].
  unfold quad, l3, half, vadd, vsub, vscal; cbn [map rdot vx vy vz]. field.
Qed.
Lemma sat_half Ab x y : sat Ab x -> sat Ab y -> sat Ab (half x y).
Proof.
  unfold sat. rewrite !Forall_forall. intros Hx Hy r Hr. specialize (Hx r Hr). specialize (Hy r Hr).
  replace (vdot (fst r) (half x y)) with (1 / 2 * vdot (fst r) x + 1 / 2 * vdot (fst r) y) by (unfold half, vdot, vscal, vadd; cbn; field). lra.
Qed.

Section Best.
  Variable scaled wg : bool.
  Variable quadprog : qp -> list R -> outcome (Z * list R * R).
  Variable glpk : lp -> outcome (Z * R * list R).
  Hypothesis QO : qp_solves quadprog.
  Variable pData : problem.
  Variable Ts : list R.
  Hypothesis PL : plannable pData Ts.

  (** the rows and the cost of a call *)
  Lemma call_rows m ta : proper m -> cost_times Ts m ta -> exists Ab,
    (forall x cv, com_curve pData (total Ts) x = Ok cv -> (sat Ab x <-> plan_feasible pData (sampled Ts m) (cv_fun cv))) /\
    times_of Ts ta /\
    call scaled wg quadprog glpk pData Ts m =
      (Hg <- genCostFunction pData Ts (total Ts) ta 3 ;;
       res <- solve wg quadprog glpk (mat3cols Ab) (map snd Ab) (MX 3 []) [] (fst Hg) (snd Hg) (repeat 0 3) [] [] SOLVER_QUADPROG ;;
       genTraj scaled res pData (total Ts)).
  Proof.
    destruct PL as (WP & (g & SG) & Hf). intros PR CT. destruct m as [dt|p]; cbn [proper cost_times sampled call] in *.
    - destruct (c15_step pData Ts dt g WP PR SG Hf) as (ta' & Ab & Et & EA & HM). rewrite CT in Et. injection Et as <-.
      exists Ab. split; [exact HM|]. split; [exact (step_times_of Ts dt ta PR (wp_pos _ _ WP) CT)|]. exact (traj_step scaled wg quadprog glpk pData Ts WP dt ta Ab PR CT EA).
    - subst ta. destruct (c15_fixed pData Ts p g WP PR SG Hf) as (Ab & EA & HM).
      exists Ab. split; [exact HM|]. split; [exact (fixed_times_of Ts p PR (wp_ne _ _ WP) (wp_pos _ _ WP))|].
      exact (traj_fixed scaled wg quadprog glpk pData Ts WP p Ab EA).
  Qed.
  (** the cost as a quadratic function *)
  Lemma cost_quad ta : times_of Ts ta -> cost_decides pData Ts ta -> exists H gg K,
    genCostFunction pData Ts (total Ts) ta 3 = Ok (H, gg) /\ (forall v, v <> vzero -> 0 < quad H (l3 v)) /\
    length H = 3%nat /\ Forall (fun r => length r = 3%nat) H /\ length gg = 3%nat /\
    forall x cv s, com_curve pData (total Ts) x = Ok cv ->
      (plan_cost pData ta x (cv_fun cv) s <-> s = quad H (l3 x) + 2 * rdot gg (l3 x) + K).
  Proof.
    destruct PL as (WP & _ & _). intros HT [HC|[HC HD]].
    - destruct (c22_dist pData Ts (total Ts) ta 0 HC) as (H & gg & K & E & LH & FH & Lg & HK). exists H, gg, K.
      split; [exact E|]. split; [exact (dist_pd pData Ts _ ta H gg HC E)|]. repeat (split; [assumption|]).
      intros x cv s _. specialize (HK x [] eq_refl). rewrite app_nil_r in HK. unfold sumsq in HK; cbn [rdot] in HK.
      unfold plan_cost. split; [intros [[_ ->]|[E' _]]; [lra|rewrite HC in E'; discriminate]|intros ->; left; split; [exact HC|lra]].
    - destruct (c22_acc pData Ts ta 0 WP HT HC) as (H & gg & K & E & LH & FH & Lg & HK). exists H, gg, K.
      split; [exact E|]. split; [exact (acc_pd pData Ts ta H gg WP HT HD HC E)|]. repeat (split; [assumption|]).
      intros x cv s Hcv. destruct (HK x cv [] Hcv eq_refl) as (s' & Hs & Es). rewrite app_nil_r in Es. unfold sumsq in Es; cbn [rdot] in Es.
      unfold plan_cost. split.
      + intros [[E' _]|[_ H']]; [rewrite HC in E'; discriminate|]. rewrite (sum_acc2_unique _ _ _ _ H' Hs). lra.
      + intros ->. right. split; [exact HC|]. replace (quad H (l3 x) + 2 * rdot gg (l3 x) + K) with s' by lra. exact Hs.
  Qed.

  (** a call on a problem with a feasible motion *)
  Lemma call_opt m ta x cv : proper m -> cost_times Ts m ta -> cost_decides pData Ts ta ->
    com_curve pData (total Ts) x = Ok cv -> plan_feasible pData (sampled Ts m) (cv_fun cv) ->
    exists r x' H gg, genCostFunction pData Ts (total Ts) ta 3 = Ok (H, gg) /\
      call scaled wg quadprog glpk pData Ts m = Ok r /\ rc_success r = true /\ rc_x r = l3 x' /\ best pData Ts m ta x' (rc_c r) /\
      genTraj scaled (ResultData true (1 / 2 * quad H (l3 x') + rdot gg (l3 x')) (l3 x')) pData (total Ts) = Ok r.
  Proof.
    intros PR CT CD Hcv FE. destruct (call_rows m ta PR CT) as (Ab & HM & HT & EC).
    destruct (cost_quad ta HT CD) as (H & gg & K & EG & PD & LH & FH & Lg & HK).
    destruct PL as (WP & _ & _). rewrite EG in EC. cbn [bind fst snd] in EC.
    destruct (solve_opt wg quadprog glpk QO Ab H gg x PD (proj2 (HM x cv Hcv) FE)) as (x' & obj & ES & F & Eo & O).
    rewrite ES in EC. cbn [bind] in EC.
    destruct (genTraj_ok scaled (ResultData true obj (l3 x')) pData Ts x' [] WP eq_refl) as (r & Er & Hs & Hc & Hx & Hcv' & _).
    { cbn [rd_x]. now rewrite app_nil_r. }
    exists r, x', H, gg. split; [exact EG|]. split; [rewrite EC; exact Er|]. split; [exact Hs|]. split; [exact Hx|]. split; [|rewrite <- Eo; exact Er].
    split; [exact Hcv'|]. split; [apply (HM x' _ Hcv'); exact F|].
    intros y cvy s s' Hy Fy C1 C2. apply (HK x' _ s Hcv') in C1. apply (HK y _ s' Hy) in C2. specialize (O y (proj2 (HM y cvy Hy) Fy)). lra.
  Qed.

  Lemma best_unique m ta x cv y cvy : proper m -> cost_times Ts m ta -> cost_decides pData Ts ta ->
    best pData Ts m ta x cv -> best pData Ts m ta y cvy -> x = y /\ cv = cvy.
  Proof.
    intros PR CT CD (Hx & Fx & Ox) (Hy & Fy & Oy). destruct (call_rows m ta PR CT) as (Ab & HM & HT & _).
    destruct (cost_quad ta HT CD) as (H & gg & K & EG & PD & LH & FH & Lg & HK). destruct PL as (WP & _ & _).
    assert (E : x = y).
    { destruct (v3_dec x y) as [E|NE]; [exact E|exfalso].
      assert (S : sat Ab (half x y)) by (apply sat_half; [apply (HM x cv Hx)|apply (HM y cvy Hy)]; assumption).
      destruct (com_curve_total pData (total Ts) (half x y) (proj1 WP) (proj1 (proj2 WP)) (total_posd pData Ts WP)) as [cvh Hh].
      pose proof (Ox (half x y) cvh _ _ Hh (proj1 (HM _ _ Hh) S) (proj2 (HK x cv _ Hx) eq_refl) (proj2 (HK _ cvh _ Hh) eq_refl)) as O1.
      pose proof (Oy (half x y) cvh _ _ Hh (proj1 (HM _ _ Hh) S) (proj2 (HK y cvy _ Hy) eq_refl) (proj2 (HK _ cvh _ Hh) eq_refl)) as O2.
      rewrite (quad_half H gg x y LH FH Lg) in O1, O2.
      assert (P : 0 < quad H (l3 (vsub x y))). { apply PD. intros Z. apply NE. apply vsub_zero. exact Z. }
      lra. }
    split; [exact E|]. subst y. rewrite Hx in Hy. injection Hy as <-. reflexivity.
  Qed.

  Lemma c90_found m ta x cv : proper m -> cost_times Ts m ta -> cost_decides pData Ts ta -> best pData Ts m ta x cv ->
    exists r, call scaled wg quadprog glpk pData Ts m = Ok r /\ rc_success r = true /\ rc_x r = l3 x /\ rc_c r = cv.
  Proof.
    intros PR CT CD B. destruct (call_opt m ta x cv PR CT CD (proj1 B) (proj1 (proj2 B))) as (r & x' & H & gg & _ & E & Hs & Hx & B' & _).
    destruct (best_unique m ta x cv x' (rc_c r) PR CT CD B B') as [-> ->]. exists r. repeat (split; [assumption|]). reflexivity.
  Qed.

  Hypothesis QS : qp_sound quadprog.
  Hypothesis LS : lp_sound glpk.
  Lemma call_feasible m r : proper m -> call scaled wg quadprog glpk pData Ts m = Ok r -> rc_success r = true ->
    plan_curve pData Ts r /\ plan_feasible pData (sampled Ts m) (cv_fun (rc_c r)).
  Proof.
    destruct PL as (WP & (g & SG) & Hf). intros PR E Hs. destruct m as [dt|p]; cbn [proper call sampled] in *.
    - exact (c16_step scaled wg quadprog glpk QS LS pData Ts dt _ g r WP PR SG Hf E Hs).
    - exact (c16_fixed scaled wg quadprog glpk QS LS pData Ts p g r WP PR SG Hf E Hs).
  Qed.
  Lemma c90_returned m ta r : proper m -> cost_times Ts m ta -> cost_decides pData Ts ta ->
    call scaled wg quadprog glpk pData Ts m = Ok r -> rc_success r = true -> exists x, rc_x r = l3 x /\ best pData Ts m ta x (rc_c r).
  Proof.
    intros PR CT CD E Hs. destruct (call_feasible m r PR E Hs) as ((_ & (x & Ex & Hcv) & _) & FE).
    destruct (call_opt m ta x _ PR CT CD Hcv FE) as (r' & x' & H & gg & _ & E' & _ & Hx' & B & _).
    rewrite E in E'. injection E' as <-. exists x'. split; assumption.
  Qed.
End Best.
