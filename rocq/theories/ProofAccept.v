(** C97: plans that hold at every instant, and the discretised planner. *)
From Coq Require Import List Lia Lra.
From Verif Require Import Vec SpecBezier SpecTime ModelData ModelDispatch ModelUtils ModelCont ModelSolver ModelTraj
  SpecCom SpecWp SpecCtr SpecCont SpecTraj SpecEnd SpecEnd2 SpecBest ProofBezier ProofCurve ProofTime ProofWaypoints ProofTraj ProofTraj2 ProofTraj3
  ProofCont7 ProofEnd ProofEnd2 ProofEnd6 ProofEnd7 ProofBest ProofBest2 ProofCom3 ProofCut2 ProofDepends ProofDepends2.
Import ListNotations.
Open Scope R_scope.

Lemma total_firstn_S (Ts : list R) : forall i d, nth_error Ts i = Some d -> total (firstn (S i) Ts) = total (firstn i Ts) + d.
Proof.
  induction Ts as [|a Ts IH]; intros [|i] d H; try discriminate H.
  - injection H as ->. cbn. ring.
  - specialize (IH i d H). cbn [firstn total] in *. rewrite IH. ring.
Qed.
Lemma sampled_in (Ts : list R) m i t : Forall (fun d => 0 < d) Ts -> proper m -> sampled Ts m i t -> in_phase Ts i t.
Proof.
  intros PT PR. destruct m as [dt|p]; cbn [proper sampled] in *.
  - intros (Hi & H). split; [exact Hi|]. destruct (nth_error Ts i) as [d|] eqn:E; [|apply nth_error_None in E; lia].
    pose proof (total_firstn_S Ts i d E) as ES. assert (0 < d) by (rewrite Forall_forall in PT; apply PT; eapply nth_error_In; exact E).
    unfold phase_start, phase_end in *. destruct H as [->|(k & -> & H)]; [lra|]. pose proof (pos_INR k). nra.
  - intros (j & d & Hj & E & ->). split; [apply nth_error_Some; congruence|].
    pose proof (total_firstn_S Ts i d E) as ES. assert (0 < d) by (rewrite Forall_forall in PT; apply PT; eapply nth_error_In; exact E).
    unfold phase_start, phase_end in *. apply le_INR in Hj. apply le_INR in PR. cbn [INR] in PR. pose proof (pos_INR j).
    assert (0 <= INR j / INR p <= 1). { split; [apply Rmult_le_pos; [lra|left; apply Rinv_0_lt_compat; lra]|]. apply (Rmult_le_reg_r (INR p)); [lra|]. field_simplify; lra. }
    nra.
Qed.

Lemma bound_le scaled p Ts (v : vec3) : scaled = true \/ 1 <= total Ts ->
  within (acc_bound scaled p Ts) v -> within (k_maxAcceleration (constr p)) v.
Proof.
  unfold acc_bound. destruct scaled; [intros _ H; exact H|]. intros [E|HT]; [discriminate E|]. set (k := k_maxAcceleration (constr p)).
  assert (Q : 1 <= total Ts * total Ts) by nra. set (q := total Ts * total Ts) in *.
  intros H. assert (A : k / q <= k \/ k < 0).
  { destruct (Rlt_dec k 0) as [|N]; [right; assumption|left]. apply (Rmult_le_reg_r q); [lra|]. unfold Rdiv. rewrite Rmult_assoc, Rinv_l by lra. nra. }
  unfold within in *. destruct H as (H1 & H2 & H3). destruct A as [A|A].
  - repeat split; lra.
  - exfalso. assert (k / q < 0) by (pose proof (Rinv_0_lt_compat q ltac:(lra)); unfold Rdiv; nra). pose proof (Rabs_pos (vx v)). lra.
Qed.

Section Accept.
  Variables (scaled wg : bool) (quadprog : qp -> list R -> outcome (Z * list R * R)) (glpk : lp -> outcome (Z * R * list R)).
  Hypothesis QO : qp_solves quadprog.
  Hypothesis QS : qp_sound quadprog.
  Hypothesis LS : lp_sound glpk.

  Lemma c97_accepted p Ts dt solver r m ta : plannable p Ts -> splittable Ts -> dt <= 0 -> representation p = DOUBLE_DESCRIPTION ->
    costFunction p = DISTANCE_TRAVELED \/ costFunction p = ACCELERATION ->
    k_constraintAcceleration (constr p) = false \/ scaled = true \/ 1 <= total Ts ->
    proper m -> cost_times Ts m ta ->
    computeCOMTraj scaled wg quadprog glpk p Ts dt solver = Ok r -> rc_success r = true -> plan_no_zero_point r ->
    plan_feasible p (sampled Ts m) (cv_fun (rc_c r)) /\
    exists r' x x' s s', call scaled wg quadprog glpk p Ts m = Ok r' /\ rc_success r' = true /\ rc_x r = l3 x /\ rc_x r' = l3 x' /\
      plan_cost p ta x (cv_fun (rc_c r)) s /\ plan_cost p ta x' (cv_fun (rc_c r')) s' /\ s' <= s.
  Proof.
    intros PL SP Hdt HR HC HA PR CT E Hs NZ. pose proof PL as (WP & (g & SG) & Hf).
    destruct (c17_plan scaled wg quadprog glpk QS LS p Ts dt solver r WP SP Hdt E Hs) as ((_ & (x & Ex & Hcv) & _) & HK).
    assert (FE : plan_feasible p (sampled Ts m) (cv_fun (rc_c r))).
    { intros i c t Hc Ht. apply (sampled_in Ts m i t (wp_pos _ _ WP) PR) in Ht. split.
      - exact (c17_plan_dd scaled wg quadprog glpk QS LS p Ts dt solver g r WP SP Hdt SG HR Hf E Hs NZ i c t Hc Ht).
      - intros KA. destruct HA as [HA|HA]; [rewrite HA in KA; discriminate KA|].
        destruct (HK NZ i c t Hc Ht) as (_ & a & Ha & W). exists a. split; [exact Ha|exact (bound_le scaled p Ts a HA W)]. }
    split; [exact FE|]. pose proof (c96_decides p Ts m ta PL HC PR CT) as CD.
    destruct (call_opt scaled wg quadprog glpk QO p Ts PL m ta x _ PR CT CD Hcv FE) as (r' & x' & H & gg & _ & E' & Hs' & Hx' & (Hc' & _ & B) & _).
    destruct (call_rows scaled wg quadprog glpk p Ts PL m ta PR CT) as (Ab & _ & HT & _).
    destruct (cost_quad p Ts PL ta HT CD) as (H' & gg' & K & _ & _ & _ & _ & _ & HQ).
    pose proof (proj2 (HQ x _ _ Hcv) eq_refl) as C1. pose proof (proj2 (HQ x' _ _ Hc') eq_refl) as C2.
    exists r', x, x', (quad H' (l3 x) + 2 * rdot gg' (l3 x) + K), (quad H' (l3 x') + 2 * rdot gg' (l3 x') + K).
    repeat (split; [assumption|]). exact (B x _ _ _ Hcv FE C2 C1).
  Qed.

  (** the continuous formulation with such a back end *)
  Lemma c97_found p Ts dt ws x cv : plannable p Ts -> long_phases Ts -> dt <= 0 -> representation p = DOUBLE_DESCRIPTION ->
    costFunction p = DISTANCE_TRAVELED \/ costFunction p = ACCELERATION ->
    computeWwaypoints p (total Ts) = Ok ws -> com_curve p (total Ts) x = Ok cv -> no_zero_point cv x -> ctrl_feasible scaled p Ts (length ws) cv ->
    let ta := computeDiscretizedTimeFixed Ts 7 in
    exists r x' s s', computeCOMTraj scaled wg quadprog glpk p Ts dt SOLVER_QUADPROG = Ok r /\ rc_success r = true /\ rc_x r = l3 x' /\
      plan_cost p ta x (cv_fun cv) s /\ plan_cost p ta x' (cv_fun (rc_c r)) s' /\ s' <= s.
  Proof.
    intros PL HL Hdt HD HC Ews Hcv NZ CF ta. pose proof PL as (WP & (g & SG) & Hf).
    pose proof (fixed_times_of Ts 7 ltac:(lia) (wp_ne _ _ WP) (wp_pos _ _ WP)) as HT. fold ta in HT.
    pose proof (c96_decides p Ts (PerPhase 7) ta PL HC ltac:(cbn; lia) eq_refl) as CD.
    destruct (cont_dd scaled p Ts WP (long_split _ HL) HD) as [rows EO].
    destruct (cost_quad p Ts PL ta HT CD) as (H & gg & K & EG & PD & LH & FH & Lg & HK).
    pose proof (ctrl_sat scaled p Ts g rows ws WP HL SG HD Hf Ews EO x cv Hcv (conj NZ CF)) as ST.
    destruct (solve_opt wg quadprog glpk QO rows H gg x PD ST) as (x' & obj & ES & F & Eo & O).
    destruct (genTraj_ok scaled (ResultData true obj (l3 x')) p Ts x' [] WP eq_refl) as (r & Er & Hs & Hc & Hx & Hcv' & _).
    { cbn [rd_x]. now rewrite app_nil_r. }
    exists r, x', (quad H (l3 x) + 2 * rdot gg (l3 x) + K), (quad H (l3 x') + 2 * rdot gg (l3 x') + K).
    split. { rewrite (traj_cont scaled wg _ _ _ _ dt rows WP Hdt EO). fold ta. rewrite EG. cbn [bind fst snd]. rewrite ES. exact Er. }
    split; [exact Hs|]. split; [exact Hx|]. split; [apply (HK x _ _ Hcv); reflexivity|]. split; [apply (HK x' _ _ Hcv'); reflexivity|].
    specialize (O x ST). lra.
  Qed.
End Accept.

(** A problem that no motion solves at every instant: it starts at the limit of the kinematic constraint, moving out,
    and comes back to it. *)
Definition ac_pb : problem :=
  Problem [Contact (Some (CPhase [] 1 (V3 0 0 (-10)) [])) [V3 1 0 0] [1] [] []] (V3 1 0 0) (V3 1 0 0) vzero vzero (V3 1 0 0) vzero vzero vzero vzero false
    (Constraints F_c1 false 0 0) DISTANCE_TRAVELED DOUBLE_DESCRIPTION.
Lemma ac_plannable : plannable ac_pb [3].
Proof.
  split; [|split; [exists (V3 0 0 (-10)); intros c ph [<-|[]] H; injection H as <-; reflexivity|cbn; tauto]].
  split; [cbn; tauto|]. split; [reflexivity|]. split; [discriminate|]. split; [repeat constructor; lra|]. split; [reflexivity|].
  repeat constructor. eexists; (split; [reflexivity|]; split; [cbn; lra|]; split; [constructor|cbn; lia]).
Qed.
Definition ac_cv (x : vec3) : bcurve := BCurve [V3 1 0 0; V3 2 0 0; x; V3 1 0 0] 3.
Lemma ac_curve x : com_curve ac_pb 3 x = Ok (ac_cv x).
Proof.
  cbv [com_curve]. cbn. unfold mk_bezier. destruct (Rle_dec 3 0); [lra|].
  unfold ac_cv. repeat f_equal; apply v3_eq; cbn; field.
Qed.
Lemma ac_pos x u : vx (cv_fun (ac_cv x) (3 * u)) = 1 + 3 * u * (1 - u) * (1 - u * (2 - vx x)).
Proof.
  destruct x as [a b c]. cbv [cv_fun ac_cv bc_pts bc_T length pred map curve bez3 bezl bez sumf bern binom nth vx vy vz Nat.add Nat.sub INR pow]. field.
Qed.
Lemma ac_deriv x t : exists a, is_deriv_n 2 (cv_fun (ac_cv x)) t a.
Proof. eexists. exact (curve_is_deriv_n 2 (bc_pts (ac_cv x)) 3 t). Qed.
Lemma ac_out x : exists t, in_phase [3] 0 t /\ 1 < vx (cv_fun (ac_cv x) t).
Proof.
  assert (HU : exists u, 0 < u < 1 /\ 0 < 1 - u * (2 - vx x)).
  { destruct (Rle_dec 1 (vx x)) as [L|L]; [exists (1/2); nra|]. exists (1 / (2 * (2 - vx x))).
    assert (U : 1 / (2 * (2 - vx x)) * (2 - vx x) = 1 / 2) by (field; lra).
    assert (0 < 1 / (2 * (2 - vx x))) by (apply Rdiv_lt_0_compat; lra). nra. }
  destruct HU as (u & (U0 & U1) & U2). exists (3 * u). split; [split; [cbn; lia|unfold phase_start, phase_end; cbn; lra]|].
  rewrite ac_pos. assert (0 < 3 * u * (1 - u)) by nra. nra.
Qed.
Lemma ac_split : splittable [3].
Proof. intros [|i] Hi; [|cbn in Hi; lia]. left. cbn. lra. Qed.
Lemma c97_refuted :
  (forall x cv, com_curve ac_pb (total [3]) x = Ok cv -> exists i c t, nth_error (contacts ac_pb) i = Some c /\ in_phase [3] i t /\ ~ kin_ok c (cv_fun cv t)) /\
  forall scaled wg quadprog glpk, qp_solves quadprog -> qp_sound quadprog -> lp_sound glpk ->
  (exists r, call scaled wg quadprog glpk ac_pb [3] (PerPhase 1) = Ok r /\ rc_success r = true) /\
  forall dt solver r, dt <= 0 -> computeCOMTraj scaled wg quadprog glpk ac_pb [3] dt solver = Ok r -> rc_success r = false.
Proof.
  assert (SP : splittable [3]) by exact ac_split. split.
  { intros x cv Hcv. replace (total [3]) with 3 in Hcv by (cbn; ring). rewrite ac_curve in Hcv. injection Hcv as <-.
    destruct (ac_out x) as (t & Ht & HO). exists 0%nat. eexists. exists t. split; [reflexivity|]. split; [exact Ht|].
    intros KK. specialize (KK 0%nat (V3 1 0 0) 1 eq_refl eq_refl). unfold vdot in KK. cbn [vx vy vz] in KK. lra. }
  intros scaled wg quadprog glpk QO QS LS. assert (HT : total [3] = 3) by (cbn; ring). split.
  - destruct (call_opt scaled wg quadprog glpk QO ac_pb [3] ac_plannable (PerPhase 1) _ (V3 1 0 0) (ac_cv (V3 1 0 0)) (le_n 1) eq_refl (or_introl eq_refl)) as (r & _ & _ & _ & _ & E & Hs & _).
    + rewrite HT. apply ac_curve.
    + intros i c t Hc (j & d & Hj & Hd & ->). destruct i as [|i]; [|destruct i; discriminate Hd]. injection Hc as <-. injection Hd as <-. split; [|discriminate].
      split.
      * intros [|k] K b HK Hb; [|destruct k; discriminate HK]. injection HK as <-. injection Hb as <-.
        destruct j as [|[|j]]; [| |lia].
        -- replace (phase_start [3] 0 + INR 0 / INR 1 * 3) with (3 * 0) by (unfold phase_start; cbn; field). pose proof (ac_pos (V3 1 0 0) 0) as P.
           unfold vdot; cbn [vx vy vz] in *. rewrite P. lra.
        -- replace (phase_start [3] 0 + INR 1 / INR 1 * 3) with (3 * 1) by (unfold phase_start; cbn; field). pose proof (ac_pos (V3 1 0 0) 1) as P.
           unfold vdot; cbn [vx vy vz] in *. rewrite P. lra.
      * destruct (ac_deriv (V3 1 0 0) (phase_start [3] 0 + INR j / INR 1 * 3)) as [a Ha]. eexists _, a. split; [reflexivity|]. split; [exact Ha|constructor].
    + exists r. split; assumption.
  - intros dt solver r Hdt E. destruct (rc_success r) eqn:Hs; [exfalso|reflexivity].
    destruct (c17_plan scaled wg quadprog glpk QS LS ac_pb [3] dt solver r (proj1 ac_plannable) SP Hdt E Hs) as ((_ & (x & Ex & Hcv) & _) & HK).
    rewrite HT, ac_curve in Hcv. injection Hcv as Hcv.
    assert (NZ : plan_no_zero_point r).
    { intros q Hq HZ. rewrite <- Hcv in Hq. rewrite Ex. cbn [ac_cv bc_pts In] in Hq.
      assert (Z : forall a, 1 <= a -> vec_isZero (V3 a 0 0) = true -> False).
      { intros a Ha. unfold vec_isZero, coeff_isZero, isZero_prec. cbn [vx vy vz]. rewrite (Rabs_right a) by lra. destruct (Rle_dec a _); [lra|discriminate]. }
      destruct Hq as [<-|[<-|[<-|[<-|[]]]]]; [exfalso; apply (Z 1); [lra|exact HZ]|exfalso; apply (Z 2); [lra|exact HZ]|reflexivity|exfalso; apply (Z 1); [lra|exact HZ]]. }
    destruct (ac_out x) as (t & Ht & HO). destruct (HK NZ 0%nat _ t eq_refl Ht) as (KK & _).
    specialize (KK 0%nat (V3 1 0 0) 1 eq_refl eq_refl). rewrite <- Hcv in KK. unfold vdot in KK. cbn [vx vy vz] in KK. lra.
Qed.
Lemma c97_converse : exists p Ts, plannable p Ts /\ splittable Ts /\ representation p = DOUBLE_DESCRIPTION /\
  (forall x cv, com_curve p (total Ts) x = Ok cv -> exists i c t, nth_error (contacts p) i = Some c /\ in_phase Ts i t /\ ~ kin_ok c (cv_fun cv t)) /\
  forall scaled wg quadprog glpk, qp_solves quadprog -> qp_sound quadprog -> lp_sound glpk ->
  (exists r, call scaled wg quadprog glpk p Ts (PerPhase 1) = Ok r /\ rc_success r = true) /\
  forall dt solver r, dt <= 0 -> computeCOMTraj scaled wg quadprog glpk p Ts dt solver = Ok r -> rc_success r = false.
Proof. exists ac_pb, [3]. split; [exact ac_plannable|]. split; [exact ac_split|]. split; [reflexivity|exact c97_refuted]. Qed.
