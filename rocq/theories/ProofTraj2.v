(** From a solver's answer to a trajectory (C16, C17, C18, C24). *)
From Verif Require Import Vec SpecBezier SpecTime ModelData ModelDispatch ModelUtils ModelRows ModelCom ModelNd ModelCont ModelSolver ModelTraj
  SpecCom SpecWp SpecCtr SpecCont SpecSolver SpecTraj ProofBezier ProofCurve ProofWaypoints ProofWaypoints2 ProofTime ProofCom ProofCom2 ProofCom3
  ProofNd ProofCont3 ProofCont5 ProofCont9 ProofSolver ProofSolver2 ProofTraj.
Open Scope R_scope.

(** ** Derivatives of the returned curve *)
Lemma nd_diffs_v P : nd_diffs vec3 vsub P = vdiffs P.
Proof. induction P as [|a P IH]; [reflexivity|]. destruct P; [reflexivity|]. cbn [nd_diffs vdiffs] in *. rewrite IH. reflexivity. Qed.

Lemma is_deriv_scal k f t l : is_deriv f t l -> is_deriv (fun u => vscal k (f u)) t (vscal k l).
Proof.
  intros (A & B & C). unfold vscal; cbn [vx vy vz].
  split; [|split]; cbn [vx vy vz]; apply (derivable_pt_lim_scal _ k); assumption.
Qed.
Lemma bez3_scal k P s : bez3 (map (vscal k) P) s = vscal k (bez3 P s).
Proof.
  unfold bez3, vscal; cbn [vx vy vz]. rewrite !map_map. cbn [vx vy vz].
  f_equal; rewrite <- bezl_scal_list, map_map; reflexivity.
Qed.
Lemma bez3_nil s : bez3 [] s = vzero.
Proof. unfold bez3, bezl, bez, sumf, vzero; cbn. f_equal; ring. Qed.
Lemma bez3_zero s : bez3 [vzero] s = vzero.
Proof. unfold bez3, bezl, bez, sumf, vzero; cbn. f_equal; ring. Qed.

Definition nd_fun (cv : ndc vec3) (t : R) : vec3 := vscal (nd_mult cv) (curve (nd_pts cv) (nd_max cv) t).

Lemma nd_derivate1_ok scaled P T m : 0 < T -> exists P' m',
  nd_derivate1 vec3 vsub vscal vzero scaled (NDC P 0 T m) = Ok (NDC P' 0 T m') /\
  forall t, is_deriv (nd_fun (NDC P 0 T m)) t (nd_fun (NDC P' 0 T m') t).
Proof.
  intros HT. unfold nd_derivate1. cbn [nd_pts nd_min nd_max nd_mult]. rewrite Rminus_0_r, nd_diffs_v.
  set (k := if scaled then _ else _). set (Q := match _ with [] => _ | _ => _ end).
  rewrite nd_make_ok; [|unfold Q; destruct (map _ _); discriminate|lra].
  eexists _, _. split; [reflexivity|]. intros t.
  pose proof (is_deriv_scal m _ _ _ (curve_is_deriv P T t)) as HD. unfold nd_fun; cbn [nd_pts nd_max nd_mult].
  match goal with |- is_deriv _ _ ?v => replace v with (vscal m (curve (hodo T P) T t)) end; [exact HD|].
  unfold curve, hodo. assert (EQ : bez3 Q (t / T) = vscal k (bez3 (vdiffs P) (t / T))).
  { unfold Q. destruct (vdiffs P) as [|d ds] eqn:E; cbn [map].
    - rewrite bez3_zero, bez3_nil. unfold vscal, vzero; cbn. f_equal; ring.
    - rewrite <- bez3_scal. reflexivity. }
  rewrite EQ, bez3_scal. unfold k. rewrite Nat.sub_1_r.
  destruct scaled; unfold vscal; cbn [vx vy vz]; f_equal; field; lra.
Qed.

Lemma nd_derivate_ok scaled T : 0 < T -> forall k P m, exists P' m',
  nd_derivate vec3 vsub vscal vzero scaled k (NDC P 0 T m) = Ok (NDC P' 0 T m') /\
  forall t, is_deriv_n k (nd_fun (NDC P 0 T m)) t (nd_fun (NDC P' 0 T m') t).
Proof.
  intros HT. induction k as [|k IH]; intros P m.
  - exists P, m. split; [reflexivity|]. intros t. reflexivity.
  - destruct (nd_derivate1_ok scaled P T m HT) as (P1 & m1 & E1 & H1). cbn [nd_derivate]. rewrite E1. cbn [bind].
    destruct (IH P1 m1) as (P' & m' & E & H). exists P', m'. split; [exact E|]. intros t. exists (nd_fun (NDC P1 0 T m1)).
    split; [exact H1|apply H].
Qed.
Lemma is_deriv_ext f g t l : (forall u, f u = g u) -> is_deriv f t l -> is_deriv g t l.
Proof.
  intros E (A & B & C). split; [|split]; (eapply derivable_pt_lim_ext; [|eassumption]); intros u; cbn; rewrite E; reflexivity.
Qed.
Lemma is_deriv_n_ext k : forall f g t l, (forall u, f u = g u) -> is_deriv_n k f t l -> is_deriv_n k g t l.
Proof.
  destruct k as [|k]; intros f g t l E H; cbn in *; [rewrite <- E; exact H|].
  destruct H as (f' & H1 & H2). exists f'. split; [|exact H2]. intros u. eapply is_deriv_ext; [exact E|apply H1].
Qed.

Lemma bc_derivate_ok scaled cv t k : 0 < bc_T cv -> 0 <= t <= bc_T cv -> exists v,
  bc_derivate scaled cv t k = Ok v /\ is_deriv_n k (cv_fun cv) t v.
Proof.
  intros HT Ht. unfold bc_derivate. destruct (nd_derivate_ok scaled (bc_T cv) HT k (bc_pts cv) 1) as (P' & m' & E & H).
  rewrite E. cbn [bind]. unfold nd_value; cbn [nd_min nd_max nd_mult nd_pts].
  destruct (Rlt_dec t 0); [lra|]. destruct (Rlt_dec (bc_T cv) t); [lra|]. rewrite !Rminus_0_r.
  eexists. split; [reflexivity|]. specialize (H t). unfold nd_fun in H at 2; cbn [nd_pts nd_max nd_mult] in H.
  eapply is_deriv_n_ext; [|exact H]. intros u. unfold nd_fun, cv_fun; cbn [nd_pts nd_max nd_mult].
  destruct (curve (bc_pts cv) (bc_T cv) u). unfold vscal; cbn. f_equal; ring.
Qed.

(** ** genTraj *)
Lemma genTraj_ok scaled res pData Ts x beta : well_posed pData Ts -> rd_success res = true -> rd_x res = l3 x ++ beta ->
  exists r, genTraj scaled res pData (total Ts) = Ok r /\ rc_success r = true /\ rc_cost r = rd_cost res /\ rc_x r = l3 x /\
    com_curve pData (total Ts) x = Ok (rc_c r) /\ plan_curve pData Ts r.
Proof.
  intros WP Hs Hx. pose proof WP as (Hf & Hcap & _). pose proof (total_posd pData Ts WP) as TP.
  destruct (com_curve_total pData (total Ts) x Hf Hcap TP) as [cv Hcv].
  destruct (boundary_ok pData (total Ts) x cv Hf Hcv) as (HTc & _ & HB).
  unfold genTraj. rewrite Hs, Hx. cbn [l3 app head3 bind].
  pose proof Hcv as Hcv'. unfold com_curve in Hcv'. destruct (computeConstantWaypoints pData (total Ts)) as [pi| |]; try discriminate.
  cbn [bind] in *. assert (Ex : V3 (vx x) (vy x) (vz x) = x) by (destruct x; reflexivity). rewrite Ex, Hcv'. cbn [bind].
  destruct (bc_derivate_ok scaled cv (bc_T cv) 1) as (v & Ev & Hv); [lra..|]. rewrite Ev. cbn [bind].
  destruct (bc_derivate_ok scaled cv (bc_T cv) 2) as (a & Ea & Ha); [lra..|]. rewrite Ea. cbn [bind].
  unfold mk_bezier. destruct (Rle_dec (total Ts) 0) as [?|_]; [lra|]. cbn [bind].
  eexists. split; [reflexivity|]. cbn [rc_success rc_cost rc_x rc_c]. repeat (split; [first [reflexivity|exact Hcv]|]).
  unfold plan_curve. cbn [rc_c rc_x rc_dc1 rc_ddc1 rc_dL]. split; [exact HTc|]. split; [exists x; split; [reflexivity|exact Hcv]|].
  split; [exact HB|]. rewrite HTc in Hv, Ha. split; [exact Hv|]. split; [exact Ha|reflexivity].
Qed.
Lemma genTraj_fail scaled res pData T : rd_success res = false -> genTraj scaled res pData T = Ok default_result.
Proof. intros H. unfold genTraj. rewrite H. reflexivity. Qed.

(** ** What is known of a successful answer, both solvers *)
Lemma glpk_cols_len miB maB g : forall n i c, glpk_cols miB maB g i n = Ok c -> length c = n.
Proof.
  induction n as [|n IH]; intros i c; cbn; [intros H; injection H as <-; reflexivity|].
  destruct (get miB i); cbn; try discriminate. destruct (get maB i); cbn; try discriminate. destruct (get g i); cbn; try discriminate.
  destruct (glpk_cols miB maB g (S i) n) eqn:E; cbn; try discriminate. intros H; injection H as <-. cbn. f_equal. eauto.
Qed.
Lemma glpk_problem_cols g CE ce0 CI ci0 minB maxB n p : glpk_problem g CE ce0 CI ci0 minB maxB n = Ok p -> length (lp_cols p) = n.
Proof.
  unfold glpk_problem. destruct (Nat.eqb _ 0); [discriminate|]. destruct (glpk_rows UP _ _ _ _ _); cbn; try discriminate.
  destruct (glpk_rows FX _ _ _ _ _); cbn; try discriminate. destruct (Nat.eqb n 0); [discriminate|].
  destruct (glpk_cols _ _ _ _ _) eqn:E; cbn; try discriminate. intros H; injection H as <-. cbn. eapply glpk_cols_len; eauto.
Qed.

Lemma above_lp lo x : above lo x -> lp_above lo x.
Proof.
  intros [->|H]; [left; reflexivity|right]. induction H; constructor; auto.
Qed.

Lemma solve_sound wg quadprog glpk A b D d H g init minB solver r :
  qp_sound quadprog -> lp_sound glpk ->
  mx_wf A -> mx_wf D -> mx_cols A = length init -> mx_cols D = length init ->
  length b = length (mx_rows A) -> length d = length (mx_rows D) ->
  (minB = [] \/ length minB = length init) -> length g = length init -> init <> [] ->
  solve wg quadprog glpk A b D d H g init minB [] solver = Ok r -> rd_success r = true ->
  length (rd_x r) = length init /\ leM A b (rd_x r) /\ eqM D d (rd_x r) /\ lp_above minB (rd_x r) /\
  (solver = SOLVER_QUADPROG -> above minB (rd_x r)).
Proof.
  intros QS LS WA WD CA CD Lb Ld HM Lg NE E Hs.
  destruct (Z.eq_dec solver SOLVER_QUADPROG) as [->|N1].
  - rewrite <- CA in HM. destruct (c37_ok A b D d H g init minB WA Lb HM) as (q & _ & _ & HF & HE). rewrite HE in E. clear HE.
    destruct (quadprog q init) as [[[st x] obj]| |] eqn:EQ; cbn in E; try discriminate. injection E as <-.
    destruct (Z.eqb_spec st EIQUADPROG_FAST_OPTIMAL) as [->|]; [|discriminate]. cbn [rd_x].
    destruct (QS _ _ _ _ EQ) as [L F]. rewrite <- CA in L. apply HF in F; [|exact L]. destruct F as (F1 & F2 & F3).
    split; [now rewrite <- CA|]. split; [exact F1|]. split; [exact F2|]. split; [apply above_lp; exact F3|auto].
  - unfold solve in E. destruct (Z.eqb_spec solver SOLVER_QUADPROG) as [?|_]; [tauto|].
    destruct (wg && Z.eqb solver SOLVER_GLPK)%bool; [|discriminate].
    destruct (glpk_problem g D d A b minB [] (length init)) as [p| |] eqn:EP; try discriminate. cbn [bind] in E.
    assert (NR : (1 <= length (mx_rows A) + length (mx_rows D))%nat).
    { unfold glpk_problem in EP. destruct (Nat.eqb_spec (length (mx_rows D) + length (mx_rows A)) 0); [discriminate|lia]. }
    assert (Hn : (1 <= length init)%nat) by (destruct init; [congruence|cbn; lia]).
    destruct (glpk_problem_ok g D d A b minB [] (length init) WA WD CA CD Lb Ld HM (or_introl eq_refl) Lg Hn NR) as [H1 H2].
    destruct (Z_le_gt_dec (Z.of_nat (nonzeros A + nonzeros D)) 20000) as [Hz|Hz]; [|rewrite H2 in EP by lia; discriminate].
    destruct (H1 Hz) as (p' & EP' & HP). rewrite EP in EP'. injection EP' as <-.
    destruct (glpk p) as [[[st obj] x]| |] eqn:EQ; cbn in E; try discriminate. injection E as <-. cbn [rd_success rd_x] in *.
    destruct (Z.eqb_spec st GLP_OPT) as [->|]; [|discriminate].
    destruct (LS _ _ _ EQ) as [L F]. rewrite (glpk_problem_cols _ _ _ _ _ _ _ _ _ EP) in L.
    apply (proj1 (HP x L)) in F. destruct F as (F1 & F2 & F3 & _). split; [exact L|]. split; [exact F1|]. split; [exact F2|]. split; [exact F3|tauto].
Qed.

Lemma forall2_diag {A} (P : A -> A -> Prop) l : Forall2 P l l <-> Forall (fun a => P a a) l.
Proof.
  split.
  - induction l as [|a l IH]; intros H; inversion H; subst; constructor; auto.
  - induction 1; constructor; auto.
Qed.
Lemma leM_sat Ab x : leM (mat3cols Ab) (map snd Ab) (l3 x) <-> sat Ab x.
Proof.
  unfold leM, mat3cols, sat. cbn [mx_rows]. rewrite forall2_map, forall2_diag. split; intros H; (eapply Forall_impl; [|exact H]);
  intros r Hr; cbv beta in *; rewrite rdot_l3 in *; exact Hr.
Qed.
Lemma leM_satX n rows v : leM (MX n (map fst rows)) (map snd rows) v <-> satX rows v.
Proof. unfold leM, satX. cbn [mx_rows]. rewrite forall2_map, forall2_diag. reflexivity. Qed.
Lemma eqM_eqX n rows v : eqM (MX n (map fst rows)) (map snd rows) v <-> eqX rows v.
Proof. unfold eqM, eqX. cbn [mx_rows]. rewrite forall2_map, forall2_diag. reflexivity. Qed.
Lemma mat3cols_wf Ab : mx_wf (mat3cols Ab).
Proof. unfold mx_wf, mat3cols; cbn [mx_rows mx_cols]. apply Forall_forall. intros r H. apply in_map_iff in H. destruct H as (a & <- & _). reflexivity. Qed.
Lemma list3 (l : list R) : length l = 3%nat -> exists x, l = l3 x.
Proof. destruct l as [|a [|b [|c [|]]]]; try discriminate. intros _. exists (V3 a b c). reflexivity. Qed.
Lemma list3n n (l : list R) : length l = (3 + n)%nat -> exists x beta, l = l3 x ++ beta /\ length beta = n.
Proof. destruct l as [|a [|b [|c l]]]; try discriminate. intros H. exists (V3 a b c), l. split; [reflexivity|cbn in H; lia]. Qed.

Section Plan.
  Variable scaled wg : bool.
  Variable quadprog : qp -> list R -> outcome (Z * list R * R).
  Variable glpk : lp -> outcome (Z * R * list R).
  Hypothesis QS : qp_sound quadprog.
  Hypothesis LS : lp_sound glpk.

  Lemma solve_result pData Ts A b D d H g init minB solver r res :
    well_posed pData Ts -> rc_success r = true ->
    solve wg quadprog glpk A b D d H g init minB [] solver = Ok res -> genTraj scaled res pData (total Ts) = Ok r ->
    mx_wf A -> mx_wf D -> mx_cols A = length init -> mx_cols D = length init ->
    length b = length (mx_rows A) -> length d = length (mx_rows D) ->
    (minB = [] \/ length minB = length init) -> length g = length init -> (3 <= length init)%nat ->
    exists x beta, (length beta = length init - 3)%nat /\ leM A b (l3 x ++ beta) /\ eqM D d (l3 x ++ beta) /\ lp_above minB (l3 x ++ beta) /\
      rc_x r = l3 x /\ com_curve pData (total Ts) x = Ok (rc_c r) /\ plan_curve pData Ts r /\ rc_cost r = rd_cost res.
  Proof.
    intros WP Hs ES EG WA WD CA CD Lb Ld HM Lg HN.
    destruct (rd_success res) eqn:Er; [|rewrite genTraj_fail in EG by exact Er; injection EG as <-; discriminate].
    assert (NE : init <> []) by (destruct init; [cbn in HN; lia|discriminate]).
    destruct (solve_sound _ _ _ _ _ _ _ _ _ _ _ _ _ QS LS WA WD CA CD Lb Ld HM Lg NE ES Er) as (L & F1 & F2 & F3 & _).
    destruct (list3n (length init - 3) (rd_x res) ltac:(lia)) as (x & beta & Ex & Lb').
    destruct (genTraj_ok scaled res pData Ts x beta WP Er Ex) as (r' & E' & _ & Hc & Hrx & Hcv & Hp). rewrite EG in E'. injection E' as <-.
    exists x, beta. rewrite Ex in *. repeat (split; [assumption|]). assumption.
  Qed.

  Lemma gencost_dims pData Ts ta n H g : well_posed pData Ts -> times_of Ts ta ->
    genCostFunction pData Ts (total Ts) ta (3 + n) = Ok (H, g) -> length g = (3 + n)%nat.
  Proof.
    intros WP HT E. destruct (Z.eq_dec (costFunction pData) ACCELERATION) as [HC|HC].
    - destruct (c22_acc pData Ts ta n WP HT HC) as (H' & g' & K & E' & _ & _ & L & _). congruence.
    - destruct (Z.eq_dec (costFunction pData) DISTANCE_TRAVELED) as [HD|HD].
      + destruct (c22_dist pData Ts (total Ts) ta n HD) as (H' & g' & K & E' & _ & _ & L & _). congruence.
      + destruct (Z.eq_dec (costFunction pData) TARGET_END_VELOCITY) as [HV|HV].
        * rewrite c23_ok in E by exact HV. discriminate.
        * rewrite c22_unknown in E by assumption. discriminate.
  Qed.

  Lemma wp_len pData Ts : well_posed pData Ts -> negb (Nat.eqb (length Ts) (length (contacts pData))) = false.
  Proof. intros (_ & _ & _ & _ & -> & _). rewrite Nat.eqb_refl. reflexivity. Qed.

  Lemma plan_step pData Ts dt solver r ta Ab : well_posed pData Ts -> 0 < dt ->
    computeDiscretizedTime Ts dt = Ok ta -> computeConstraintsOneStep pData Ts (total Ts) ta = Ok Ab ->
    computeCOMTraj scaled wg quadprog glpk pData Ts dt solver = Ok r -> rc_success r = true ->
    exists x, sat Ab x /\ com_curve pData (total Ts) x = Ok (rc_c r) /\ plan_curve pData Ts r.
  Proof.
    intros WP Hdt Et EA E Hs. unfold computeCOMTraj in E. rewrite (wp_len pData Ts WP), total_sumR in E.
    destruct (Rlt_dec 0 dt); [|tauto]. rewrite Et in E. cbn [bind] in E. rewrite EA in E. cbn [bind mx_cols mat3cols] in E.
    destruct (genCostFunction pData Ts (total Ts) ta 3) as [[H g]| |] eqn:EC; try discriminate. cbn [bind fst snd] in E.
    destruct (solve _ _ _ _ _ _ _ _ _ _ _ _ _) as [res| |] eqn:ES; try discriminate. cbn [bind] in E.
    pose proof (gencost_dims pData Ts ta 0 H g WP (step_times_of Ts dt ta Hdt (wp_pos _ _ WP) Et) EC) as Lg.
    destruct (solve_result pData Ts _ _ _ _ _ _ _ _ _ r res WP Hs ES E) as (x & beta & Lb & F & _ & _ & Hrx & Hcv & Hp & _);
      try reflexivity; auto.
    { apply mat3cols_wf. } { constructor. } { cbn [mx_rows mat3cols]. now rewrite !map_length. }
    exists x. split; [|split; assumption]. destruct beta; [|discriminate]. rewrite app_nil_r in F. apply leM_sat. exact F.
  Qed.

  Lemma plan_fixed pData Ts p r Ab : well_posed pData Ts -> (1 <= p)%nat ->
    computeConstraintsOneStep pData Ts (total Ts) (computeDiscretizedTimeFixed Ts p) = Ok Ab ->
    computeCOMTrajFixedSize scaled wg quadprog glpk pData Ts p = Ok r -> rc_success r = true ->
    exists x, sat Ab x /\ com_curve pData (total Ts) x = Ok (rc_c r) /\ plan_curve pData Ts r.
  Proof.
    intros WP Hp EA E Hs. unfold computeCOMTrajFixedSize in E. rewrite (wp_len pData Ts WP), total_sumR in E.
    rewrite EA in E. cbn [bind] in E.
    destruct (genCostFunction pData Ts (total Ts) _ 3) as [[H g]| |] eqn:EC; try discriminate. cbn [bind fst snd] in E.
    unfold solve_noeq in E.
    destruct (solve _ _ _ _ _ _ _ _ _ _ _ _ _) as [res| |] eqn:ES; try discriminate. cbn [bind] in E.
    pose proof (gencost_dims pData Ts _ 0 H g WP (fixed_times_of Ts p Hp (wp_ne _ _ WP) (wp_pos _ _ WP)) EC) as Lg.
    destruct (solve_result pData Ts _ _ _ _ _ _ _ _ _ r res WP Hs ES E) as (x & beta & Lb & F & _ & _ & Hrx & Hcv & Hpl & _);
      try reflexivity; auto.
    { apply mat3cols_wf. } { constructor. } { cbn [mx_rows mat3cols]. now rewrite !map_length. }
    exists x. split; [|split; assumption]. destruct beta; [|discriminate]. rewrite app_nil_r in F. apply leM_sat. exact F.
  Qed.

  Lemma plan_cont pData Ts dt solver r out : well_posed pData Ts -> splittable Ts -> dt <= 0 ->
    computeConstraintsContinuous scaled pData Ts = Ok out ->
    computeCOMTraj scaled wg quadprog glpk pData Ts dt solver = Ok r -> rc_success r = true ->
    exists x beta, satX (co_A out) (l3 x ++ beta) /\ eqX (co_D out) (l3 x ++ beta) /\ lp_above (co_min out) (l3 x ++ beta) /\
      (3 + length beta = co_cols out)%nat /\ rc_x r = l3 x /\
      com_curve pData (total Ts) x = Ok (rc_c r) /\ plan_curve pData Ts r.
  Proof.
    intros WP SP Hdt EC0 E Hs. unfold computeCOMTraj in E. rewrite (wp_len pData Ts WP), total_sumR in E.
    destruct (Rlt_dec 0 dt); [lra|]. rewrite EC0 in E. cbn [bind mx_cols] in E.
    destruct (c19_ok scaled pData Ts WP SP) as (ws & st & fdim & out' & _ & _ & Eo & _ & _ & _ & _ & _ & _ & _ & Hc & HA & HD).
    rewrite EC0 in Eo. injection Eo as <-.
    destruct (genCostFunction pData Ts (total Ts) _ (co_cols out)) as [[H g]| |] eqn:EC; try discriminate. cbn [bind fst snd] in E.
    destruct (solve _ _ _ _ _ _ _ _ _ _ _ _ _) as [res| |] eqn:ES; try discriminate. cbn [bind] in E.
    rewrite Hc in EC. pose proof (gencost_dims pData Ts _ fdim H g WP (fixed_times_of Ts 7 ltac:(lia) (wp_ne _ _ WP) (wp_pos _ _ WP)) EC) as Lg.
    assert (Hmin : co_min out = [] \/ length (co_min out) = co_cols out).
    { unfold computeConstraintsContinuous in EC0. destruct (cont_raw scaled pData Ts) as [[fd s]| |]; cbn [bind fst snd] in EC0; try discriminate.
      destruct (mapM _ _); cbn [bind] in EC0; try discriminate. injection EC0 as <-. cbn [co_min co_cols].
      destruct (Z.eqb (representation pData) DOUBLE_DESCRIPTION); [left; reflexivity|right; cbn; rewrite repeat_length; reflexivity]. }
    destruct (solve_result pData Ts _ _ _ _ _ _ _ _ _ r res WP Hs ES E) as (x & beta & Lb & F & FD & FM & Hrx & Hcv & Hpl & _);
      try (rewrite repeat_length).
    { unfold mx_wf; cbn [mx_rows mx_cols]. rewrite Hc. apply Forall_map. exact HA. }
    { unfold mx_wf; cbn [mx_rows mx_cols]. rewrite Hc. apply Forall_map. exact HD. }
    { reflexivity. } { reflexivity. } { cbn [mx_rows]. now rewrite !map_length. } { cbn [mx_rows]. now rewrite !map_length. }
    { exact Hmin. } { now rewrite Hc. } { rewrite Hc. lia. }
    exists x, beta. split; [apply leM_satX in F; exact F|]. split; [apply eqM_eqX in FD; exact FD|]. split; [exact FM|].
    rewrite repeat_length in Lb. split; [rewrite Hc in *; lia|]. split; [assumption|]. split; assumption.
  Qed.

  (** ** C16 *)
  Lemma c16_step pData Ts dt solver g r : well_posed pData Ts -> 0 < dt -> same_gravity pData g -> In (flag_of pData) exact_w_flags ->
    computeCOMTraj scaled wg quadprog glpk pData Ts dt solver = Ok r -> rc_success r = true ->
    plan_curve pData Ts r /\
    forall i c t, nth_error (contacts pData) i = Some c -> sampled_step Ts dt i t ->
      contact_ok pData 0 c (cv_fun (rc_c r)) t /\ accel_ok pData (cv_fun (rc_c r)) t.
  Proof.
    intros WP Hdt SG Hf E Hs. destruct (c15_step pData Ts dt g WP Hdt SG Hf) as (ta & rows & Et & EA & HM).
    destruct (plan_step pData Ts dt solver r ta rows WP Hdt Et EA E Hs) as (x & F & Hcv & Hp). split; [exact Hp|].
    apply (HM x _ Hcv). exact F.
  Qed.
  Lemma c16_step_dec pData Ts dt solver g G r M : well_posed pData Ts -> 0 < dt -> same_gravity pData g -> within G g ->
    In (flag_of pData) dec_w_flags ->
    computeCOMTraj scaled wg quadprog glpk pData Ts dt solver = Ok r -> rc_success r = true -> Forall (within M) (bc_pts (rc_c r)) ->
    plan_curve pData Ts r /\
    forall i c t, nth_error (contacts pData) i = Some c -> sampled_step Ts dt i t ->
      contact_ok pData (3 * (err_force M (total Ts) + err_moment G M (total Ts))) c (cv_fun (rc_c r)) t /\ accel_ok pData (cv_fun (rc_c r)) t.
  Proof.
    intros WP Hdt SG HG Hf E Hs HW. destruct (c15_step_dec pData Ts dt g G WP Hdt SG HG Hf) as (ta & rows & Et & EA & HM).
    destruct (plan_step pData Ts dt solver r ta rows WP Hdt Et EA E Hs) as (x & F & Hcv & Hp). split; [exact Hp|].
    apply (HM x _ M Hcv HW). exact F.
  Qed.
  Lemma c16_fixed pData Ts p g r : well_posed pData Ts -> (1 <= p)%nat -> same_gravity pData g -> In (flag_of pData) exact_w_flags ->
    computeCOMTrajFixedSize scaled wg quadprog glpk pData Ts p = Ok r -> rc_success r = true ->
    plan_curve pData Ts r /\
    forall i c t, nth_error (contacts pData) i = Some c -> sampled_fixed Ts p i t ->
      contact_ok pData 0 c (cv_fun (rc_c r)) t /\ accel_ok pData (cv_fun (rc_c r)) t.
  Proof.
    intros WP Hp SG Hf E Hs. destruct (c15_fixed pData Ts p g WP Hp SG Hf) as (rows & EA & HM).
    destruct (plan_fixed pData Ts p r rows WP Hp EA E Hs) as (x & F & Hcv & Hpl). split; [exact Hpl|].
    apply (HM x _ Hcv). exact F.
  Qed.
  Lemma c16_fixed_dec pData Ts p g G r M : well_posed pData Ts -> (1 <= p)%nat -> same_gravity pData g -> within G g ->
    In (flag_of pData) dec_w_flags ->
    computeCOMTrajFixedSize scaled wg quadprog glpk pData Ts p = Ok r -> rc_success r = true -> Forall (within M) (bc_pts (rc_c r)) ->
    plan_curve pData Ts r /\
    forall i c t, nth_error (contacts pData) i = Some c -> sampled_fixed Ts p i t ->
      contact_ok pData (3 * (err_force M (total Ts) + err_moment G M (total Ts))) c (cv_fun (rc_c r)) t /\ accel_ok pData (cv_fun (rc_c r)) t.
  Proof.
    intros WP Hp SG HG Hf E Hs HW. destruct (c15_fixed_dec pData Ts p g G WP Hp SG HG Hf) as (rows & EA & HM).
    destruct (plan_fixed pData Ts p r rows WP Hp EA E Hs) as (x & F & Hcv & Hpl). split; [exact Hpl|].
    apply (HM x _ M Hcv HW). exact F.
  Qed.

  (** ** C17, C18 for plans *)
  Lemma plan_nz r x : rc_x r = l3 x -> plan_no_zero_point r -> no_zero_point (rc_c r) x.
  Proof.
    intros Ex H p Hin Hz. specialize (H p Hin Hz). rewrite Ex in H. unfold l3 in H. injection H as A B C. apply v3_eq; assumption.
  Qed.
  Lemma c17_plan pData Ts dt solver r : well_posed pData Ts -> splittable Ts -> dt <= 0 ->
    computeCOMTraj scaled wg quadprog glpk pData Ts dt solver = Ok r -> rc_success r = true ->
    plan_curve pData Ts r /\ (plan_no_zero_point r ->
    forall i c t, nth_error (contacts pData) i = Some c -> in_phase Ts i t ->
      kin_ok c (cv_fun (rc_c r) t) /\ accel_within (acc_bound scaled pData Ts) (cv_fun (rc_c r)) t).
  Proof.
    intros WP SP Hdt E Hs. destruct (c17_kin scaled pData Ts WP SP) as (out & Eo & HM).
    destruct (plan_cont pData Ts dt solver r out WP SP Hdt Eo E Hs) as (x & beta & F & _ & _ & _ & Hx & Hcv & Hp). split; [exact Hp|].
    intros NZ. exact (HM x beta _ Hcv (plan_nz r x Hx NZ) F).
  Qed.
  Lemma beta_nil (out : cont_out) (beta : list R) : (3 + length beta = co_cols out)%nat -> co_cols out = 3%nat -> beta = [].
  Proof. intros H1 H2. destruct beta; [reflexivity|cbn in H1; lia]. Qed.
  Lemma c17_plan_dd pData Ts dt solver g r : well_posed pData Ts -> splittable Ts -> dt <= 0 -> same_gravity pData g ->
    representation pData = DOUBLE_DESCRIPTION -> In (flag_of pData) exact_w_flags ->
    computeCOMTraj scaled wg quadprog glpk pData Ts dt solver = Ok r -> rc_success r = true -> plan_no_zero_point r ->
    forall i c t, nth_error (contacts pData) i = Some c -> in_phase Ts i t -> contact_ok pData 0 c (cv_fun (rc_c r)) t.
  Proof.
    intros WP SP Hdt SG HR Hf E Hs NZ. destruct (c17_dd scaled pData Ts g WP SP SG HR Hf) as (out & Eo & _ & _ & Hc & HM).
    destruct (plan_cont pData Ts dt solver r out WP SP Hdt Eo E Hs) as (x & beta & F & _ & _ & L & Hx & Hcv & Hp).
    rewrite (beta_nil out beta L Hc), app_nil_r in F. exact (HM x _ Hcv (plan_nz r x Hx NZ) F).
  Qed.
  Lemma c17_plan_dd_dec pData Ts dt solver g G r M : well_posed pData Ts -> splittable Ts -> dt <= 0 -> same_gravity pData g -> within G g ->
    representation pData = DOUBLE_DESCRIPTION -> In (flag_of pData) dec_w_flags ->
    computeCOMTraj scaled wg quadprog glpk pData Ts dt solver = Ok r -> rc_success r = true -> plan_no_zero_point r ->
    Forall (within M) (bc_pts (rc_c r)) ->
    forall i c t, nth_error (contacts pData) i = Some c -> in_phase Ts i t ->
      contact_ok pData (3 * (err_force M (total Ts) + err_moment G M (total Ts))) c (cv_fun (rc_c r)) t.
  Proof.
    intros WP SP Hdt SG HG HR Hf E Hs NZ HW. destruct (c17_dd_dec scaled pData Ts g G WP SP SG HG HR Hf) as (out & Eo & _ & _ & Hc & HM).
    destruct (plan_cont pData Ts dt solver r out WP SP Hdt Eo E Hs) as (x & beta & F & _ & _ & L & Hx & Hcv & Hp).
    rewrite (beta_nil out beta L Hc), app_nil_r in F. exact (HM x _ M Hcv (plan_nz r x Hx NZ) HW F).
  Qed.

  Lemma forces_lp out x beta pData Ts : representation pData <> DOUBLE_DESCRIPTION -> computeConstraintsContinuous scaled pData Ts = Ok out ->
    lp_above (co_min out) (l3 x ++ beta) -> ge_forces out beta.
  Proof.
    intros HR EC0 H. unfold computeConstraintsContinuous in EC0.
    destruct (cont_raw scaled pData Ts) as [[fd s]| |]; cbn [bind fst snd] in EC0; try discriminate.
    destruct (mapM _ _); cbn [bind] in EC0; try discriminate. injection EC0 as <-. unfold ge_forces. cbn [co_min] in *.
    destruct (Z.eqb_spec (representation pData) DOUBLE_DESCRIPTION); [tauto|]. destruct H as [H|H]; [discriminate|].
    cbn in H. inversion H as [|? ? ? ? _ H1]; subst. inversion H1 as [|? ? ? ? _ H2]; subst. inversion H2 as [|? ? ? ? _ H3]; subst.
    cbn. unfold geX. clear - H3. remember (repeat 0 fd) as z eqn:Ez. revert fd Ez.
    induction H3 as [|l v z' b' Hlv _ IH]; intros [|fd] Ez; try discriminate; [constructor|].
    cbn in Ez. injection Ez as -> Ez. constructor; [apply Hlv; lra|eapply IH; exact Ez].
  Qed.
  Lemma c18_plan pData Ts dt solver g r : well_posed pData Ts -> representation pData <> DOUBLE_DESCRIPTION -> long_phases Ts -> dt <= 0 ->
    same_gravity pData g -> In (flag_of pData) exact_w_flags -> cones_nested (contacts pData) ->
    computeCOMTraj scaled wg quadprog glpk pData Ts dt solver = Ok r -> rc_success r = true ->
    plan_curve pData Ts r /\
    forall i c ph t acc, nth_error (contacts pData) i = Some c -> cd_phase c = Some ph -> in_phase Ts i t ->
      is_deriv_n 2 (cv_fun (rc_c r)) t acc -> in_cone (cp_G ph) (giw (cp_mass ph) (cp_gravity ph) (cv_fun (rc_c r) t) acc).
  Proof.
    intros WP HR LP Hdt SG Hf CN E Hs. destruct (c18_nested scaled pData Ts WP HR g LP SG Hf CN) as (out & Eo & HM).
    destruct (plan_cont pData Ts dt solver r out WP (ProofCont7.long_split Ts LP) Hdt Eo E Hs) as (x & beta & _ & FD & FM & _ & Hx & Hcv & Hp).
    split; [exact Hp|]. exact (HM x _ beta Hcv (forces_lp out x beta pData Ts HR Eo FM) FD).
  Qed.
  Lemma c18_plan_dec pData Ts dt solver g G r M : well_posed pData Ts -> representation pData <> DOUBLE_DESCRIPTION -> long_phases Ts -> dt <= 0 ->
    same_gravity pData g -> within G g -> In (flag_of pData) dec_w_flags -> cones_nested (contacts pData) ->
    computeCOMTraj scaled wg quadprog glpk pData Ts dt solver = Ok r -> rc_success r = true -> Forall (within M) (bc_pts (rc_c r)) ->
    plan_curve pData Ts r /\
    forall i c ph t acc, nth_error (contacts pData) i = Some c -> cd_phase c = Some ph -> in_phase Ts i t ->
      is_deriv_n 2 (cv_fun (rc_c r)) t acc -> exists w, in_cone (cp_G ph) w /\
      let d := v6sub w (giw (cp_mass ph) (cp_gravity ph) (cv_fun (rc_c r) t) acc) in
      within (cp_mass ph * err_force M (total Ts)) (fst d) /\ within (cp_mass ph * err_moment G M (total Ts)) (snd d).
  Proof.
    intros WP HR LP Hdt SG HG Hf CN E Hs HW. destruct (c18_nested_dec scaled pData Ts WP HR g G LP SG HG Hf CN) as (out & Eo & HM).
    destruct (plan_cont pData Ts dt solver r out WP (ProofCont7.long_split Ts LP) Hdt Eo E Hs) as (x & beta & _ & FD & FM & _ & Hx & Hcv & Hp).
    split; [exact Hp|]. exact (HM x _ beta M Hcv HW (forces_lp out x beta pData Ts HR Eo FM) FD).
  Qed.
End Plan.

(** ** C24: for arbitrary back ends *)
Section Results.
  Variable scaled wg : bool.
  Variable quadprog : qp -> list R -> outcome (Z * list R * R).
  Variable glpk : lp -> outcome (Z * R * list R).

  Lemma c24_mismatch pData Ts dt solver : length Ts <> length (contacts pData) ->
    computeCOMTraj scaled wg quadprog glpk pData Ts dt solver = Throw /\
    forall p, computeCOMTrajFixedSize scaled wg quadprog glpk pData Ts p = Throw.
  Proof.
    intros H. unfold computeCOMTraj, computeCOMTrajFixedSize. destruct (Nat.eqb_spec (length Ts) (length (contacts pData))); [tauto|].
    split; reflexivity.
  Qed.
  Lemma genTraj_inv res pData T r : genTraj scaled res pData T = Ok r ->
    (rd_success res = false /\ r = default_result) \/
    (rd_success res = true /\ rc_success r = true /\ rc_cost r = rd_cost res /\
     exists x beta, rd_x res = l3 x ++ beta /\ rc_x r = l3 x /\ com_curve pData T x = Ok (rc_c r)).
  Proof.
    unfold genTraj. destruct (rd_success res); [|intros H; injection H as <-; left; auto]. intros H; right.
    destruct (rd_x res) as [|a [|b [|c beta]]]; cbn [head3 bind] in H; try discriminate.
    destruct (computeConstantWaypoints pData T) as [pi| |] eqn:Ep; cbn [bind] in H; try discriminate.
    destruct (computeBezierCurve (flag_of pData) T pi (V3 a b c)) as [cv| |] eqn:Ec; cbn [bind] in H; try discriminate.
    destruct (bc_derivate scaled cv (bc_T cv) 1); cbn [bind] in H; try discriminate.
    destruct (bc_derivate scaled cv (bc_T cv) 2); cbn [bind] in H; try discriminate.
    destruct (mk_bezier [vzero] T); cbn [bind] in H; try discriminate. injection H as <-. cbn.
    repeat (split; [reflexivity|]). exists (V3 a b c), beta. repeat (split; [reflexivity|]). unfold com_curve. rewrite Ep. exact Ec.
  Qed.
  Lemma solve_inv A b D d H g init minB solver res : solve wg quadprog glpk A b D d H g init minB [] solver = Ok res ->
    (exists q st x obj, quadprog q init = Ok (st, x, obj) /\ (rd_success res = true <-> st = EIQUADPROG_FAST_OPTIMAL) /\
       (rd_success res = true -> rd_x res = x /\ rd_cost res = obj)) \/
    (exists p st x obj, glpk p = Ok (st, obj, x) /\ (rd_success res = true <-> st = GLP_OPT) /\
       (rd_success res = true -> rd_x res = x /\ rd_cost res = obj)).
  Proof.
    unfold solve. destruct (Z.eqb solver SOLVER_QUADPROG).
    - intros E. left. destruct (addBoundaryConstraintsQuadProg _ _ _ _) as [CIp| |]; cbn [bind] in E; try discriminate.
      destruct (quadprog _ init) as [[[st x] obj]| |] eqn:EQ; cbn [bind] in E; try discriminate. injection E as <-. cbn.
      eexists _, st, x, obj. split; [exact EQ|]. destruct (Z.eqb_spec st EIQUADPROG_FAST_OPTIMAL); (split; [split; [intros; congruence|intros; congruence]|]);
      intros; try discriminate; split; reflexivity.
    - destruct (wg && _)%bool; [|discriminate]. intros E. right.
      destruct (glpk_problem _ _ _ _ _ _ _ _) as [p| |]; cbn [bind] in E; try discriminate.
      destruct (glpk p) as [[[st obj] x]| |] eqn:EQ; cbn [bind] in E; try discriminate. injection E as <-. cbn.
      exists p, st, x, obj. split; [exact EQ|]. destruct (Z.eqb_spec st GLP_OPT); (split; [split; [intros; congruence|intros; congruence]|]);
      intros; try discriminate; split; reflexivity.
  Qed.
  Lemma answered_ok A b D d H g init minB solver res pData Ts r :
    solve wg quadprog glpk A b D d H g init minB [] solver = Ok res -> genTraj scaled res pData (total Ts) = Ok r ->
    answered quadprog glpk init r pData Ts.
  Proof.
    intros ES EG. apply solve_inv in ES. apply genTraj_inv in EG. destruct EG as [[Hf ->]|(Hs & H1 & H2 & x & beta & H3 & H4 & H5)].
    - left. split; [reflexivity|]. split; [reflexivity|].
      destruct ES as [(q & st & x & obj & E & I & _)|(q & st & x & obj & E & I & _)]; [left|right]; exists q, st, x, obj; (split; [exact E|]);
      intros Hst; apply I in Hst; congruence.
    - right. split; [exact H1|]. exists x, beta. split; [exact H4|]. split; [exact H5|].
      destruct ES as [(q & st & y & obj & E & I & J)|(q & st & y & obj & E & I & J)]; [left|right]; exists q; destruct (J Hs) as [J1 J2];
      apply I in Hs; rewrite H2, <- H3, J1, J2, <- Hs; exact E.
  Qed.
  Lemma c24_ok pData Ts dt solver r : computeCOMTraj scaled wg quadprog glpk pData Ts dt solver = Ok r ->
    exists n, answered quadprog glpk (repeat 0 n) r pData Ts.
  Proof.
    unfold computeCOMTraj. destruct (negb _); [discriminate|]. intros E. rewrite total_sumR in E.
    match type of E with bind ?m _ = _ => destruct m as [[[[[[ta A] b] D] d] mb]| |] end; cbn [bind] in E; try discriminate.
    destruct (genCostFunction _ _ _ _ _) as [Hg| |]; cbn [bind] in E; try discriminate.
    destruct (solve _ _ _ _ _ _ _ _ _ _ _ _ _) as [res| |] eqn:ES; cbn [bind] in E; try discriminate.
    eexists. eapply answered_ok; eauto.
  Qed.
  Lemma c24_fixed pData Ts p r : computeCOMTrajFixedSize scaled wg quadprog glpk pData Ts p = Ok r ->
    answered quadprog glpk (repeat 0 3) r pData Ts.
  Proof.
    unfold computeCOMTrajFixedSize. destruct (negb _); [discriminate|]. intros E. rewrite total_sumR in E.
    destruct (computeConstraintsOneStep _ _ _ _) as [Ab| |]; cbn [bind] in E; try discriminate.
    destruct (genCostFunction _ _ _ _ _) as [Hg| |]; cbn [bind] in E; try discriminate. unfold solve_noeq in E.
    destruct (solve _ _ _ _ _ _ _ _ _ _ _ _ _) as [res| |] eqn:ES; cbn [bind] in E; try discriminate.
    eapply answered_ok; eauto.
  Qed.
  Lemma c23_never pData Ts dt solver r : costFunction pData = TARGET_END_VELOCITY ->
    computeCOMTraj scaled wg quadprog glpk pData Ts dt solver <> Ok r /\
    forall p, computeCOMTrajFixedSize scaled wg quadprog glpk pData Ts p <> Ok r.
  Proof.
    intros HC. unfold computeCOMTraj, computeCOMTrajFixedSize. destruct (negb _); [split; discriminate|]. split.
    - match goal with |- bind ?m _ <> _ => destruct m as [[[[[[ta A] b] D] d] mb]| |] end; cbn [bind]; try discriminate.
      rewrite c23_ok by exact HC. discriminate.
    - intros p. destruct (computeConstraintsOneStep _ _ _ _) as [Ab| |]; cbn [bind]; try discriminate.
      rewrite c23_ok by exact HC. discriminate.
  Qed.
End Results.
