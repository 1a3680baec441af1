(** Concrete inputs for the theorems of PropertiesTraj.v. *)
From Verif Require Import Vec SpecBezier SpecTime ModelData ModelDispatch ModelUtils ModelRows ModelCom ModelCont ModelSolver ModelTraj
  SpecCom SpecWp SpecCtr SpecCont SpecSolver SpecTraj ProofCurve ProofWaypoints2 ProofCom2 ProofSolver ProofSolver2 ProofTraj ProofTraj2 ProofTraj3 ProofCont3 ProofCont5 ProofCont9 ProofCont10 ProofCom3
  PropertiesCom PropertiesCont PropertiesTraj ExamplesCom ExamplesCont.
Open Scope R_scope.

(** A back end that only tries one point, and checks it.  It is sound. *)
Fixpoint checkb (P : R -> bool) (rows : list (list R)) (cs x : list R) : bool :=
  match rows, cs with
  | [], [] => true
  | r :: rows', c :: cs' => (P (rdot r x + c) && checkb P rows' cs' x)%bool
  | _, _ => false
  end.
Definition is0 (v : R) : bool := if Req_EM_T v 0 then true else false.
Definition ge0 (v : R) : bool := if Rle_dec 0 v then true else false.
Lemma is0_ok v : is0 v = true <-> v = 0.
Proof. unfold is0. destruct (Req_EM_T v 0); split; intros; (assumption || reflexivity || discriminate || contradiction). Qed.
Lemma ge0_ok v : ge0 v = true <-> 0 <= v.
Proof. unfold ge0. destruct (Rle_dec 0 v); split; intros; (assumption || reflexivity || discriminate || contradiction). Qed.
Definition guess (x0 : list R) (q : qp) (init : list R) : outcome (Z * list R * R) :=
  if (Nat.eqb (length x0) (length init) && checkb is0 (qp_CE q) (qp_ce0 q) x0 &&
      checkb ge0 (qp_CI q) (qp_ci0 q) x0)%bool
  then Ok (EIQUADPROG_FAST_OPTIMAL, x0, qp_value q x0) else Ok (1%Z, init, 0).
Definition no_lp (p : lp) : outcome (Z * R * list R) := Ok (4%Z, 0, []).

Lemma checkb_ok P (Q : R -> Prop) x : (forall v, P v = true <-> Q v) -> forall rows cs,
  checkb P rows cs x = true <-> Forall2 (fun r c => Q (rdot r x + c)) rows cs.
Proof.
  intros HP. induction rows as [|r rows IH]; intros [|c cs]; cbn; split; intros H; try discriminate; try constructor; try (inversion H; fail).
  - apply andb_prop in H. apply HP, H.
  - apply andb_prop in H. apply IH, H.
  - inversion H; subst. apply andb_true_intro. split; [apply HP|apply IH]; assumption.
Qed.
Lemma guess_ok x0 q init : length x0 = length init -> qp_feasible q x0 ->
  guess x0 q init = Ok (EIQUADPROG_FAST_OPTIMAL, x0, qp_value q x0).
Proof.
  intros L [F1 F2]. unfold guess. rewrite L, Nat.eqb_refl.
  rewrite (proj2 (checkb_ok _ (fun v => v = 0) x0 is0_ok _ _) F1).
  rewrite (proj2 (checkb_ok _ (fun v => 0 <= v) x0 ge0_ok _ _) F2). reflexivity.
Qed.
Lemma guess_sound x0 : qp_sound (guess x0).
Proof.
  intros q init x obj. unfold guess. destruct (_ && _)%bool eqn:E; [|discriminate]. intros H. injection H as <- _.
  apply andb_prop in E. destruct E as [E E3]. apply andb_prop in E. destruct E as [E1 E2].
  split; [apply Nat.eqb_eq; exact E1|]. split.
  - apply (checkb_ok _ (fun v => v = 0) x0 is0_ok) in E2. exact E2.
  - apply (checkb_ok _ (fun v => 0 <= v) x0 ge0_ok) in E3. exact E3.
Qed.
Lemma no_lp_sound : lp_sound no_lp.
Proof. intros p obj x H. discriminate. Qed.

(** Standing still at (0,0,4/5). *)
Definition st_pb (cost : Z) : problem :=
  Problem [ex_c0; ex_c1] (V3 0 0 (4/5)) vzero vzero vzero (V3 0 0 (4/5)) vzero vzero vzero vzero false
    (Constraints F_c1 true 5 (1/10)) cost DOUBLE_DESCRIPTION.
Definition st_x : vec3 := V3 0 0 (4/5).
Definition st_cv : bcurve := BCurve [st_x; st_x; st_x; st_x] (3/2).
Lemma st_wp cost : well_posed (st_pb cost) [1; 1/2].
Proof.
  split; [cbn; tauto|]. split; [reflexivity|]. split; [discriminate|].
  split; [repeat constructor; lra|]. split; [reflexivity|].
  repeat constructor; eexists; (split; [reflexivity|]; split; [cbn; lra|]; split; [|cbn; lia]);
    repeat constructor; cbn; intros E; injection E; intros; lra.
Qed.
Lemma st_total : total [1; 1/2] = 3/2.
Proof. cbn. lra. Qed.
Lemma st_same cost : same_gravity (st_pb cost) (V3 0 0 (-981/100)).
Proof. intros c ph [<-|[<-|[]]] H; injection H as <-; reflexivity. Qed.
Lemma st_curve cost : com_curve (st_pb cost) (total [1; 1/2]) st_x = Ok st_cv.
Proof.
  rewrite st_total. cbv [com_curve]. cbn. unfold mk_bezier. destruct (Rle_dec (3/2) 0); [lra|].
  unfold st_cv, st_x. repeat f_equal; apply v3_eq; cbn; field.
Qed.
Lemma st_pos t : cv_fun st_cv t = st_x.
Proof. apply v3_eq; cbv [cv_fun bc_pts bc_T st_cv st_x length pred map curve bez3 bezl bez sumf bern binom nth vx vy vz Nat.add Nat.sub INR pow]; field. Qed.
Lemma st_acc t acc : is_deriv_n 2 (cv_fun st_cv) t acc -> acc = vzero.
Proof.
  intros H. pose proof (curve_is_deriv_n 2 (bc_pts st_cv) (3/2) t) as Hd.
  rewrite (is_deriv_n_unique 2 _ _ _ _ _ (fun _ => eq_refl) H Hd).
  cbn [bc_pts st_cv st_x]. apply v3_eq; cbv [st_x hodo_n hodo vdiffs length pred map curve bez3 bezl bez sumf bern binom nth vx vy vz vscal vsub vzero Nat.add Nat.sub INR pow]; field.
Qed.
Lemma st_acc0 t : is_deriv_n 2 (cv_fun st_cv) t vzero.
Proof. destruct (com_acc st_cv t) as [acc H]. rewrite <- (st_acc t acc H). exact H. Qed.
Lemma st_norm a : 0 <= a <= 4 -> sqrt a <= 2.
Proof. intros H. rewrite <- (sqrt_square 2) by lra. apply sqrt_le_1; lra. Qed.
Lemma st_margin cost : margin (st_pb cost) = 1 / 10.
Proof. unfold margin; cbn. apply Rmax_right. lra. Qed.
Lemma st_feasible cost sampled : plan_feasible (st_pb cost) sampled (cv_fun st_cv).
Proof.
  intros i c t Hc _. split.
  - destruct i as [|[|i]]; [| |destruct i; discriminate]; injection Hc as <-.
    + split.
      { rewrite st_pos. intros [|[|j]] K k HK Hk; [| |destruct j; discriminate]; injection HK as <-; injection Hk as <-; unfold vdot, st_x; cbn; lra. }
      eexists; exists vzero. split; [reflexivity|]. split; [apply st_acc0|].
      rewrite st_pos, st_margin. constructor; [|constructor; [|constructor]].
      * pose proof (st_norm (1 * 1 + 0 * 0 + 1 / 2 * (1 / 2) + (0 * 0 + 0 * 0 + 0 * 0)) ltac:(lra)).
        unfold norm6, giw, dot6, vdot, vcross, st_x, vzero in *; cbn in *; nra.
      * pose proof (st_norm (-1 * -1 + 0 * 0 + 1 / 2 * (1 / 2) + (0 * 0 + 0 * 0 + 0 * 0)) ltac:(lra)).
        unfold norm6, giw, dot6, vdot, vcross, st_x, vzero in *; cbn in *; nra.
    + split.
      { rewrite st_pos. intros [|j] K k HK Hk; [|destruct j; discriminate]; injection HK as <-; injection Hk as <-; unfold vdot, st_x; cbn; lra. }
      eexists; exists vzero. split; [reflexivity|]. split; [apply st_acc0|].
      rewrite st_pos, st_margin. constructor; [|constructor].
      pose proof (sqrt_pos (0 * 0 + 1 * 1 + 1 / 2 * (1 / 2) + (0 * 0 + 0 * 0 + 1 * 1))).
      unfold norm6, giw, dot6, vdot, vcross, st_x, vzero in *; cbn in *; nra.
  - intros _. exists vzero. split; [apply st_acc0|]. unfold within, vzero; cbn. rewrite Rabs_R0. lra.
Qed.

(** The planner with the guessing back end. *)
Lemma guess_solve wg Ab H g x : sat Ab x -> exists obj,
  solve wg (guess (l3 x)) no_lp (mat3cols Ab) (map snd Ab) (MX 3 []) [] H g (repeat 0 3) [] [] SOLVER_QUADPROG = Ok (ResultData true obj (l3 x)).
Proof.
  intros Hx. destruct (c37_ok (mat3cols Ab) (map snd Ab) (MX 3 []) [] H g (repeat 0 3) []) as (q & EH & Eg & HF & HE).
  { apply mat3cols_wf. } { unfold mat3cols; cbn [mx_rows]. now rewrite !map_length. } { left; reflexivity. }
  exists (qp_value q (l3 x)). rewrite HE, guess_ok; [reflexivity|reflexivity|]. apply HF; [reflexivity|].
  split; [apply leM_sat; exact Hx|]. split; [constructor|left; reflexivity].
Qed.
Lemma guess_step scaled wg dt : 0 < dt -> exists r,
  computeCOMTraj scaled wg (guess (l3 st_x)) no_lp (st_pb ACCELERATION) [1; 1/2] dt SOLVER_QUADPROG = Ok r /\ rc_success r = true.
Proof.
  intros Hdt. destruct (C15_meaning_step (st_pb ACCELERATION) [1; 1/2] dt (V3 0 0 (-981/100)) (st_wp _) Hdt (st_same _) ltac:(cbn; tauto))
    as (ta & rows & Et & EA & HM).
  pose proof (proj2 (HM st_x st_cv (st_curve _)) (st_feasible _ _)) as S.
  rewrite (traj_step scaled wg _ _ _ _ (st_wp _) dt ta rows Hdt Et EA).
  destruct (C22_acceleration (st_pb ACCELERATION) [1; 1/2] ta 0 (st_wp _) (C22_times_step [1; 1/2] dt ta Hdt ltac:(repeat constructor; lra) Et) eq_refl)
    as (H & g & K & EC & _). cbn [Nat.add] in EC. rewrite EC. cbn [bind fst snd].
  destruct (guess_solve wg rows H g st_x S) as [obj ES]. rewrite ES. cbn [bind].
  destruct (genTraj_ok scaled (ResultData true obj (l3 st_x)) (st_pb ACCELERATION) [1; 1/2] st_x [] (st_wp _) eq_refl) as (r & Er & Hs & _).
  { cbn [rd_x]. now rewrite app_nil_r. }
  exists r. split; [exact Er|exact Hs].
Qed.
Lemma guess_fixed scaled wg p : (1 <= p)%nat -> exists r,
  computeCOMTrajFixedSize scaled wg (guess (l3 st_x)) no_lp (st_pb ACCELERATION) [1; 1/2] p = Ok r /\ rc_success r = true.
Proof.
  intros Hp. destruct (C15_meaning_fixed (st_pb ACCELERATION) [1; 1/2] p (V3 0 0 (-981/100)) (st_wp _) Hp (st_same _) ltac:(cbn; tauto))
    as (rows & EA & HM).
  pose proof (proj2 (HM st_x st_cv (st_curve _)) (st_feasible _ _)) as S.
  rewrite (traj_fixed scaled wg _ _ _ _ (st_wp _) p rows EA).
  destruct (C22_acceleration (st_pb ACCELERATION) [1; 1/2] (computeDiscretizedTimeFixed [1; 1/2] p) 0 (st_wp _)
    (C22_times_fixed [1; 1/2] p Hp ltac:(discriminate) ltac:(repeat constructor; lra)) eq_refl)
    as (H & g & K & EC & _). cbn [Nat.add] in EC. rewrite EC. cbn [bind fst snd].
  destruct (guess_solve wg rows H g st_x S) as [obj ES]. rewrite ES. cbn [bind].
  destruct (genTraj_ok scaled (ResultData true obj (l3 st_x)) (st_pb ACCELERATION) [1; 1/2] st_x [] (st_wp _) eq_refl) as (r & Er & Hs & _).
  { cbn [rd_x]. now rewrite app_nil_r. }
  exists r. split; [exact Er|exact Hs].
Qed.

(** All hypotheses of C16 hold together, and the plan is real. *)
Example ex_C16 : qp_sound (guess (l3 st_x)) /\ lp_sound no_lp /\ well_posed (st_pb ACCELERATION) [1; 1/2] /\
  same_gravity (st_pb ACCELERATION) (V3 0 0 (-981/100)) /\ In (flag_of (st_pb ACCELERATION)) exact_w_flags /\
  (exists r, computeCOMTraj true false (guess (l3 st_x)) no_lp (st_pb ACCELERATION) [1; 1/2] (1/5) SOLVER_QUADPROG = Ok r /\ rc_success r = true) /\
  (exists r, computeCOMTrajFixedSize true false (guess (l3 st_x)) no_lp (st_pb ACCELERATION) [1; 1/2] 4 = Ok r /\ rc_success r = true).
Proof.
  split; [apply guess_sound|]. split; [apply no_lp_sound|]. split; [apply st_wp|]. split; [apply st_same|]. split; [cbn; tauto|].
  split; [apply guess_step; lra|apply guess_fixed; lia].
Qed.

(** Continuous formulation, with force variables. *)
Lemma guess_cont scaled wg pData Ts dt out x beta : well_posed pData Ts -> splittable Ts -> dt <= 0 -> costFunction pData = ACCELERATION ->
  computeConstraintsContinuous scaled pData Ts = Ok out -> (3 + length beta = co_cols out)%nat ->
  satX (co_A out) (l3 x ++ beta) -> eqX (co_D out) (l3 x ++ beta) -> above (co_min out) (l3 x ++ beta) -> exists r,
  computeCOMTraj scaled wg (guess (l3 x ++ beta)) no_lp pData Ts dt SOLVER_QUADPROG = Ok r /\ rc_success r = true /\ rc_x r = l3 x.
Proof.
  intros WP SP Hdt HC EC0 Lb HA HD HM. unfold computeCOMTraj. rewrite (wp_len pData Ts WP), ProofTime.total_sumR.
  destruct (Rlt_dec 0 dt); [lra|]. rewrite EC0. cbn [bind mx_cols].
  destruct (c19_ok scaled pData Ts WP SP) as (ws & st & fdim & out' & _ & _ & Eo & _ & _ & _ & _ & _ & _ & _ & Hc & WA & WD).
  rewrite EC0 in Eo. injection Eo as <-.
  destruct (C22_acceleration pData Ts (computeDiscretizedTimeFixed Ts 7) fdim WP (C22_times_fixed Ts 7 ltac:(lia) (wp_ne _ _ WP) (wp_pos _ _ WP)) HC)
    as (H & g & K & EC & _). rewrite Hc, EC. cbn [bind fst snd].
  destruct (c37_ok (MX (3 + fdim) (map fst (co_A out))) (map snd (co_A out)) (MX (3 + fdim) (map fst (co_D out))) (map snd (co_D out)) H g
    (repeat 0 (3 + fdim)) (co_min out)) as (q & EH & Eg & HF & HE).
  { unfold mx_wf; cbn [mx_rows mx_cols]. apply Forall_map. exact WA. } { cbn [mx_rows]. now rewrite !map_length. }
  { destruct HM as [->|HM]; [left; reflexivity|right]. apply ProofSolver.f2_len in HM. cbn [mx_cols]. rewrite HM, app_length. cbn [l3 length]. lia. }
  rewrite HE, guess_ok; [|rewrite app_length, repeat_length; cbn [l3 length]; lia|].
  2: { apply HF; [rewrite app_length; cbn [l3 length mx_cols]; lia|]. split; [apply leM_satX; exact HA|]. split; [apply eqM_eqX; exact HD|exact HM]. }
  cbn [bind Z.eqb EIQUADPROG_FAST_OPTIMAL].
  destruct (genTraj_ok scaled (ResultData true (qp_value q (l3 x ++ beta)) (l3 x ++ beta)) pData Ts x beta WP eq_refl eq_refl) as (r & Er & Hs & _ & Hx & _).
  exists r. split; [exact Er|]. split; assumption.
Qed.

Lemma nest_sat out beta : computeConstraintsContinuous true nest_pb [1; 1] = Ok out -> well_posed nest_pb [1; 1] -> satX (co_A out) (l3 wf_x ++ beta).
Proof.
  intros Eout WP.
  assert (SG : same_gravity nest_pb wf_g) by (intros c ph [<-|[<-|[]]] H; injection H as <-; reflexivity).
  destruct (C17_exact true nest_pb [1; 1] WP wf_g wf_long SG ltac:(cbn; tauto)) as (out' & ws & Eout' & _ & H17).
  rewrite Eout in Eout'. injection Eout' as <-.
  destruct (H17 wf_x wf_cv wf_curve wf_nz) as (Pc & Pa & Pw & Hc & HA). apply HA. intros i c ph Hci Hph.
  assert (Cs : (i < 2)%nat /\ c = wf_c wf_G1) by (destruct i as [|[|i]]; [| |destruct i; discriminate]; injection Hci as <-; split; auto).
  destruct Cs as [Hi ->]. injection Hph as <-. destruct (Hc i _ _ Hci eq_refl) as ((L1 & C1) & (L2 & C2) & _).
  assert (E1 : Pc i = wf_Pc i).
  { eapply C17_position_points_unique; [apply (phase_lt i Hi)| |exact C1|apply wf_ctrl_c, Hi]. rewrite L1. destruct i; reflexivity. }
  assert (E2 : Pa i = wf_Pa i).
  { eapply C17_acceleration_points_unique; [apply (phase_lt i Hi)| |exact C2|apply wf_ctrl_a, Hi]. rewrite L2. destruct i; reflexivity. }
  rewrite E1, E2. split; [|split].
  - assert (K : forall v, vx v <= 5 -> kin_ok (wf_c wf_G1) v).
    { intros v Hv j K k HK Hk. destruct j as [|j]; [|destruct j; discriminate]. cbn in HK, Hk. injection HK as <-. injection Hk as <-. unfold vdot; cbn. lra. }
    destruct i as [|i]; repeat (constructor; [apply K; cbn; lra|]); constructor.
  - assert (B : 10 <= acc_bound true nest_pb [1; 1]) by (unfold acc_bound; cbn; lra).
    assert (W : forall a, Rabs a <= 10 -> within (acc_bound true nest_pb [1; 1]) (V3 a 0 0)).
    { intros a Ha. unfold within; cbn. rewrite Rabs_R0. lra. }
    destruct i as [|i]; repeat (constructor; [apply W, Rabs_le; lra|]); constructor.
  - intros X. discriminate X.
Qed.
(** All hypotheses of C17 (first theorem) and C18 hold together. *)
Example ex_C17_C18 : well_posed nest_pb [1; 1] /\ splittable [1; 1] /\ long_phases [1; 1] /\ cones_nested (contacts nest_pb) /\
  same_gravity nest_pb wf_g /\ exists v r, qp_sound (guess v) /\
  computeCOMTraj true false (guess v) no_lp nest_pb [1; 1] (-1) SOLVER_QUADPROG = Ok r /\ rc_success r = true /\ plan_no_zero_point r.
Proof.
  destruct ex_C18 as (WP & CN & out & beta & Eout & Hcv & Hg & He).
  assert (SP : splittable [1; 1]) by (apply ProofCont7.long_split; exact wf_long).
  split; [exact WP|]. split; [exact SP|]. split; [exact wf_long|]. split; [exact CN|].
  split; [intros c ph [<-|[<-|[]]] H; injection H as <-; reflexivity|].
  assert (L : (3 + length beta = co_cols out)%nat).
  { apply ProofSolver.f2_len in Hg. rewrite app_length in Hg. cbn [l3 length] in Hg. rewrite <- Hg. clear - Eout.
    unfold computeConstraintsContinuous in Eout. destruct (cont_raw true nest_pb [1; 1]) as [[fd s]| |]; cbn [bind fst snd] in Eout; try discriminate.
    destruct (mapM _ _); cbn [bind] in Eout; try discriminate. injection Eout as <-. cbn. rewrite repeat_length. reflexivity. }
  destruct (guess_cont true false nest_pb [1; 1] (-1) out wf_x beta WP SP ltac:(lra) eq_refl Eout L (nest_sat out beta Eout WP) He (or_intror Hg))
    as (r & Er & Hs & Hx).
  exists (l3 wf_x ++ beta), r. split; [apply guess_sound|]. split; [exact Er|]. split; [exact Hs|].
  destruct (C17_plan_kinematics true false _ no_lp (guess_sound _) no_lp_sound nest_pb [1; 1] (-1) _ r WP SP ltac:(lra) Er Hs) as [(_ & (x & Ex & Cx) & _) _].
  rewrite Hx in Ex. assert (x = wf_x) by (destruct x; unfold wf_x, l3 in *; cbn in Ex; injection Ex as <- <- <-; reflexivity). subst x.
  rewrite Hcv in Cx. injection Cx as Cx. intros p Hp Hz. rewrite <- Cx in Hp. rewrite Hx. f_equal. exact (wf_nz p Hp Hz).
Qed.

(** Costs: at time 1/2 of [0,3/2] the acceleration depends on the free point. *)
Example ex_C22 : times_of [1; 1/2] (computeDiscretizedTimeFixed [1; 1/2] 3) /\ well_posed (st_pb ACCELERATION) [1; 1/2] /\
  acc_depends (st_pb ACCELERATION) [1; 1/2] (computeDiscretizedTimeFixed [1; 1/2] 3).
Proof.
  split; [apply C22_times_fixed; [lia|discriminate|repeat constructor; lra]|]. split; [apply st_wp|].
  set (y := V3 1 0 (4/5)). set (cvy := BCurve [st_x; st_x; y; st_x] (3/2)).
  assert (Hy : com_curve (st_pb ACCELERATION) (total [1; 1/2]) y = Ok cvy).
  { rewrite st_total. cbv [com_curve]. cbn. unfold mk_bezier. destruct (Rle_dec (3/2) 0); [lra|].
    unfold cvy, st_x, y. repeat f_equal; apply v3_eq; cbn; field. }
  destruct (com_acc cvy 0) as [ay Hay].
  exists (0, 0%Z), st_x, y, st_cv, cvy, vzero, ay. split; [left; reflexivity|]. split; [apply st_curve|]. split; [exact Hy|].
  split; [apply st_acc0|]. split; [exact Hay|].
  pose proof (curve_is_deriv_n 2 (bc_pts cvy) (3/2) 0) as Hd.
  rewrite (is_deriv_n_unique 2 _ _ _ _ _ (fun _ => eq_refl) Hay Hd).
  intros E. apply (f_equal vx) in E. cbv [cvy y bc_pts st_x hodo_n hodo vdiffs length pred map curve bez3 bezl bez sumf bern binom nth vx vy vz vscal vsub vzero Nat.add Nat.sub INR pow] in E. lra.
Qed.
Example ex_C23_C24 : TARGET_END_VELOCITY <> ACCELERATION /\ length [1] <> length (contacts (ex_pb F_c1)) /\
  flag_of (ex_pb F_c1) = F_c1 /\ Z.land F_c1 END_VEL = 0%Z.
Proof. split; [discriminate|]. split; [cbn; lia|]. split; reflexivity. Qed.

(** C51: a feasible plan for either cost (with a back end that solves it: ExamplesSolves.v). *)
Example ex_C51 : forall cost, well_posed (st_pb cost) [1; 1/2] /\ same_gravity (st_pb cost) (V3 0 0 (-981/100)) /\
  com_curve (st_pb cost) (total [1; 1/2]) st_x = Ok st_cv /\
  plan_feasible (st_pb cost) (sampled_step [1; 1/2] (1/5)) (cv_fun st_cv) /\ plan_feasible (st_pb cost) (sampled_fixed [1; 1/2] 4) (cv_fun st_cv).
Proof.
  intros cost. split; [apply st_wp|]. split; [apply st_same|]. split; [apply st_curve|]. split; apply st_feasible.
Qed.
(** C52: one phase, sampled at its ends. *)
Definition one_pb : problem :=
  Problem [ex_c0] (V3 0 0 (4/5)) vzero vzero vzero (V3 1 0 (4/5)) vzero vzero vzero vzero false
    (Constraints F_acc_all true 5 (1/10)) ACCELERATION DOUBLE_DESCRIPTION.
Example ex_C52 : well_posed one_pb [3/2] /\ flag_of one_pb = F_acc_all /\
  Forall (fun tp : R * Z => fst tp = 0 \/ fst tp = total [3/2]) (computeDiscretizedTimeFixed [3/2] 1).
Proof.
  split; [|split; [reflexivity|constructor; [left; reflexivity|]; constructor; [right; cbn; lra|constructor]]].
  split; [cbn; tauto|]. split; [reflexivity|]. split; [discriminate|].
  split; [repeat constructor; lra|]. split; [reflexivity|].
  repeat constructor; eexists; (split; [reflexivity|]; split; [cbn; lra|]; split; [|cbn; lia]);
    repeat constructor; cbn; intros E; injection E; intros; lra.
Qed.
