(** Concrete inputs for the theorems of PropertiesDec2.v: standing still at (0,0,4/5) (the
    problem of ExamplesDec.v), and a start sideways with bounded accelerations. *)
From Coq Require Import Lia Lra Psatz.
From Verif Require Import Vec SpecBezier SpecTime ModelData ModelWaypoints ModelDispatch ModelUtils ModelRows ModelCom ModelNd ModelCont ModelSolver ModelTraj ModelQp
  SpecCom SpecWp SpecCtr SpecCont SpecSolver SpecTraj SpecEnd SpecEnd2 SpecDec SpecDec2 ProofCurve ProofWaypoints2 ProofTime ProofEmit ProofCom ProofCom2 ProofCom3 ProofNd ProofCont ProofCont2 ProofCont3 ProofCont4 ProofCont5 ProofCont6 ProofCont7 ProofCont10 ProofTraj3 ProofQp3 ProofEnd ProofEnd2
  PropertiesCont PropertiesEnd PropertiesDec PropertiesDec2 ExamplesCom ExamplesTraj ExamplesEnd ExamplesEnd2 ExamplesDec SpecQp.
Open Scope R_scope.

Lemma dc_ws : exists ws, computeWwaypoints (dc_pb DISTANCE_TRAVELED) (total [1; 1/2]) = Ok ws /\ length ws = 8%nat.
Proof. eexists. split; [reflexivity|reflexivity]. Qed.
Lemma dc_ctrl_rate ws : computeWwaypoints (dc_pb DISTANCE_TRAVELED) (total [1; 1/2]) = Ok ws ->
  wrench_ctrl_rate (dc_pb DISTANCE_TRAVELED) (total [1; 1/2]) dg (length ws) 171.
Proof.
  intros E. apply (C62_rate_decimal (dc_pb DISTANCE_TRAVELED) (total [1; 1/2]) dg 10 1 (dc_cvx vzero) ws 171).
  - apply dc_flag.
  - reflexivity.
  - apply dc_curve.
  - unfold dc_cvx; cbn [bc_pts]. repeat (apply Forall_cons; [apply vnorm_bound; [lra|unfold vnorm2, vdot, st_x; cbn; lra]|]). apply Forall_nil.
  - apply vnorm_bound; [lra|unfold vnorm2, vdot, dg; cbn; lra].
  - exact E.
  - rewrite st_total. lra.
Qed.
Lemma curve_same6 p T t : T <> 0 -> curve [p; p; p; p; p; p] T t = p.
Proof. intros HT. apply v3_eq; cbv [length pred map curve bez3 bezl bez sumf bern binom nth vx vy vz Nat.add Nat.sub INR pow]; field; exact HT. Qed.
Lemma curve_same8 p T t : T <> 0 -> curve [p; p; p; p; p; p; p; p] T t = p.
Proof. intros HT. apply v3_eq; cbv [length pred map curve bez3 bezl bez sumf bern binom nth vx vy vz Nat.add Nat.sub INR pow]; field; exact HT. Qed.
Lemma dc_acc t a : is_deriv_n 2 (cv_fun dc_cv) t a -> a = vzero.
Proof. intros H. exact (is_deriv_n_unique 2 _ _ _ _ _ (fun _ => eq_refl) H (dc_acc0 t)). Qed.
Lemma dc_ctrl scaled sl : -1 <= sl -> ctrl_feasible_by scaled (dc_pb DISTANCE_TRAVELED) [1; 1/2] 8 sl dc_cv.
Proof.
  intros Hsl i c ph Pc Pa Pw Hc Hph L1 C1 L2 C2 L3 C3. pose proof (dc_feasible DISTANCE_TRAVELED (fun _ _ => True) sl Hsl i c 0 Hc I) as ((K & ph' & acc & Hph' & Hacc & CO) & _).
  rewrite Hph in Hph'. injection Hph' as <-. apply dc_acc in Hacc. subst acc. rewrite dc_pos in K, CO.
  assert (Hlt : phase_start [1; 1/2] i < phase_end [1; 1/2] i) by (destruct i as [|[|i]]; [| |destruct i; discriminate]; unfold phase_start, phase_end; cbn; lra).
  assert (HT : phase_end [1; 1/2] i - phase_start [1; 1/2] i <> 0) by lra.
  rewrite (ctrl_pos_uniq Pc [st_x; st_x; st_x; st_x; st_x; st_x] _ _ _ Hlt L1 C1) by (intros t; rewrite curve_same6 by exact HT; apply dc_pos).
  rewrite (ctrl_acc_uniq Pa [vzero; vzero; vzero; vzero] _ _ _ Hlt L2 C2) by (intros t a Ha; rewrite curve4 by exact HT; exact (dc_acc t a Ha)).
  set (w := giw (cp_mass ph) (cp_gravity ph) st_x vzero) in *.
  rewrite (ctrl_giw_uniq Pw [w; w; w; w; w; w; w; w] _ _ _ _ Hlt L3 C3).
  2: { intros t a Ha. rewrite (dc_acc t a Ha), dc_pos. unfold curve6. cbn [map]. rewrite !curve_same8 by exact HT. fold w. destruct w; reflexivity. }
  split; [|split].
  - repeat (apply Forall_cons; [exact K|]). apply Forall_nil.
  - assert (W : within (acc_bound scaled (dc_pb DISTANCE_TRAVELED) [1; 1/2]) vzero).
    { assert (0 <= acc_bound scaled (dc_pb DISTANCE_TRAVELED) [1; 1/2]) by (unfold acc_bound; rewrite st_total; destruct scaled; cbn; lra).
      repeat split; cbn; rewrite Rabs_R0; assumption. }
    repeat (apply Forall_cons; [exact W|]). apply Forall_nil.
  - repeat (apply Forall_cons; [exact CO|]). apply Forall_nil.
Qed.

(** The hypotheses of C62 and C63_best hold, and the plan succeeds: it stands still. *)
Example ex_C62_continuous_decimal : forall scaled wg mem glpk, exists pi ws,
  well_posed (dc_pb DISTANCE_TRAVELED) [1; 1/2] /\ splittable [1; 1/2] /\ same_gravity (dc_pb DISTANCE_TRAVELED) dg /\ within 10 dg /\
  representation (dc_pb DISTANCE_TRAVELED) = DOUBLE_DESCRIPTION /\ In (flag_of (dc_pb DISTANCE_TRAVELED)) dec_w_flags /\
  com_curve (dc_pb DISTANCE_TRAVELED) (total [1; 1/2]) vzero = Ok (dc_cvx vzero) /\ Forall (within 1) (bc_pts (dc_cvx vzero)) /\
  computeConstantWaypoints (dc_pb DISTANCE_TRAVELED) (total [1; 1/2]) = Ok pi /\ computeWwaypoints (dc_pb DISTANCE_TRAVELED) (total [1; 1/2]) = Ok ws /\
  cost_weight (dc_pb DISTANCE_TRAVELED) [1; 1/2] (computeDiscretizedTimeFixed [1; 1/2] 7) 1 /\
  let B' := 171 + 2 * dec_slack 10 1 (total [1; 1/2]) in
  on_scale (dc_pb DISTANCE_TRAVELED) 1 B' 1 /\ acc_ctrl_rate scaled [1; 1/2] <= B' /\
  wrench_ctrl_rate (dc_pb DISTANCE_TRAVELED) (total [1; 1/2]) dg (length ws) 171 /\
  exists r, computeCOMTraj scaled wg (solve_quadprog mem) glpk (dc_pb DISTANCE_TRAVELED) [1; 1/2] (-1) SOLVER_QUADPROG = Ok r /\
    rc_success r = true /\ rc_x r = l3 st_x /\ rc_c r = dc_cv /\ plan_no_zero_point r.
Proof.
  intros scaled wg mem glpk. destruct dc_ws as (ws & Ews & Lws). eexists _, ws. split; [apply dc_wp|]. split; [apply ProofCont7.long_split, st_long|].
  split; [apply dc_same|]. split; [apply dg_within|]. split; [reflexivity|]. split; [apply dc_flag|]. split; [apply dc_curve|]. split; [apply dc_within, zero_in|].
  split; [reflexivity|]. split; [exact Ews|]. split; [apply dc_weight|]. cbv zeta.
  split; [apply dc_scale|]. split; [pose proof dc_slack; unfold acc_ctrl_rate; rewrite st_total in *; destruct scaled; lra|]. split; [apply dc_ctrl_rate, Ews|].
  assert (NZ : forall p, In p (bc_pts dc_cv) -> p = st_x) by (intros p [<-|[<-|[<-|[<-|[<-|[<-|[]]]]]]]; reflexivity).
  destruct (C63_best_decimal scaled wg mem glpk (dc_pb DISTANCE_TRAVELED) [1; 1/2] (-1) dg 10 ws (dc_wp _) ltac:(lra) (dc_same _) dg_within eq_refl (dc_flag _) Ews
    1 st_x dc_cv 1 st_long (dc_weight _) ltac:(lra) (dc_curve _ _)) as (r & E1 & E2 & E3 & E4).
  - intros p Hp _. exact (NZ p Hp).
  - apply dc_within, st_in.
  - rewrite Lws. apply dc_ctrl. pose proof dc_slack. lra.
  - apply dc_cheapest.
  - exists r. repeat (split; [assumption|]). intros p Hp _. rewrite E4 in Hp. rewrite E3, (NZ p Hp). reflexivity.
Qed.

(** Starting sideways, with accelerations of at most 10: the middle of the ends is not
    feasible, the hypotheses of C63_optimal_decimal hold. *)
Definition da_pb : problem :=
  Problem [sa_c] (V3 0 0 (4/5)) (V3 0 1 0) vzero vzero (V3 0 0 (4/5)) vzero vzero vzero vzero false
    (Constraints F_acc_dc1_c1 true 10 0) DISTANCE_TRAVELED DOUBLE_DESCRIPTION.
Lemma da_wp : well_posed da_pb [1].
Proof.
  split; [cbn; tauto|]. split; [reflexivity|]. split; [discriminate|].
  split; [repeat constructor; lra|]. split; [reflexivity|].
  repeat constructor; eexists; (split; [reflexivity|]; split; [cbn; lra|]; split; [|cbn; lia]). constructor.
Qed.
Lemma da_same : same_gravity da_pb (V3 0 0 (-981/100)).
Proof. intros c ph [<-|[]] H; injection H as <-; reflexivity. Qed.
Definition da_cv (x : vec3) : bcurve := BCurve [V3 0 0 (4/5); V3 0 (1/5) (4/5); V3 0 (2/5) (4/5); x; V3 0 0 (4/5); V3 0 0 (4/5)] 1.
Lemma da_curve x : com_curve da_pb (total [1]) x = Ok (da_cv x).
Proof.
  rewrite sw_total. cbv [com_curve]. cbn. unfold mk_bezier. destruct (Rle_dec 1 0); [lra|].
  unfold da_cv. repeat f_equal; apply v3_eq; cbn; field.
Qed.
Lemma da_within x : within 1 x -> Forall (within 1) (bc_pts (da_cv x)).
Proof.
  intros Hx. unfold da_cv; cbn [bc_pts]. repeat (apply Forall_cons; [assumption || (apply in1; apply ab1; lra)|]). apply Forall_nil.
Qed.
Lemma da_scale : on_scale da_pb 1 (171 + 2 * dec_slack 10 1 (total [1])) 1.
Proof.
  pose proof eps_tiny. pose proof eps_pos. pose proof dw_slack as S. set (b := dec_slack _ _ _) in *. clearbody b.
  split; [lra|]. split; [lra|]. split; [lra|]. split.
  { apply Rle_lt_trans with (eps52 * (172 * 172)); [|lra]. apply Rmult_le_compat_l; [lra|]. apply Rmult_le_compat; lra. }
  split; [lra|].
  intros c K [<-|[]] HK; cbn in HK. destruct HK as [<-|[]]; apply vnorm_bound; unfold vnorm2, vdot; cbn; lra.
Qed.
Lemma da_ctrl_rate ws : computeWwaypoints da_pb (total [1]) = Ok ws -> wrench_ctrl_rate da_pb (total [1]) (V3 0 0 (-981/100)) (length ws) 171.
Proof.
  intros E. apply (C62_rate_decimal da_pb (total [1]) (V3 0 0 (-981/100)) 10 1 (da_cv vzero) ws 171);
    [left; reflexivity|reflexivity|apply da_curve| |apply vnorm_bound; [lra|unfold vnorm2, vdot; cbn; lra]|exact E|rewrite sw_total; lra].
  repeat (apply Forall_cons; [apply vnorm_bound; [lra|unfold vnorm2, vdot; cbn; lra]|]). apply Forall_nil.
Qed.
Lemma da_rows scaled rows : computeConstraintsContinuous scaled da_pb [1] = Ok (CO (map (fun r => (l3 (fst r), snd r)) rows) [] [] 3) ->
  length rows = 30%nat /\ forall r, In r rows -> axis_row (fst r).
Proof.
  intros E. assert (HL : long_phases [1]) by (repeat constructor; lra).
  destruct (cont_main scaled da_pb [1] da_wp (long_split _ HL)) as (pi & ws & ddc & lc & la & lw & M). cbv zeta in M.
  destruct M as (Epi & Ews & Lpi & Lws & HT & Edd & Llc & Lla & Llw & Plc & Pla & Plw & Lrows & _ & Eout).
  change (useDD_of da_pb) with true in *. rewrite E in Eout. injection Eout as ER. unfold items_of in ER. cbn [useDD_of] in ER.
  assert (Epi' : pi = [V3 0 0 (4/5); V3 0 (1/5) (4/5); V3 0 (2/5) (4/5); vzero; V3 0 0 (4/5); V3 0 0 (4/5)]).
  { rewrite sw_total in Epi. cbv [computeConstantWaypoints] in Epi. cbn in Epi. injection Epi as <-. repeat f_equal; try (apply v3_eq; cbn; field). }
  pose proof sa_nz as NZ.
  assert (ZZ : vec_isZero vzero = true).
  { unfold vec_isZero, coeff_isZero, isZero_prec. cbn [vx vy vz vzero]. rewrite Rabs_R0. destruct (Rle_dec 0 _); [reflexivity|lra]. }
  assert (Es : map sym_aff pi = [(mzero, V3 0 0 (4/5)); (mzero, V3 0 (1/5) (4/5)); (mzero, V3 0 (2/5) (4/5)); (mid, vzero); (mzero, V3 0 0 (4/5)); (mzero, V3 0 0 (4/5))])
    by (rewrite Epi'; cbn [map]; unfold sym_aff; rewrite !NZ, ZZ; reflexivity).
  assert (Ac : Forall axis_aff (map sym_aff pi)).
  { rewrite Es. assert (Z : forall v, axis_aff (mzero, v)) by (intros v; exists 0; split; [left; reflexivity|apply m3_eq; apply v3_eq; cbn; ring]).
    repeat (apply Forall_cons; [try apply Z|]); [|apply Forall_nil]. exists 1. split; [right; lra|apply m3_eq; apply v3_eq; cbn; ring]. }
  assert (Aa : Forall axis_aff (nd_pts ddc)).
  { rewrite Es, sw_total in Edd. cbn [nd_derivate] in Edd. unfold nd_derivate1 in Edd. cbn [nd_pts nd_min nd_max nd_mult length Nat.sub nd_diffs map] in Edd.
    rewrite nd_make_ok in Edd by (discriminate || lra). cbn [bind nd_pts nd_min nd_max nd_mult length Nat.sub nd_diffs map] in Edd.
    rewrite nd_make_ok in Edd by (discriminate || lra). injection Edd as <-. cbn [nd_pts].
    apply Forall_cons; [|apply Forall_cons; [|apply Forall_cons; [|apply Forall_cons; [|apply Forall_nil]]]]; [exists 0|exists 20|exists (-40)|exists 20]; (split; [(left; reflexivity) || (right; lra)|]);
      destruct scaled; apply m3_eq; apply v3_eq; cbn; field. }
  assert (Lpi4 : length pi = 6%nat) by (rewrite Epi'; reflexivity). 
  change (contacts da_pb) with [sa_c] in Lrows. rewrite Lpi4 in Lrows. cbn in Lrows.
  split; [apply (f_equal (@length _)) in ER; rewrite !map_length in ER; rewrite ER; exact Lrows|].
  destruct lc as [|pc [|? ?]]; try discriminate. destruct la as [|pa [|? ?]]; try discriminate. destruct lw as [|pw [|? ?]]; try discriminate.
  destruct (derivate2_ok scaled (NDC (map sym_aff pi) 0 (total [1]) 1)) as (ddc' & Ed' & Od & md & Md & _);
    [cbn [nd_pts]; rewrite map_length; lia|exact HT|]. rewrite Edd in Ed'. injection Ed' as <-. cbn [nd_min nd_max] in md, Md.
  destruct (exact_piece aff_add aff_scal (NDC (map sym_aff pi) 0 (total [1]) 1) [1] 0 pc HL ltac:(cbn; lia) eq_refl eq_refl (Plc 0%nat pc eq_refl)) as (Q1 & Q2 & Q3).
  destruct (exact_piece aff_add aff_scal ddc [1] 0 pa HL ltac:(cbn; lia) md Md (Pla 0%nat pa eq_refl)) as (R1 & R2 & R3).
  assert (PS : phase_start [1] 0 = 0) by reflexivity. assert (PE : phase_end [1] 0 = total [1]) by (unfold phase_end; cbn; ring).
  apply full_aff in Q1; [|cbn; congruence|cbn [nd_max]; congruence|split; [cbn [nd_pts]; rewrite Epi'; discriminate|exact HT]].
  apply full_aff in R1; [|congruence|congruence|exact Od].
  assert (AX : forall r, In r (crows da_pb true [pc] [pa] [pw] [sa_c]) -> axis_row (fst r)).
  { intros r Hr. cbn [crows] in Hr. rewrite app_nil_r in Hr. unfold phase_rows in Hr. rewrite !in_app_iff, !in_flat_map in Hr.
    destruct Hr as [(x & Hx & Hr)|[(x & Hx & Hr)|(x & Hx & Hr)]].
    - rewrite Q1 in Hx. rewrite Forall_forall in Ac. exact (axis_k x r (Ac x Hx) Hr).
    - destruct Hr.
    - rewrite R1 in Hx. rewrite Forall_forall in Aa. exact (axis_a x _ r (Aa x Hx) Hr). }
  intros r Hr. apply (in_map (fun r : vec3 * R => (l3 (fst r), snd r))) in Hr. rewrite ER in Hr. apply in_map_iff in Hr. destruct Hr as (r' & Er & Hr').
  replace (fst r) with (fst r') by (unfold padr in Er; cbn in Er; rewrite ?app_nil_r in Er; unfold l3 in Er; injection Er as E1 E2 E3 _; apply v3_eq; congruence).
  apply AX, Hr'.
Qed.

Definition da_acc (x : vec3) : list vec3 :=
  [vzero; V3 (20 * vx x) (20 * vy x - 12) (20 * (vz x - 4/5)); V3 (- (40 * vx x)) (8 - 40 * vy x) (- (40 * (vz x - 4/5))); V3 (20 * vx x) (20 * vy x) (20 * (vz x - 4/5))].
Lemma da_dd x t acc : is_deriv_n 2 (cv_fun (da_cv x)) t acc -> acc = curve (da_acc x) 1 t.
Proof.
  intros H. pose proof (curve_is_deriv_n 2 (bc_pts (da_cv x)) 1 t) as Hd.
  rewrite (is_deriv_n_unique 2 _ _ _ _ _ (fun _ => eq_refl) H Hd).
  cbn [bc_pts da_cv]. apply v3_eq; cbv [da_acc hodo_n hodo vdiffs length pred map curve bez3 bezl bez sumf bern binom nth vx vy vz vscal vsub vzero Nat.add Nat.sub INR pow]; field.
Qed.
Lemma da_bound scaled : acc_bound scaled da_pb [1] = 10.
Proof. unfold acc_bound. rewrite sw_total. destruct scaled; cbn; lra. Qed.
Lemma da_ctrl scaled k sl : ctrl_feasible_by scaled da_pb [1] k sl (da_cv (V3 0 (1/10) (4/5))).
Proof.
  intros i c ph Pc Pa Pw Hc Hph L1 C1 L2 C2 L3 C3. destruct i as [|i]; [|destruct i; discriminate]. injection Hc as <-. injection Hph as <-.
  assert (PS : phase_start [1] 0 = 0) by reflexivity. assert (PE : phase_end [1] 0 = 1) by (unfold phase_end; cbn; ring). rewrite PS, PE in *.
  rewrite (ctrl_pos_uniq Pc (bc_pts (da_cv (V3 0 (1/10) (4/5)))) 0 1 _ ltac:(lra) L1 C1) by (intros t; unfold cv_fun; cbn [bc_pts bc_T da_cv]; f_equal; ring).
  rewrite (ctrl_acc_uniq Pa (da_acc (V3 0 (1/10) (4/5))) 0 1 _ ltac:(lra) L2 C2).
  2: { intros t a Ha. rewrite (da_dd _ t a Ha). f_equal; ring. }
  split; [|split].
  - assert (K : forall p, -1/16 <= vy p -> kin_ok sa_c p).
    { intros p Hp [|j] K k' HK Hk; [|destruct j; discriminate]. injection HK as <-. injection Hk as <-. unfold vdot; cbn. lra. }
    repeat (apply Forall_cons; [apply K; cbn; lra|]). apply Forall_nil.
  - rewrite da_bound. unfold da_acc. repeat (apply Forall_cons; [repeat split; cbn [vx vy vz vzero]; apply Rabs_le; lra|]). apply Forall_nil.
  - apply Forall_forall. intros w _. constructor.
Qed.
(** The acceleration of the motion through the middle has 12 as a control point. *)
Example ex_C63_optimal_decimal : forall scaled wg mem glpk, exists ws rows H gg r,
  computeWwaypoints da_pb (total [1]) = Ok ws /\
  (exists p, In p (da_acc (mid_of da_pb)) /\ ~ within (acc_bound scaled da_pb [1]) p) /\
  genCostFunction da_pb [1] (total [1]) (computeDiscretizedTimeFixed [1] 7) 3 = Ok (H, gg) /\
  computeCOMTraj scaled wg (solve_quadprog mem) glpk da_pb [1] (-1) SOLVER_QUADPROG = Ok r /\
  well_scaled (eqp_of (plan_qp H gg rows)) /\
  ((rc_success r = true /\ exists x, rc_x r = l3 x /\ vnorm2 (vsub x (mid_of da_pb)) <= 1 / 100) \/
   (rc_success r = false /\ exists st, returns (eqp_of (plan_qp H gg rows)) mem st_MAX_ITER st)).
Proof.
  intros scaled wg mem glpk. assert (exists ws, computeWwaypoints da_pb (total [1]) = Ok ws) as [ws Ews] by (eexists; reflexivity). exists ws.
  destruct (C63_optimal_decimal scaled wg mem glpk da_pb [1] (-1) (V3 0 0 (-981/100)) 10 ws da_wp ltac:(lra) da_same dg_within eq_refl ltac:(left; reflexivity) Ews
    1 (da_cv vzero) 1 171 1 ltac:(repeat constructor; lra) ltac:(lra) (da_curve _) (da_within _ zero_in))
    as (rows & H & gg & r & EA & EC & ER & HO).
  - left. split; reflexivity.
  - apply da_scale.
  - pose proof dw_slack. unfold acc_ctrl_rate. rewrite sw_total in *. destruct scaled; lra.
  - apply da_ctrl_rate, Ews.
  - exists rows, H, gg, r. destruct (da_rows scaled rows EA) as [HLen HRow]. split; [exact Ews|].
    split; [eexists; split; [right; left; reflexivity|]; rewrite da_bound; intros (_ & W & _); unfold mid_of in W; cbn in W; pose proof (Rle_abs (- (20 * (1 / 2 * (0 + 0)) - 12))) as W2; rewrite Rabs_Ropp in W2; lra|].
    split; [exact EC|]. split; [exact ER|].
    assert (HW : well_scaled (eqp_of (plan_qp H gg rows))) by (cbn in EC; injection EC as <- <-; apply axis_scaled, HRow). split; [exact HW|].
    destruct (HO HW (V3 0 (1/10) (4/5)) _ 1 (da_curve _)) as [(S1 & x & s & s' & S2 & S3 & S4 & S5 & S6)|(F & _ & st & R)].
    + intros p [<-|[<-|[<-|[<-|[<-|[<-|[]]]]]]] HZ; rewrite sa_nz in HZ; discriminate.
    + apply da_within, in1; apply ab1; lra.
    + apply da_ctrl.
    + left. split; [exact S1|]. exists x. split; [exact S2|]. destruct S4 as [[_ ->]|[E _]]; [|discriminate]. destruct S5 as [[_ ->]|[E _]]; [|discriminate].
      eapply Rle_trans; [exact S6|]. unfold mid_of, vnorm2, vdot; cbn. lra.
    + right. split; [exact F|]. exists st. exact R.
Qed.
