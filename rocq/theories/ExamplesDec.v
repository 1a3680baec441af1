(** Concrete inputs for the theorems of PropertiesDec.v: standing still at (0,0,4/5)
    with all end conditions but the final acceleration, and a plan that has to leave
    the middle of its ends. *)
From Coq Require Import Lia Lra Psatz.
From Verif Require Import Vec SpecBezier SpecTime ModelData ModelDispatch ModelUtils ModelRows ModelCom ModelCont ModelSolver ModelTraj ModelQp
  SpecCom SpecWp SpecCtr SpecSolver SpecTraj SpecEnd SpecDec ProofBezier ProofCurve ProofWaypoints2 ProofTime ProofEmit ProofCom ProofCom2 ProofCom3 ProofTraj ProofTraj2 ProofTraj3 ProofQp3 ProofEnd ProofEnd2 ProofSolves
  PropertiesEnd PropertiesDec ExamplesCom ExamplesTraj ExamplesEnd SpecQp.
Open Scope R_scope.

Definition dc_pb (cost : Z) : problem :=
  Problem [ex_c0; ex_c1] (V3 0 0 (4/5)) vzero vzero vzero (V3 0 0 (4/5)) vzero vzero vzero vzero false
    (Constraints F_acc_dc1_c1 true 5 (1/10)) cost DOUBLE_DESCRIPTION.
Definition dc_cvx (x : vec3) : bcurve := BCurve [st_x; st_x; st_x; x; st_x; st_x] (3/2).
Definition dc_cv : bcurve := dc_cvx st_x.
Definition dg : vec3 := V3 0 0 (-981/100).
Lemma dc_wp cost : well_posed (dc_pb cost) [1; 1/2].
Proof.
  split; [cbn; tauto|]. split; [reflexivity|]. split; [discriminate|].
  split; [repeat constructor; lra|]. split; [reflexivity|].
  repeat constructor; eexists; (split; [reflexivity|]; split; [cbn; lra|]; split; [|cbn; lia]);
    repeat constructor; cbn; intros E; injection E; intros; lra.
Qed.
Lemma dc_same cost : same_gravity (dc_pb cost) dg.
Proof. intros c ph [<-|[<-|[]]] H; injection H as <-; reflexivity. Qed.
Lemma dc_flag cost : In (flag_of (dc_pb cost)) dec_w_flags.
Proof. left. reflexivity. Qed.
Lemma dg_within : within 10 dg.
Proof. unfold within, dg; cbn. repeat split; apply Rabs_le; lra. Qed.
Lemma dc_curve cost x : com_curve (dc_pb cost) (total [1; 1/2]) x = Ok (dc_cvx x).
Proof.
  rewrite st_total. cbv [com_curve]. cbn. unfold mk_bezier. destruct (Rle_dec (3/2) 0); [lra|].
  unfold dc_cvx, st_x. repeat f_equal; apply v3_eq; cbn; field.
Qed.
Lemma in1 x y z : Rabs x <= 1 -> Rabs y <= 1 -> Rabs z <= 1 -> within 1 (V3 x y z).
Proof. intros. repeat split; assumption. Qed.
Lemma ab1 x : -1 <= x <= 1 -> Rabs x <= 1.
Proof. intros. apply Rabs_le. lra. Qed.
Lemma dc_within x : within 1 x -> Forall (within 1) (bc_pts (dc_cvx x)).
Proof.
  intros Hx. assert (within 1 st_x) by (apply in1; apply ab1; lra).
  unfold dc_cvx; cbn [bc_pts]. repeat (apply Forall_cons; [assumption|]). apply Forall_nil.
Qed.
Lemma st_in : within 1 st_x. Proof. apply in1; apply ab1; lra. Qed.
Lemma zero_in : within 1 vzero. Proof. apply in1; apply ab1; lra. Qed.
Lemma dc_pos t : cv_fun dc_cv t = st_x.
Proof. apply v3_eq; cbv [cv_fun bc_pts bc_T dc_cv dc_cvx st_x length pred map curve bez3 bezl bez sumf bern binom nth vx vy vz Nat.add Nat.sub INR pow]; field. Qed.
Lemma dc_acc0 t : is_deriv_n 2 (cv_fun dc_cv) t vzero.
Proof.
  pose proof (curve_is_deriv_n 2 (bc_pts dc_cv) (3/2) t) as Hd.
  replace vzero with (curve (hodo_n 2 (3/2) (bc_pts dc_cv)) (3/2) t); [exact Hd|].
  apply v3_eq; cbv [dc_cv dc_cvx bc_pts st_x hodo_n hodo vdiffs length pred map curve bez3 bezl bez sumf bern binom nth vx vy vz vscal vsub vzero Nat.add Nat.sub INR pow]; field.
Qed.
Lemma dc_feasible cost sampled sl : -1 <= sl -> plan_feasible_by (dc_pb cost) sampled sl (cv_fun dc_cv).
Proof.
  intros Hsl i c t Hc _. assert (MG : margin (dc_pb cost) = 1 / 10) by (unfold margin; cbn; apply Rmax_right; lra). split.
  - destruct i as [|[|i]]; [| |destruct i; discriminate]; injection Hc as <-.
    + split.
      { rewrite dc_pos. intros [|[|j]] K k HK Hk; [| |destruct j; discriminate]; injection HK as <-; injection Hk as <-; unfold vdot, st_x; cbn; lra. }
      eexists; exists vzero. split; [reflexivity|]. split; [apply dc_acc0|].
      rewrite dc_pos, MG. constructor; [|constructor; [|constructor]].
      * pose proof (st_norm (1 * 1 + 0 * 0 + 1 / 2 * (1 / 2) + (0 * 0 + 0 * 0 + 0 * 0)) ltac:(lra)).
        pose proof (sqrt_pos (1 * 1 + 0 * 0 + 1 / 2 * (1 / 2) + (0 * 0 + 0 * 0 + 0 * 0))).
        unfold norm6, giw, dot6, vdot, vcross, st_x, vzero in *; cbn in *; nra.
      * pose proof (st_norm (-1 * -1 + 0 * 0 + 1 / 2 * (1 / 2) + (0 * 0 + 0 * 0 + 0 * 0)) ltac:(lra)).
        pose proof (sqrt_pos (-1 * -1 + 0 * 0 + 1 / 2 * (1 / 2) + (0 * 0 + 0 * 0 + 0 * 0))).
        unfold norm6, giw, dot6, vdot, vcross, st_x, vzero in *; cbn in *; nra.
    + split.
      { rewrite dc_pos. intros [|j] K k HK Hk; [|destruct j; discriminate]; injection HK as <-; injection Hk as <-; unfold vdot, st_x; cbn; lra. }
      eexists; exists vzero. split; [reflexivity|]. split; [apply dc_acc0|].
      rewrite dc_pos, MG. constructor; [|constructor].
      pose proof (st_norm (0 * 0 + 1 * 1 + 1 / 2 * (1 / 2) + (0 * 0 + 0 * 0 + 1 * 1)) ltac:(lra)).
      pose proof (sqrt_pos (0 * 0 + 1 * 1 + 1 / 2 * (1 / 2) + (0 * 0 + 0 * 0 + 1 * 1))).
      unfold norm6, giw, dot6, vdot, vcross, st_x, vzero in *; cbn in *; nra.
  - intros _. exists vzero. split; [apply dc_acc0|]. unfold within, vzero; cbn. rewrite Rabs_R0. lra.
Qed.
Lemma dc_small T : 1 <= T -> 0 <= dec_slack 10 1 T <= 1 / 1000.
Proof.
  intros HT. unfold dec_slack, err_force, err_moment, e13, e15. assert (P : 0 < / (T * T) <= 1).
  { assert (1 <= T * T) by nra. split; [apply Rinv_0_lt_compat; lra|]. rewrite <- Rinv_1. apply Rinv_le_contravar; lra. }
  unfold Rdiv at 1 4 5. lra.
Qed.
Lemma dc_slack : 0 <= dec_slack 10 1 (total [1; 1/2]) <= 1 / 1000.
Proof. apply dc_small. rewrite st_total. lra. Qed.
Lemma dc_weight ta : cost_weight (dc_pb DISTANCE_TRAVELED) [1; 1/2] ta 1.
Proof. left. split; reflexivity. Qed.
Lemma dc_scale : on_scale (dc_pb DISTANCE_TRAVELED) 1 (171 + 2 * dec_slack 10 1 (total [1; 1/2])) 1.
Proof.
  pose proof eps_tiny. pose proof eps_pos. pose proof dc_slack as S. set (b := dec_slack _ _ _) in *. clearbody b.
  split; [lra|]. split; [lra|]. split; [lra|]. split.
  { apply Rle_lt_trans with (eps52 * (172 * 172)); [|lra]. apply Rmult_le_compat_l; [lra|]. apply Rmult_le_compat; lra. }
  split; [lra|]. intros c K [<-|[<-|[]]] HK; cbn in HK.
  - destruct HK as [<-|[<-|[]]]; apply vnorm_bound; unfold vnorm2, vdot; cbn; lra.
  - destruct HK as [<-|[]]; apply vnorm_bound; unfold vnorm2, vdot; cbn; lra.
Qed.
Lemma dc_rate t : 0 <= t <= total [1; 1/2] -> wrench_rate (dc_pb DISTANCE_TRAVELED) (total [1; 1/2]) dg 171 t.
Proof.
  intros Ht. pose proof (C53_rate (dc_pb DISTANCE_TRAVELED) (total [1; 1/2]) dg 10 1 (dc_cvx vzero) t) as H.
  replace (1 + (120 + 240 * 1) / (total [1; 1/2] * total [1; 1/2]) + 10) with 171 in H by (rewrite st_total; lra).
  apply H; [cbn; tauto|apply dc_curve| |apply vnorm_bound; [lra|unfold vnorm2, vdot, dg; cbn; lra]|exact Ht].
  unfold dc_cvx; cbn [bc_pts]. repeat (apply Forall_cons; [apply vnorm_bound; [lra|unfold vnorm2, vdot, st_x; cbn; lra]|]). apply Forall_nil.
Qed.
Lemma dc_cheapest ta : cheapest (dc_pb DISTANCE_TRAVELED) [1; 1/2] ta st_x (cv_fun dc_cv).
Proof.
  intros y cv s s' _ [[_ ->]|[H _]] [[_ ->]|[H' _]]; try discriminate.
  replace (vsub st_x (mid_of (dc_pb DISTANCE_TRAVELED))) with vzero; [apply Rle_trans with 0; [unfold vnorm2, vdot; cbn; lra|apply ProofEnd.vnorm2_ge]|].
  unfold mid_of, st_x. apply v3_eq; cbn; field.
Qed.

(** The hypotheses of C53 and C54 hold for every number of points and every step, and
    the plan succeeds: it stands still. *)
Example ex_C53_fixed_decimal : forall scaled wg mem glpk p, (1 <= p)%nat ->
  well_posed (dc_pb DISTANCE_TRAVELED) [1; 1/2] /\ same_gravity (dc_pb DISTANCE_TRAVELED) dg /\ within 10 dg /\
  In (flag_of (dc_pb DISTANCE_TRAVELED)) dec_w_flags /\
  com_curve (dc_pb DISTANCE_TRAVELED) (total [1; 1/2]) vzero = Ok (dc_cvx vzero) /\ Forall (within 1) (bc_pts (dc_cvx vzero)) /\
  cost_weight (dc_pb DISTANCE_TRAVELED) [1; 1/2] (computeDiscretizedTimeFixed [1; 1/2] p) 1 /\
  on_scale (dc_pb DISTANCE_TRAVELED) 1 (171 + 2 * dec_slack 10 1 (total [1; 1/2])) 1 /\
  (forall i t, sampled_fixed [1; 1/2] p i t -> wrench_rate (dc_pb DISTANCE_TRAVELED) (total [1; 1/2]) dg 171 t) /\
  exists r, computeCOMTrajFixedSize scaled wg (solve_quadprog mem) glpk (dc_pb DISTANCE_TRAVELED) [1; 1/2] p = Ok r /\
    rc_success r = true /\ rc_x r = l3 st_x /\ rc_c r = dc_cv.
Proof.
  intros scaled wg mem glpk p Hp. split; [apply dc_wp|]. split; [apply dc_same|]. split; [apply dg_within|]. split; [apply dc_flag|]. split; [apply dc_curve|].
  split; [apply dc_within, zero_in|]. split; [apply dc_weight|]. split; [apply dc_scale|]. split.
  - intros i t Hs. apply dc_rate. exact (st_fixed_range p i t Hp Hs).
  - apply (C54_best_fixed_decimal scaled wg mem glpk (dc_pb DISTANCE_TRAVELED) [1; 1/2] p dg 10 1 st_x dc_cv 1 (dc_wp _) Hp (dc_same _) dg_within
      (dc_flag _) (dc_weight _) ltac:(lra) (dc_curve _ _) (dc_within _ st_in)); [|apply dc_cheapest].
    apply dc_feasible. pose proof dc_slack. lra.
Qed.
Example ex_C53_step_decimal : forall scaled wg mem glpk dt, 0 < dt ->
  exists ta, computeDiscretizedTime [1; 1/2] dt = Ok ta /\
  cost_weight (dc_pb DISTANCE_TRAVELED) [1; 1/2] ta 1 /\
  (forall i t, sampled_step [1; 1/2] dt i t -> wrench_rate (dc_pb DISTANCE_TRAVELED) (total [1; 1/2]) dg 171 t) /\
  exists r, computeCOMTraj scaled wg (solve_quadprog mem) glpk (dc_pb DISTANCE_TRAVELED) [1; 1/2] dt SOLVER_QUADPROG = Ok r /\
    rc_success r = true /\ rc_x r = l3 st_x /\ rc_c r = dc_cv.
Proof.
  intros scaled wg mem glpk dt Hdt. destruct (c15_step_dec (dc_pb DISTANCE_TRAVELED) [1; 1/2] dt dg 10 (dc_wp _) Hdt (dc_same _) dg_within (dc_flag _)) as (ta & _ & Et & _).
  exists ta. split; [exact Et|]. split; [apply dc_weight|]. split.
  - intros i t Hs. apply dc_rate. exact (st_step_range dt i t Hdt Hs).
  - apply (C54_best_step_decimal scaled wg mem glpk (dc_pb DISTANCE_TRAVELED) [1; 1/2] dt ta dg 10 1 st_x dc_cv 1 (dc_wp _) Hdt (dc_same _) dg_within
      (dc_flag _) Et (dc_weight _) ltac:(lra) (dc_curve _ _) (dc_within _ st_in)); [|apply dc_cheapest].
    apply dc_feasible. pose proof dc_slack. lra.
Qed.
Lemma dc_depends ta : In (total [1; 1/2]) (map fst ta) -> acc_depends (dc_pb ACCELERATION) [1; 1/2] ta.
Proof.
  intros HI. apply in_map_iff in HI. destruct HI as (tp & Et & Htp). rewrite st_total in Et.
  set (y := V3 1 0 (4/5)). destruct (com_acc (dc_cvx y) (3/2)) as [ay Hay].
  exists tp, st_x, y, dc_cv, (dc_cvx y), vzero, ay. rewrite Et. split; [exact Htp|]. split; [apply dc_curve|]. split; [apply dc_curve|].
  split; [apply dc_acc0|]. split; [exact Hay|].
  pose proof (curve_is_deriv_n 2 (bc_pts (dc_cvx y)) (3/2) (3/2)) as Hd.
  rewrite (is_deriv_n_unique 2 _ _ _ _ _ (fun _ => eq_refl) Hay Hd).
  intros E. apply (f_equal vx) in E. cbv [dc_cvx y bc_pts st_x hodo_n hodo vdiffs length pred map curve bez3 bezl bez sumf bern binom nth vx vy vz vscal vsub vzero Nat.add Nat.sub INR pow] in E. lra.
Qed.
Lemma dc_last : In (total [1; 1/2]) (map fst (computeDiscretizedTimeFixed [1; 1/2] 3)).
Proof. cbn. repeat ((left; lra) || right). Qed.
Example ex_C51_decimal : (exists r, computeCOMTraj true false exact_solver no_lp (dc_pb DISTANCE_TRAVELED) [1; 1/2] (1/5) SOLVER_QUADPROG = Ok r /\ rc_success r = true) /\
  (exists r, computeCOMTrajFixedSize true false exact_solver no_lp (dc_pb DISTANCE_TRAVELED) [1; 1/2] 4 = Ok r /\ rc_success r = true) /\
  (exists r, computeCOMTrajFixedSize true false exact_solver no_lp (dc_pb ACCELERATION) [1; 1/2] 3 = Ok r /\ rc_success r = true) /\
  (exists r, computeCOMTraj true false exact_solver no_lp (dc_pb ACCELERATION) [1; 1/2] (1/5) SOLVER_QUADPROG = Ok r /\ rc_success r = true).
Proof.
  assert (FE : forall cost sampled, plan_feasible_by (dc_pb cost) sampled (- dec_slack 10 1 (total [1; 1/2])) (cv_fun dc_cv)) by (intros; apply dc_feasible; pose proof dc_slack; lra).
  split; [|split; [|split]].
  - destruct (C51_distance_step_decimal true false exact_solver no_lp exact_solves (dc_pb DISTANCE_TRAVELED) [1; 1/2] dg 10 (dc_wp _) (dc_same _) dg_within (dc_flag _)
      (1/5) st_x dc_cv 1 ltac:(lra) eq_refl (dc_curve _ _) (dc_within _ st_in) (FE _ _)) as (r & _ & E & S & _). exists r. split; assumption.
  - destruct (C51_distance_fixed_decimal true false exact_solver no_lp exact_solves (dc_pb DISTANCE_TRAVELED) [1; 1/2] dg 10 (dc_wp _) (dc_same _) dg_within (dc_flag _)
      4%nat st_x dc_cv 1 ltac:(lia) eq_refl (dc_curve _ _) (dc_within _ st_in) (FE _ _)) as (r & _ & E & S & _). exists r. split; assumption.
  - destruct (C51_acceleration_fixed_decimal true false exact_solver no_lp exact_solves (dc_pb ACCELERATION) [1; 1/2] dg 10 (dc_wp _) (dc_same _) dg_within (dc_flag _)
      3%nat st_x dc_cv 1 ltac:(lia) eq_refl (dc_depends _ dc_last) (dc_curve _ _) (dc_within _ st_in) (FE _ _)) as (r & _ & _ & _ & E & S & _). exists r. split; assumption.
  - destruct (c15_step_dec (dc_pb ACCELERATION) [1; 1/2] (1/5) dg 10 (dc_wp _) ltac:(lra) (dc_same _) dg_within (dc_flag _)) as (ta & _ & Et & _).
    assert (HD : In (total [1; 1/2]) (map fst ta)).
    { unfold computeDiscretizedTime, computeDiscretizedTime_fuel in Et. cbn [step_outer] in Et. destruct (while_push _ 0 _ _ _ _) as [a|]; [|discriminate].
      destruct (while_push _ _ _ _ _ _) as [b|]; [|discriminate]. injection Et as <-. rewrite map_app. apply in_or_app. right. left. cbn; lra. }
    destruct (C51_acceleration_step_decimal true false exact_solver no_lp exact_solves (dc_pb ACCELERATION) [1; 1/2] dg 10 (dc_wp _) (dc_same _) dg_within (dc_flag _)
      (1/5) st_x dc_cv ta 1 ltac:(lra) eq_refl Et (dc_depends _ HD) (dc_curve _ _) (dc_within _ st_in) (FE _ _)) as (r & _ & _ & _ & E & S & _). exists r. split; assumption.
Qed.

(** Starting sideways as in ExamplesEnd.v, with c_y >= -1/16 asked at the times 0, 1/2, 1: the middle of
    the ends is not feasible, the hypotheses of C54_optimal_fixed_decimal hold. *)
Definition dw_pb : problem :=
  Problem [sw_c] (V3 0 0 (4/5)) (V3 0 (-1) 0) vzero vzero (V3 0 0 (4/5)) vzero vzero vzero vzero false
    (Constraints F_acc_dc1_c1 false 5 0) DISTANCE_TRAVELED DOUBLE_DESCRIPTION.
Lemma dw_wp : well_posed dw_pb [1].
Proof.
  split; [cbn; tauto|]. split; [reflexivity|]. split; [discriminate|].
  split; [repeat constructor; lra|]. split; [reflexivity|].
  repeat constructor; eexists; (split; [reflexivity|]; split; [cbn; lra|]; split; [|cbn; lia]). constructor.
Qed.
Lemma dw_same : same_gravity dw_pb (V3 0 0 (-981/100)).
Proof. intros c ph [<-|[]] H; injection H as <-; reflexivity. Qed.
Definition dw_cv (x : vec3) : bcurve := BCurve [V3 0 0 (4/5); V3 0 (-1/5) (4/5); V3 0 (-2/5) (4/5); x; V3 0 0 (4/5); V3 0 0 (4/5)] 1.
Lemma dw_curve x : com_curve dw_pb (total [1]) x = Ok (dw_cv x).
Proof.
  rewrite sw_total. cbv [com_curve]. cbn. unfold mk_bezier. destruct (Rle_dec 1 0); [lra|].
  unfold dw_cv. repeat f_equal; apply v3_eq; cbn; field.
Qed.
Lemma dw_within x : within 1 x -> Forall (within 1) (bc_pts (dw_cv x)).
Proof.
  intros Hx. unfold dw_cv; cbn [bc_pts]. repeat (apply Forall_cons; [assumption || (apply in1; apply ab1; lra)|]). apply Forall_nil.
Qed.
Lemma dw_in : within 1 (V3 0 (3/10) (4/5)). Proof. apply in1; apply ab1; lra. Qed.
Lemma dw_pos x t : vy (cv_fun (dw_cv x) t) = - (t * (1 - t) ^ 4) - 4 * t ^ 2 * (1 - t) ^ 3 + 10 * t ^ 3 * (1 - t) ^ 2 * vy x.
Proof. cbv [cv_fun bc_pts bc_T dw_cv length pred map curve bez3 bezl bez sumf bern binom nth vx vy vz Nat.add Nat.sub INR pow]. field. Qed.
Lemma dw_slack : 0 <= dec_slack 10 1 (total [1]) <= 1 / 1000.
Proof. apply dc_small. rewrite sw_total. lra. Qed.
Lemma dw_scale : on_scale dw_pb 1 (371 + 2 * dec_slack 10 1 (total [1])) 1.
Proof.
  pose proof eps_tiny. pose proof eps_pos. pose proof dw_slack as S. set (b := dec_slack _ _ _) in *. clearbody b.
  split; [lra|]. split; [lra|]. split; [lra|]. split.
  { apply Rle_lt_trans with (eps52 * (372 * 372)); [|lra]. apply Rmult_le_compat_l; [lra|]. apply Rmult_le_compat; lra. }
  split; [lra|].
  intros c K [<-|[]] HK; cbn in HK. destruct HK as [<-|[]]; apply vnorm_bound; unfold vnorm2, vdot; cbn; lra.
Qed.
Lemma dw_rate t : 0 <= t <= total [1] -> wrench_rate dw_pb (total [1]) (V3 0 0 (-981/100)) 371 t.
Proof.
  intros Ht. pose proof (C53_rate dw_pb (total [1]) (V3 0 0 (-981/100)) 10 1 (dw_cv vzero) t) as H.
  replace (1 + (120 + 240 * 1) / (total [1] * total [1]) + 10) with 371 in H by (rewrite sw_total; lra).
  apply H; [cbn; tauto|apply dw_curve| |apply vnorm_bound; [lra|unfold vnorm2, vdot; cbn; lra]|exact Ht].
  repeat (apply Forall_cons; [apply vnorm_bound; [lra|unfold vnorm2, vdot; cbn; lra]|]). apply Forall_nil.
Qed.
Lemma dw_cof pi t : computeConstantWaypoints dw_pb (total [1]) = Ok pi -> fst (cof dw_pb [1] pi t) = 10 * t ^ 3 * (1 - t) ^ 2.
Proof. cbn. intros E. injection E as <-. unfold cof. cbn. unfold total; cbn. field. Qed.
Lemma dw_rows rows : computeConstraintsOneStep dw_pb [1] (total [1]) (computeDiscretizedTimeFixed [1] 2) = Ok rows ->
  (length rows <= 3)%nat /\ forall r, In r rows -> exists a, fst r = V3 0 a 0 /\ (a = 0 \/ a = - (5 / 16)).
Proof.
  pose proof dw_wp as WP. pose proof (wp_pos _ _ WP) as HF. rewrite (fixed_tagged [1] 2 ltac:(lia) (wp_ne _ _ WP)). intros EA.
  assert (Eg : front_gravity dw_pb = Ok (V3 0 0 (-981/100))) by reflexivity.
  destruct (ws_ex dw_pb (total [1]) _ ltac:(cbn; tauto) ltac:(cbn; discriminate) (T_pos dw_pb [1] WP) Eg) as [ws Ews].
  destruct (curve_T dw_pb [1] WP vzero) as (pi & _ & Epi & _).
  destruct (filled dw_pb [1] (fixed_bs [1] 2) WP (fixed_bs_len [1] 2) (fixed_bs_ne [1] 2 ltac:(lia)) (fixed_times [1] 2 ltac:(lia) HF) ws pi _ Ews Epi Eg) as (n' & _ & _ & _ & _ & EA').
  rewrite EA in EA'. match type of EA' with _ = Ok ?l => assert (ER : rows = l) by congruence end. clear EA EA'. subst rows.
  split; [apply Nat.leb_le; reflexivity|]. intros r Hr. apply in_app_or in Hr. destruct Hr as [Hr|Hr].
  { exfalso. unfold all_stab in Hr. cbn in Hr. exact Hr. }
  apply in_app_or in Hr. destruct Hr as [Hr|[]].
  assert (K : forall t, In r (krows sw_c (cof dw_pb [1] pi t)) -> fst r = V3 0 (- (10 * t ^ 3 * (1 - t) ^ 2)) 0).
  { intros t [<-|[]]. unfold kin_row. cbn [fst]. rewrite (dw_cof pi t Epi). apply v3_eq; cbn; ring. }
  unfold all_kin in Hr. cbn [contacts dw_pb fixed_bs fixed_blocks rows_of flat_map seq map app rev] in Hr. rewrite !app_nil_r in Hr.
  repeat (apply in_app_or in Hr; destruct Hr as [Hr|Hr]); try (destruct Hr; fail);
    rewrite (K _ Hr); eexists; (split; [reflexivity|]); cbn [INR]; ((left; field) || (right; field)).
Qed.
Lemma dw_scaled rows gg H : genCostFunction dw_pb [1] (total [1]) (computeDiscretizedTimeFixed [1] 2) 3 = Ok (H, gg) ->
  (forall r, In r rows -> exists a, fst r = V3 0 a 0 /\ (a = 0 \/ a = - (5 / 16))) -> well_scaled (eqp_of (plan_qp H gg rows)).
Proof.
  intros EC HR. cbn in EC. injection EC as <- <-. set (q := eqp_of _). pose proof eps_pos as EP. pose proof eps_tiny as ES. assert (EE : eps52 * eps52 < / 10000) by nra.
  change (e_n q) with 3%nat.
  assert (HH : forall z i, (i < 3)%nat -> hmul q z i = z i).
  { intros z i Hi. unfold hmul, dot. change (e_n q) with 3%nat. cbn [sumf]. unfold q, eqp_of, plan_qp; cbn [e_H qp_H]. unfold mat_of. destruct i as [|[|[|i]]]; [| | |lia]; cbn [nth]; ring. }
  assert (RW : forall i, (i < e_I q)%nat -> e_CI q i 0%nat = 0 /\ e_CI q i 2%nat = 0 /\ (e_CI q i 1%nat = 0 \/ e_CI q i 1%nat = 5 / 16)).
  { intros i Hi. change (e_I q) with (length (map (@snd vec3 R) rows)) in Hi. rewrite map_length in Hi. destruct (nth_error rows i) as [r|] eqn:E; [|apply nth_error_None in E; lia].
    destruct (HR r (nth_error_In _ _ E)) as (a & Ea & Ha). unfold q, eqp_of, plan_qp; cbn [e_CI qp_CI]. unfold mat_of.
    assert (EN : nth i (map (fun r : vec3 * R => l3 (vopp (fst r))) rows) [] = l3 (vopp (fst r))) by (erewrite nth_error_nth by (apply map_nth_error; exact E); reflexivity).
    rewrite EN, Ea. cbn. lra. }
  intros v z Hv (a & b & D1 & _ & D3). change (e_n q) with 3%nat in D1, D3. cbn [e_E q eqp_of qp_ce0 plan_qp length sumf] in D1.
  assert (Hv' : exists i, (i < e_I q)%nat /\ v = e_CI q i) by (destruct Hv as [(i & Hi & _)|Hv]; [cbn in Hi; lia|exact Hv]).
  destruct Hv' as (i0 & Hi0 & ->). destruct (RW i0 Hi0) as (V0 & V2 & V1).
  assert (Z : forall c : nat, c = 0%nat \/ c = 2%nat -> z c = 0).
  { intros c Hc. assert (c < 3)%nat as Hc3 by (destruct Hc; subst; lia). specialize (D1 c Hc3). rewrite HH in D1 by exact Hc3.
    replace (sumf (e_I q) (fun k => b k * e_CI q k c)) with 0 in D1; [destruct Hc; subst c; rewrite D1, ?V0, ?V2; ring|].
    symmetry. apply ProofBezier.sumf_zero. intros k Hk. destruct (RW k Hk) as (W0 & W2 & _). destruct Hc; subst c; rewrite ?W0, ?W2; ring. }
  pose proof (Z 0%nat (or_introl eq_refl)) as Z0. pose proof (Z 2%nat (or_intror eq_refl)) as Z2.
  destruct (Req_dec (z 1%nat) 0) as [Z1|Z1].
  { left. intros [|[|[|i]]] Hi; [exact Z0|exact Z1|exact Z2|cbn in Hi; lia]. }
  right. assert (E1 : z 1%nat = e_CI q i0 1%nat).
  { pose proof (D1 1%nat ltac:(lia)) as E. rewrite HH in E by lia. replace (sumf (e_I q) (fun k => b k * e_CI q k 1%nat)) with 0 in E; [lra|].
    symmetry. apply ProofBezier.sumf_zero. intros k Hk. destruct (Req_dec (b k) 0) as [B|B]; [rewrite B; ring|].
    specialize (D3 k Hk B). unfold dot in D3. cbn [sumf] in D3. rewrite Z0, Z2 in D3. assert (e_CI q k 1%nat * z 1%nat = 0) as P by lra.
    apply Rmult_integral in P. destruct P as [P|P]; [rewrite P; ring|contradiction]. }
  assert (E2 : e_CI q i0 1%nat = 5 / 16) by (destruct V1 as [V1|V1]; [exfalso; apply Z1; lra|exact V1]).
  change (e_n q) with 3%nat. unfold dot. cbn [sumf]. rewrite Z0, Z2, E1, E2, V0, V2. split; [lra|]. split; [lra|].
  intros v' w Hv' Hw. assert (Hv2 : exists i, (i < e_I q)%nat /\ v' = e_CI q i) by (destruct Hv' as [(i & Hi & _)|Hv']; [cbn in Hi; lia|exact Hv']).
  destruct Hv2 as (i1 & Hi1 & ->). destruct (RW i1 Hi1) as (W0 & W2 & W1).
  pose proof (Hw 1%nat ltac:(lia)) as Ew. rewrite HH in Ew by lia. rewrite W0, W2, Ew. destruct W1 as [W1|W1]; rewrite W1; nra.
Qed.
Lemma dw_feasible x : vy x = 3 / 10 -> plan_feasible_by dw_pb (sampled_fixed [1] 2) (- dec_slack 10 1 (total [1])) (cv_fun (dw_cv x)).
Proof.
  intros Hx i c t Hc Hs. apply sw_times in Hs. destruct i as [|[|i]]; try discriminate. injection Hc as <-. split; [split|intros E; discriminate].
  - intros [|j] K k HK Hk; [|destruct j; discriminate]; injection HK as <-; injection Hk as <-.
    unfold vdot; cbn [vx vy vz]. rewrite dw_pos, Hx. destruct Hs as [->|[->| ->]]; lra.
  - eexists. destruct (com_acc (dw_cv x) t) as [acc Ha]. exists acc. split; [reflexivity|]. split; [exact Ha|]. constructor.
Qed.
Example ex_C54_optimal_decimal : forall scaled wg mem glpk,
  ~ plan_feasible_by dw_pb (sampled_fixed [1] 2) (- dec_slack 10 1 (total [1])) (cv_fun (dw_cv (mid_of dw_pb))) /\
  exists rows H gg r, genCostFunction dw_pb [1] (total [1]) (computeDiscretizedTimeFixed [1] 2) 3 = Ok (H, gg) /\
    computeCOMTrajFixedSize scaled wg (solve_quadprog mem) glpk dw_pb [1] 2 = Ok r /\
    well_scaled (eqp_of (plan_qp H gg rows)) /\
    rc_success r = true /\ exists x, rc_x r = l3 x /\ vnorm2 (vsub x (mid_of dw_pb)) <= 9 / 100.
Proof.
  intros scaled wg mem glpk. split.
  - intros F. destruct (F 0%nat sw_c (1/2) eq_refl) as [[K _] _].
    + exists 1%nat, 1. split; [lia|]. split; [reflexivity|]. unfold phase_start; cbn; field.
    + specialize (K 0%nat _ _ eq_refl eq_refl). unfold vdot in K; cbn [vx vy vz] in K. rewrite dw_pos in K. unfold mid_of in K; cbn in K. lra.
  - destruct (C54_optimal_fixed_decimal scaled wg mem glpk dw_pb [1] (V3 0 0 (-981/100)) 10 1 (dw_cv vzero) 1 371 1 dw_wp dw_same dg_within (or_introl eq_refl)
      ltac:(lra) (dw_curve _) (dw_within _ zero_in) dw_scale 2%nat ltac:(lia)) as (rows & H & gg & r & EA & EC & ER & HO).
    + left. split; reflexivity.
    + intros i t Hs. apply dw_rate. apply sw_times in Hs. rewrite sw_total. destruct Hs as [->|[->| ->]]; lra.
    + destruct (dw_rows rows EA) as [HLen HRow]. pose proof (dw_scaled rows gg H EC HRow) as HW. exists rows, H, gg, r. split; [exact EC|]. split; [exact ER|]. split; [exact HW|].
      destruct (HO HW (V3 0 (3/10) (4/5)) _ 1 (dw_curve _) (dw_within _ dw_in) (dw_feasible (V3 0 (3/10) (4/5)) eq_refl)) as [(S1 & x & s & s' & S2 & S3 & S4 & S5 & S6)|(_ & F & _)].
      2: { exfalso. destruct (length rows) as [|[|[|[|l]]]]; cbn in F; lia. }
      split; [exact S1|]. exists x. split; [exact S2|]. destruct S4 as [[_ ->]|[E _]]; [|discriminate]. destruct S5 as [[_ ->]|[E _]]; [|discriminate].
      eapply Rle_trans; [exact S6|]. unfold mid_of, vnorm2, vdot; cbn. lra.
Qed.
