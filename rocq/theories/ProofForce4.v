(** Force plans with the bundled QP solver (C73). *)
From Coq Require Import Lia Lra Psatz.
From Verif Require Import Vec SpecBezier SpecTime ModelData ModelWaypoints ModelDispatch ModelUtils ModelRows ModelCom ModelNd ModelCont ModelSolver ModelTraj ModelQp
  SpecCom SpecWp SpecCtr SpecCont SpecSolver SpecTraj SpecEnd SpecEnd2 SpecEnd3 SpecForce ProofBezier ProofCurve ProofWaypoints ProofWaypoints2 ProofWaypointsErr ProofTime ProofTime2
  ProofRows ProofEmit ProofCom ProofCom2 ProofCom3 ProofNd ProofCont ProofCont2 ProofCont3 ProofCont4 ProofCont5 ProofCont6 ProofCont7 ProofCont8 ProofCont9
  ProofSolver ProofTraj ProofTraj2 ProofTraj3 ProofQp3 ProofQp14 ProofEnd ProofEnd2 ProofEnd3 ProofEnd5 ProofEnd6 ProofForce ProofForce2 ProofForce3.
Import ListNotations.
Open Scope R_scope.

Lemma gencost_force pData Ts ta lam : well_posed pData Ts -> times_of Ts ta -> cost_weight pData Ts ta lam ->
  exists v, forall n, genCostFunction pData Ts (total Ts) ta (3 + n) = Ok (Hmat (mscal lam mid) n force_weight, l3 v ++ repeat 0 n).
Proof.
  intros WP HT HW. destruct HW as [[HC ->]|[HC HW]].
  - eexists. intros n. unfold genCostFunction, cost_genCostFunction. rewrite HC.
    cbn [Z.eqb ACCELERATION DISTANCE_TRAVELED Pos.eqb]. unfold computeCostMidPoint. rewrite (set_Hg_ok _ _ n).
    replace (mscal 1 mid) with mid by (unfold mscal, mid, vscal; cbn; f_equal; f_equal; ring). reflexivity.
  - destruct (disc_acc_ok pData Ts ta WP HT) as (ws & Ews & Hws). destruct (sum_acc ws mzero vzero) as [M v] eqn:ES.
    pose proof (sum_acc_M ws mzero vzero) as EM. rewrite ES in EM. cbn [fst] in EM.
    assert (EL : sum_list (map (fun w => fst w * fst w) ws) = lam).
    { set (d := V3 1 0 0). destruct (curve_T pData Ts WP d) as (? & cvd & _ & _ & Hd & _). destruct (curve_T pData Ts WP vzero) as (? & cv0 & _ & _ & H0 & _).
      specialize (HW d vzero cvd cv0 (map (fun w => ev_coefs w d) ws) (map (fun w => ev_coefs w vzero) ws) Hd H0).
      assert (FM : forall x cv, com_curve pData (total Ts) x = Ok cv -> Forall2 (fun tp a => is_deriv_n 2 (cv_fun cv) (fst tp) a) ta (map (fun w => ev_coefs w x) ws)).
      { intros y cv Hcv. specialize (Hws y cv Hcv). clear - Hws. induction Hws; constructor; auto. }
      specialize (HW (FM d cvd Hd) (FM vzero cv0 H0)). replace (lam * vnorm2 (vsub d vzero)) with lam in HW by (unfold d, vnorm2, vdot; cbn; ring).
      rewrite <- HW. clear. induction ws as [|w ws IH]; [reflexivity|]. cbn [map combine]. unfold sum_list in *. cbn [fold_right]. rewrite IH. f_equal.
      unfold ev_coefs, d, vnorm2, vdot; cbn. ring. }
    eexists. intros n. unfold genCostFunction, cost_genCostFunction. rewrite HC. cbn [Z.eqb ACCELERATION Pos.eqb].
    unfold computeCostMinAcceleration. rewrite Ews. cbn [bind]. rewrite ES, (set_Hg_ok _ _ n).
    replace (mscal lam mid) with M; [reflexivity|]. rewrite EM, EL. unfold madd, mzero, mscal, mid, vadd, vscal; cbn. f_equal; f_equal; ring.
Qed.
Lemma map_fst_combine {A B} : forall (l : list A) (m : list B), length l = length m -> map fst (combine l m) = l.
Proof. induction l as [|a l IH]; intros [|b m] H; try discriminate; cbn; [reflexivity|]. rewrite IH by (cbn in H; lia). reflexivity. Qed.
Lemma map_snd_combine {A B} : forall (l : list A) (m : list B), length l = length m -> map snd (combine l m) = m.
Proof. induction l as [|a l IH]; intros [|b m] H; try discriminate; cbn; [reflexivity|]. rewrite IH by (cbn in H; lia). reflexivity. Qed.
Lemma force_tol_nonneg F n lam : 0 <= lam -> 0 <= force_tol F n lam.
Proof.
  intros Hl. unfold force_tol, accuracy. pose proof (pos_INR (3 + F)). pose proof (pos_INR (n + (3 + F))). pose proof (pos_INR F). pose proof eps_pos.
  assert (0 < force_weight) by (unfold force_weight; lra). assert (0 < sqrt force_weight) by (apply sqrt_lt_R0; assumption).
  apply Rmult_le_pos; [|apply Rlt_le, Rinv_0_lt_compat; assumption]. repeat apply Rmult_le_pos; try assumption; try lra.
  assert (0 <= INR F * force_weight) by (apply Rmult_le_pos; lra). lra.
Qed.

Section Plan.
  Variables (scaled wg : bool) (mem : qst) (glpk : lp -> outcome (Z * R * list R)).
  Variables (pData : problem) (Ts : list R) (dt : R) (g : vec3) (lam B kap s : R) (pi : list vec3) (ws : list wp6).
  Hypothesis WP : well_posed pData Ts.
  Hypothesis SP : splittable Ts.
  Hypothesis Hdt : dt <= 0.
  Hypothesis SG : same_gravity pData g.
  Hypothesis NDD : representation pData <> DOUBLE_DESCRIPTION.
  Hypothesis Hf : In (flag_of pData) exact_w_flags.
  Hypothesis Epi : computeConstantWaypoints pData (total Ts) = Ok pi.
  Hypothesis Ews : computeWwaypoints pData (total Ts) = Ok ws.
  Hypothesis CW : cost_weight pData Ts (computeDiscretizedTimeFixed Ts 7) lam.
  Hypothesis OS : force_scale pData lam B kap s.
  Hypothesis HA : acc_ctrl_rate scaled Ts <= B.
  Hypothesis WR : wrench_ctrl_rate pData (total Ts) g (length ws) B.
  Let F := force_vars (force_counts (length ws) 0 (contacts pData)).
  Let tau := force_tol F (cont_rows_needed false (length pi) (length ws) (contacts pData)) lam.

  Lemma force_answer : exists r lw, computeCOMTraj scaled wg (solve_quadprog mem) glpk pData Ts dt SOLVER_QUADPROG = Ok r /\
    0 < total Ts /\ (2 <= length ws)%nat /\ length lw = length Ts /\
    (forall i p, nth_error lw i = Some p -> is_piece w6_add w6_scal (NDC ws 0 (total Ts) 1) (phase_start Ts i) (phase_end Ts i) p) /\
    (rc_success r = true -> exists x, rc_x r = l3 x /\ com_curve pData (total Ts) x = Ok (rc_c r) /\ plan_curve pData Ts r /\
       Forall (fun it => near_cone (tau * gen_len (cp_G (snd it))) (cp_G (snd it)) (item_w it x)) (fitems 0 lw (contacts pData)) /\
       (plan_no_zero_point r -> forall i c t, nth_error (contacts pData) i = Some c -> in_phase Ts i t ->
          kin_near tau c (cv_fun (rc_c r) t) /\ accel_within (acc_bound_near scaled pData Ts tau) (cv_fun (rc_c r)) t)).
  Proof.
    pose proof OS as (HB & HK & Hl & HBl & HKl & Hs & HKin & HG).
    assert (KP : 0 < force_weight) by (unfold force_weight; lra).
    pose proof (front_same _ _ _ WP SG) as Eg.
    assert (Hne : ws <> []).
    { destruct (cont_main scaled pData Ts WP SP) as (? & ws' & ? & ? & ? & ? & M). cbv zeta in M. destruct M as (_ & E & _ & L & _). rewrite Ews in E. injection E as <-.
      intros ->. cbn in L. lia. }
    pose proof (ws_opb6 pData Ts g ws B WP Hf Eg Hne Ews WR) as Fw.
    destruct (force_built scaled pData Ts WP NDD lam B kap s ws SP OS HA Ews Fw) as (pi' & rows & lw & M). cbv zeta in M. fold F in M.
    destruct M as (Epi' & HT & Lws & Llw & Plw & EF & EO & Lr & HR & HLi & HSp & HN). rewrite Epi in Epi'. injection Epi' as <-.
    set (items := fitems 0 lw (contacts pData)) in *.
    pose proof (fixed_times_of Ts 7 ltac:(lia) (wp_ne _ _ WP) (wp_pos _ _ WP)) as HTa.
    destruct (gencost_force pData Ts _ lam WP HTa CW) as (v & EC). specialize (EC F).
    destruct (fq_solves F lam v rows items EF Hl HR HLi s HSp Hs mem (repeat 0 (3 + F))) as (st & x & beta & obj & ES & Lb & HO).
    assert (Ht : 0 <= tau) by (apply force_tol_nonneg; lra).
    assert (E0 : exists res, rd_x res = l3 x ++ beta /\ rd_success res = Z.eqb st EIQUADPROG_FAST_OPTIMAL /\
      computeCOMTraj scaled wg (solve_quadprog mem) glpk pData Ts dt SOLVER_QUADPROG = genTraj scaled res pData (total Ts)).
    { exists (ResultData (Z.eqb st EIQUADPROG_FAST_OPTIMAL) (if Z.eqb st EIQUADPROG_FAST_OPTIMAL then obj else -1) (l3 x ++ beta)). split; [reflexivity|]. split; [reflexivity|].
      unfold computeCOMTraj. rewrite (wp_len pData Ts WP), total_sumR. destruct (Rlt_dec 0 dt); [lra|].
      rewrite EO. cbn [bind co_cols co_A co_D co_min mx_cols]. rewrite EC. cbn [bind fst snd].
      rewrite map_fst_combine, map_snd_combine by (rewrite rhss_len, strips_len; reflexivity).
      unfold solve. rewrite Z.eqb_refl. unfold addBoundaryConstraintsQuadProg. rewrite addMin_ok.
      - cbn [bind addConstraintMaxBoundQuadProg fst snd mx_rows mx_cols]. unfold fqp in ES. rewrite ES. cbn [bind]. reflexivity.
      - unfold mx_wf; cbn [mx_rows mx_cols]. rewrite !Forall_map. apply Forall_forall. intros r _. unfold padr; cbn [fst]. rewrite app_length, repeat_length. reflexivity.
      - discriminate.
      - cbn [mx_cols]. rewrite app_length, !repeat_length. reflexivity. }
    destruct E0 as (res & Ex & Er & E0). destruct (Z.eqb_spec st EIQUADPROG_FAST_OPTIMAL) as [Est|Est].
    - destruct (genTraj_ok scaled res pData Ts x beta WP Er Ex) as (r & EG & _ & _ & Hx & Hcv & Hp).
      exists r, lw. rewrite E0. split; [exact EG|]. split; [exact HT|]. split; [exact Lws|]. split; [exact Llw|]. split; [exact Plw|]. intros _.
      destruct (HO Est) as (HE & HNr & HBe). rewrite Lr in HNr, HBe. fold tau in HNr, HBe.
      exists x. split; [exact Hx|]. split; [exact Hcv|]. split; [exact Hp|]. split.
      + apply (strips_near tau x Ht items 0 [] beta eq_refl); [lia|exact HBe|exact HE].
      + intros Hnz. apply (HN tau x (rc_c r) Hcv); [|exact HNr].
        intros p Hp' Hz. specialize (Hnz p Hp' Hz). rewrite Hx in Hnz. unfold l3 in Hnz. injection Hnz as E1 E2 E3. apply v3_eq; assumption.
    - exists default_result, lw. rewrite E0. split; [apply genTraj_fail; exact Er|]. split; [exact HT|]. split; [exact Lws|]. split; [exact Llw|]. split; [exact Plw|]. discriminate.
  Qed.

  Lemma near_items lw x :
    Forall (fun it => near_cone (tau * gen_len (cp_G (snd it))) (cp_G (snd it)) (item_w it x)) (fitems 0 lw (contacts pData)) ->
    forall c, In c (contacts pData) -> Forall (fun it => snd it = php c -> near_cone (tau * gen_len (gens c)) (gens c) (item_w it x)) (fitems 0 lw (contacts pData)).
  Proof.
    intros H c Hc. eapply Forall_impl; [|exact H]. intros it N E. cbv beta in N. rewrite E in N.
    rewrite <- (gens_php c (wf_in pData Ts WP c Hc)) in N. exact N.
  Qed.

  Lemma c73_plan : exists r, computeCOMTraj scaled wg (solve_quadprog mem) glpk pData Ts dt SOLVER_QUADPROG = Ok r /\
    (rc_success r = true -> plan_curve pData Ts r /\
      (forall i c ph t acc, nth_error (contacts pData) i = Some c -> cd_phase c = Some ph ->
         ~ left_to_prev (contacts pData) i -> ~ left_to_next (contacts pData) i ->
         in_phase Ts i t -> is_deriv_n 2 (cv_fun (rc_c r)) t acc ->
         near_cone (tau * gen_len (cp_G ph)) (cp_G ph) (giw (cp_mass ph) (cp_gravity ph) (cv_fun (rc_c r) t) acc)) /\
      (plan_no_zero_point r -> forall i c t, nth_error (contacts pData) i = Some c -> in_phase Ts i t ->
         kin_near tau c (cv_fun (rc_c r) t) /\ accel_within (acc_bound_near scaled pData Ts tau) (cv_fun (rc_c r)) t)).
  Proof.
    destruct force_answer as (r & lw & E & HT & Lws & Llw & Plw & H). exists r. split; [exact E|]. intros Hs.
    destruct (H Hs) as (x & _ & Hcv & Hp & HI & HN). split; [exact Hp|]. split; [|exact HN].
    intros i c ph t acc Hc Hph NP NN Ht Hacc. destruct (php_some c (wf_nth pData Ts WP i c Hc)) as [Ep _].
    assert (E1 : php c = ph) by congruence. assert (EG : cp_G ph = gens c) by (unfold gens; rewrite Hph; reflexivity). rewrite EG, <- E1.
    destruct (nth_error lw i) as [p|] eqn:E3; [|apply nth_error_None in E3; destruct Ht; lia].
    apply (near_at pData Ts WP ws lw HT Plw g x _ c i p t acc); try assumption. intros w Hw. destruct (In_nth_error _ _ Hw) as [j Hj].
    apply (items_all pData Ts WP ws lw Lws Llw Plw (fun c v => near_cone (tau * gen_len (gens c)) (gens c) v) x (near_items lw x HI) i c p j w Hc E3 Hj); intros _; assumption.
  Qed.

  Lemma c73_nested E : long_phases Ts -> cones_nested (contacts pData) ->
    (forall c ph, In c (contacts pData) -> cd_phase c = Some ph -> gen_len (cp_G ph) <= E * cp_mass ph) ->
    exists r, computeCOMTraj scaled wg (solve_quadprog mem) glpk pData Ts dt SOLVER_QUADPROG = Ok r /\
    (rc_success r = true -> forall i c ph t acc, nth_error (contacts pData) i = Some c -> cd_phase c = Some ph ->
         in_phase Ts i t -> is_deriv_n 2 (cv_fun (rc_c r)) t acc ->
         near_cone (tau * E * cp_mass ph) (cp_G ph) (giw (cp_mass ph) (cp_gravity ph) (cv_fun (rc_c r) t) acc)).
  Proof.
    intros HL CN HE. destruct force_answer as (r & lw & E0 & HT & Lws & Llw & Plw & H). exists r. split; [exact E0|]. intros Hs.
    destruct (H Hs) as (x & _ & Hcv & Hp & HI & _).
    assert (Ht0 : 0 <= tau) by (pose proof OS as (_ & _ & Hl & _); apply force_tol_nonneg; unfold force_weight in Hl; lra).
    intros i c ph t acc Hc Hph Ht Hacc. destruct (php_some c (wf_nth pData Ts WP i c Hc)) as [Ep Hm].
    assert (E1 : php c = ph) by congruence. assert (EG : cp_G ph = gens c) by (unfold gens; rewrite Hph; reflexivity).
    assert (EP : 0 <= E).
    { pose proof (HE c ph (nth_error_In _ _ Hc) Hph) as Q. pose proof (gen_len_nonneg (cp_G ph)) as P. rewrite <- E1 in Q, P.
      apply Rnot_lt_le. intros N. assert (E * cp_mass (php c) < 0) by nra. lra. }
    rewrite EG, <- E1. destruct (nth_error lw i) as [p|] eqn:E3; [|apply nth_error_None in E3; destruct Ht; lia].
    apply (near_at pData Ts WP ws lw HT Plw g x _ c i p t acc); try assumption. intros w Hw.
    apply (near_nested pData Ts WP ws lw HT Lws Llw Plw g x (tau * E) HL SG ltac:(apply Rmult_le_pos; assumption) CN) with (i := i) (pw := p); [|assumption..].
    intros i' c' pw' j' w' Hc' Hp' Hj' A B'. destruct (php_some c' (wf_nth pData Ts WP i' c' Hc')) as [Ep' _].
    apply (near_le (tau * gen_len (gens c'))).
    - rewrite Rmult_assoc. apply Rmult_le_compat_l; [exact Ht0|]. unfold gens. rewrite Ep'. apply (HE c'); [eapply nth_error_In; eauto|exact Ep'].
    - exact (items_all pData Ts WP ws lw Lws Llw Plw (fun c v => near_cone (tau * gen_len (gens c)) (gens c) v) x (near_items lw x HI) i' c' pw' j' w' Hc' Hp' Hj' A B').
  Qed.
End Plan.
