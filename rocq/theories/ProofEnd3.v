(** Plans made with the bundled QP solver (C53). *)
From Verif Require Import Vec SpecBezier SpecTime ModelData ModelDispatch ModelUtils ModelRows ModelCom ModelNd ModelCont ModelSolver ModelTraj ModelQp
  SpecCom SpecWp SpecCtr SpecSolver SpecTraj SpecQp SpecEnd ProofBezier ProofCurve ProofWaypoints ProofWaypoints2 ProofWaypointsErr ProofTime ProofTime2
  ProofRows ProofEmit ProofCom ProofCom2 ProofCom3 ProofSolver ProofTraj ProofTraj2 ProofQp14 ProofEnd ProofEnd2.
Open Scope R_scope.

Lemma rows_of_Forall {A} (P : vec3 * R -> Prop) (ford fsw : contact -> A -> list (vec3 * R)) : forall conts bs,
  length conts = length bs ->
  (Forall P (rows_of ford fsw conts bs) <->
   (forall i c b a, nth_error conts i = Some c -> nth_error bs i = Some b -> In a b -> Forall P (ford c a)) /\
   (forall i c b b' a, nth_error conts (S i) = Some c -> nth_error bs i = Some b -> b = b' ++ [a] -> Forall P (fsw c a))).
Proof.
  induction conts as [|c conts IH]; intros [|b bs] HL; try discriminate.
  - split; [|intros; constructor]. intros _. split; intros [|i]; discriminate.
  - cbn [rows_of]. rewrite !Forall_app, (IH bs) by (cbn in HL; lia). rewrite Forall_flat_map, Forall_forall. split.
    + intros (H1 & H2 & H3 & H4). split.
      * intros [|i] c' b' a Hc Hb Ha; cbn in Hc, Hb; [|eapply H3; eauto].
        injection Hc as <-. injection Hb as <-. auto.
      * intros [|i] c' b' b'' a Hc Hb Ha; cbn [nth_error] in Hc, Hb; [|eapply H4; eauto].
        injection Hb as <-. subst b. rewrite rev_app_distr in H2. cbn [rev app] in H2.
        destruct conts as [|c2 conts]; [discriminate|]. injection Hc as <-. exact H2.
    + intros [H1 H2]. split; [|split; [|split]].
      * intros a Ha. apply (H1 0%nat c b a); auto.
      * destruct conts as [|c2 conts]; [constructor|]. destruct (rev b) as [|a r] eqn:Er; [constructor|].
        apply (H2 0%nat c2 b (rev r) a); try reflexivity.
        rewrite <- (rev_involutive b), Er. reflexivity.
      * intros i c' b' a Hc Hb Ha. apply (H1 (S i) c' b' a); assumption.
      * intros i c' b' b'' a Hc Hb Ha. apply (H2 (S i) c' b' b'' a); assumption.
Qed.

Lemma wrench_giw1 g c acc : wrench g c acc = v6sub (g, vzero) (giw 1 g c acc).
Proof. unfold wrench, v6sub, giw; cbn [fst snd]. f_equal; apply v3_eq; cbn; ring. Qed.

Section Blocks.
  Variable pData : problem.
  Variable Ts : list R.
  Variable bs : list (list R).
  Hypothesis WP : well_posed pData Ts.
  Hypothesis HLbs : length bs = length Ts.
  Hypothesis HNe : Forall (fun b => b <> []) bs.
  Hypothesis HTm : forall b t, In b bs -> In t b -> 0 <= t <= total Ts.
  Variable smp : nat -> R -> Prop.
  Hypothesis Hsmp : forall i t, (i < length Ts)%nat -> (smp i t <-> in_block bs i t \/ at_switch bs i t).
  Variable g : vec3.
  Hypothesis SG : same_gravity pData g.
  Hypothesis Hf : In (flag_of pData) exact_w_flags.
  Variables lam B kap : R.
  Hypothesis OS : on_scale pData lam B kap.
  Hypothesis WR : forall b t, In b bs -> In t b -> wrench_rate pData (total Ts) g B t.
  Let T := total Ts.

  Variables (ws : list wp6) (pi : list vec3).
  Hypothesis Ews : computeWwaypoints pData T = Ok ws.
  Hypothesis Epi : computeConstantWaypoints pData T = Ok pi.
  Hypothesis Eg : front_gravity pData = Ok g.

  Lemma w_wrench t x cv acc : 0 <= t <= T -> com_curve pData T x = Ok cv -> is_deriv_n 2 (cv_fun cv) t acc ->
    ev_w6 (wf_t Ts ws t) x = wrench g (cv_fun cv t) acc.
  Proof.
    intros Ht Hcv Ha. destruct (c05_ok _ _ _ _ _ Hf Hcv Eg) as (ws' & Hw' & Hall). fold T in Hw'. rewrite Ews in Hw'. injection Hw' as <-.
    rewrite (wf_t_ev pData Ts WP ws t x Ht). apply Hall, Ha.
  Qed.

  Lemma row_stab t u b : In b bs -> In t b -> norm6 u <= 1 -> vnorm (v6_mmul u (wf_t Ts ws t)) <= B.
  Proof.
    intros Hb Ht Hu. destruct OS as (HB & _). apply adjoint_le; [lra|exact Hu|]. intros d.
    destruct (curve_T pData Ts WP d) as (? & cvd & _ & _ & Hd & _). destruct (curve_T pData Ts WP vzero) as (? & cv0 & _ & _ & H0 & _).
    destruct (com_acc cvd t) as [ad Had]. destruct (com_acc cv0 t) as [a0 Ha0]. pose proof (HTm b t Hb Ht) as Hr.
    rewrite (w_wrench t d cvd ad Hr Hd Had), (w_wrench t vzero cv0 a0 Hr H0 Ha0), !wrench_giw1.
    pose proof (WR b t Hb Ht vzero d cv0 cvd a0 ad H0 Hd Ha0 Had) as HW.
    replace (vnorm (vsub vzero d)) with (vnorm d) in HW by (rewrite <- (vnorm_opp d); f_equal; apply v3_eq; cbn; ring).
    replace (v6sub (v6sub (g, vzero) (giw 1 g (cv_fun cvd t) ad)) (v6sub (g, vzero) (giw 1 g (cv_fun cv0 t) a0)))
      with (v6sub (giw 1 g (cv_fun cv0 t) a0) (giw 1 g (cv_fun cvd t) ad)); [exact HW|].
    destruct (giw 1 g (cv_fun cv0 t) a0) as [u0 w0]. destruct (giw 1 g (cv_fun cvd t) ad) as [u1 w1].
    unfold v6sub; cbn [fst snd]. f_equal; apply v3_eq; cbn; ring.
  Qed.
  Lemma row_acc t b : In b bs -> In t b -> Rabs (fst (aof pData Ts pi t)) <= B.
  Proof.
    intros Hb Ht. set (d := V3 1 0 0). assert (Nd : vnorm (vsub d vzero) = 1).
    { unfold vnorm, vnorm2, vdot, d; cbn. replace ((1 - 0) * (1 - 0) + (0 - 0) * (0 - 0) + (0 - 0) * (0 - 0)) with 1 by ring. apply sqrt_1. }
    destruct (curve_T pData Ts WP d) as (? & cvd & _ & _ & Hd & _). destruct (curve_T pData Ts WP vzero) as (? & cv0 & _ & _ & H0 & _).
    pose proof (aof_ev pData Ts WP pi cvd t d Epi Hd) as Had. pose proof (aof_ev pData Ts WP pi cv0 t vzero Epi H0) as Ha0.
    pose proof (WR b t Hb Ht d vzero cvd cv0 _ _ Hd H0 Had Ha0) as HW. rewrite Nd, Rmult_1_r in HW.
    eapply Rle_trans; [|exact HW]. eapply Rle_trans; [|apply norm6_fst]. unfold giw, v6sub; cbn [fst snd]. unfold ev_coefs.
    set (co := aof pData Ts pi t). clearbody co. set (v := vsub _ _).
    assert (E : v = vscal (- fst co) d) by (unfold v, d; apply v3_eq; cbn; ring).
    rewrite E, vnorm_scal, Rabs_Ropp. unfold vnorm, vnorm2, vdot, d; cbn.
    replace (1 * 1 + 0 * 0 + 0 * 0) with 1 by ring. rewrite sqrt_1. lra.
  Qed.
  Lemma row_kin t b : In b bs -> In t b -> Rabs (fst (cof pData Ts pi t)) <= 1.
  Proof.
    intros Hb Ht. destruct (curve_T pData Ts WP vzero) as (? & cv0 & _ & _ & H0 & _). pose proof WP as (Hfc & _).
    assert (HM : exists M, Forall (fun p => vnorm p <= M) (bc_pts cv0)).
    { generalize (bc_pts cv0). intros l. induction l as [|a l [M IH]]; [exists 0; constructor|]. exists (Rmax M (vnorm a)).
      constructor; [apply Rmax_r|]. eapply Forall_impl; [|exact IH]. intros p Hp. eapply Rle_trans; [exact Hp|apply Rmax_l]. }
    destruct HM as [M HM]. destruct (com_affine pData T cv0 t M Hfc H0 (HTm b t Hb Ht) HM) as (al & be & p & q & Hal & _ & _ & _ & HC).
    set (d := V3 1 0 0). destruct (curve_T pData Ts WP d) as (? & cvd & _ & _ & Hd & _).
    destruct (com_acc cvd t) as [ad Had]. destruct (com_acc cv0 t) as [a0 Ha0].
    destruct (HC d cvd ad Hd Had) as [E1 _]. destruct (HC vzero cv0 a0 H0 Ha0) as [E2 _].
    rewrite <- (cof_ev pData Ts WP pi cvd t d Epi Hd) in E1. rewrite <- (cof_ev pData Ts WP pi cv0 t vzero Epi H0) in E2.
    set (co := cof pData Ts pi t) in *. clearbody co. unfold ev_coefs, d in *. cbn [fst snd] in *.
    assert (X1 : fst co * 1 + vx (snd co) = al * 1 + vx p) by exact (f_equal vx E1).
    assert (X2 : fst co * 0 + vx (snd co) = al * 0 + vx p) by exact (f_equal vx E2).
    rewrite Rabs_right; lra.
  Qed.
  Lemma urow_norm c Hh : In c (contacts pData) -> In Hh (cp_poly (php c)) -> norm6 (fst (urow (php c) Hh (margin pData))) = 1.
  Proof.
    intros Hc HH. destruct (wf_in pData Ts WP c Hc) as (ph & Eph & _ & Hrows & _).
    assert (Ep : php c = ph) by (unfold php; rewrite Eph; reflexivity). rewrite Ep in *. rewrite Forall_forall in Hrows.
    pose proof (ProofCom.norm6_pos _ (Hrows Hh HH)) as P. unfold urow; cbn [fst]. rewrite norm6_scal, Rabs_Ropp, Rabs_right; [apply Rinv_l, Rgt_not_eq, P|].
    apply Rle_ge, Rlt_le, Rinv_0_lt_compat, P.
  Qed.
  Lemma mh_short c t b Hh : In c (contacts pData) -> In b bs -> In t b -> In Hh (mh pData c) -> vnorm (v6_mmul (fst Hh) (wf_t Ts ws t)) <= B.
  Proof.
    intros Hc Hb Ht HI. unfold mh in HI. rewrite (updateH_ok pData c (wf_in pData Ts WP c Hc)) in HI. cbn [okd] in HI.
    apply in_map_iff in HI. destruct HI as (H0 & <- & HI). apply (row_stab t _ b Hb Ht). rewrite (urow_norm c H0 Hc HI). lra.
  Qed.

  Definition all_rows := all_stab pData Ts bs ws g ++ all_kin pData Ts bs pi ++ all_acc pData Ts bs pi.

  Lemma last_in (b b' : list R) t : b = b' ++ [t] -> In t b.
  Proof. intros ->. apply in_or_app. right. left. reflexivity. Qed.

  Lemma rows_short r : In r all_rows -> eps52 * vnorm2 (fst r) < lam * lam.
  Proof.
    destruct OS as (HB & HK & Hl & HBl & HKl & HKin).
    assert (SB : forall r : vec3 * R, vnorm (fst r) <= B -> eps52 * vnorm2 (fst r) < lam * lam).
    { intros r0 H. pose proof (vnorm_ge (fst r0)). rewrite <- vnorm_sq. assert (0 < eps52) by (apply ProofQp3.eps_pos).
      eapply Rle_lt_trans; [|exact HBl]. apply Rmult_le_compat_l; [lra|]. apply Rmult_le_compat; assumption. }
    assert (SK : forall r : vec3 * R, vnorm (fst r) <= kap -> eps52 * vnorm2 (fst r) < lam * lam).
    { intros r0 H. pose proof (vnorm_ge (fst r0)). rewrite <- vnorm_sq. assert (0 < eps52) by (apply ProofQp3.eps_pos).
      eapply Rle_lt_trans; [|exact HKl]. apply Rmult_le_compat_l; [lra|]. apply Rmult_le_compat; assumption. }
    pose proof (HLc pData Ts bs WP HLbs) as HL.
    assert (F : Forall (fun r => eps52 * vnorm2 (fst r) < lam * lam) all_rows); [|rewrite Forall_forall in F; apply F].
    unfold all_rows. rewrite !Forall_app. split; [|split].
    - apply rows_of_Forall; [exact HL|].
      assert (K : forall c b t g', In c (contacts pData) -> In b bs -> In t b -> Forall (fun r => eps52 * vnorm2 (fst r) < lam * lam) (srows g' (mh pData c) (wf_t Ts ws t))).
      { intros c b t g' Hc Hb Ht. rewrite Forall_forall. intros r' Hr'. apply SB.
        apply (srows_short g' (mh pData c) (wf_t Ts ws t) B HB (fun Hh HI => mh_short c t b Hh Hc Hb Ht HI) r' Hr'). }
      split; [intros i c b t Hc Hb Ht|intros i c b b' t Hc Hb Ht]; eapply K; eauto using nth_error_In, last_in.
    - apply rows_of_Forall; [exact HL|].
      assert (K : forall c b t, In c (contacts pData) -> In b bs -> In t b -> Forall (fun r => eps52 * vnorm2 (fst r) < lam * lam) (krows c (cof pData Ts pi t))).
      { intros c b t Hc Hb Ht. rewrite Forall_forall. intros r' Hr'. apply SK.
        apply (krow_short (cof pData Ts pi t) kap (row_kin t b Hb Ht) _ _ _ (krows_eq pData Ts WP c _ Hc) (fun K HI => HKin c K Hc HI) r' Hr'). }
      split; [intros i c b t Hc Hb Ht|intros i c b b' t Hc Hb Ht]; eapply K; eauto using nth_error_In, last_in.
    - unfold all_acc. destruct (k_constraintAcceleration (constr pData)); [|constructor]. rewrite Forall_flat_map, Forall_forall.
      intros t Ht. apply in_concat in Ht. destruct Ht as (b & Hb & Ht). rewrite Forall_forall. intros r' Hr'. apply SB.
      rewrite (acc_short _ _ _ _ Hr'). exact (row_acc t b Hb Ht).
  Qed.

  Lemma rows_near tau x cv : 0 <= tau -> com_curve pData T x = Ok cv -> near tau all_rows x ->
    forall i c t, nth_error (contacts pData) i = Some c -> smp i t ->
      contact_near pData tau (tau * B) c (cv_fun cv) t /\ accel_near pData tau (cv_fun cv) t.
  Proof.
    intros Ht Hcv HN i c t Hc Hs. unfold all_rows in HN. apply near_app in HN. destruct HN as [HS HN]. apply near_app in HN. destruct HN as [HK HA].
    pose proof (HLc pData Ts bs WP HLbs) as HL. pose proof HL as HL2. rewrite HLbs in HL2.
    assert (Hi : (i < length Ts)%nat) by (rewrite <- HL2; apply nth_error_Some; congruence).
    apply (rows_of_Forall _ _ _ _ _ HL) in HS. apply (rows_of_Forall _ _ _ _ _ HL) in HK.
    assert (Hin : In c (contacts pData)) by (eapply nth_error_In; eauto).
    pose proof (php_eq pData Ts WP c Hin) as Hph. pose proof (SG c _ Hin Hph) as Hg.
    assert (Q : exists b, In b bs /\ In t b /\ near tau (srows g (mh pData c) (wf_t Ts ws t)) x /\ near tau (krows c (cof pData Ts pi t)) x).
    { apply Hsmp in Hs; [|exact Hi]. destruct Hs as [(b & Hb & Htb)|(i' & b & b' & -> & Hb & E)]; exists b.
      - split; [eapply nth_error_In; eauto|]. split; [exact Htb|]. split; [exact (proj1 HS i c b t Hc Hb Htb)|exact (proj1 HK i c b t Hc Hb Htb)].
      - split; [eapply nth_error_In; eauto|]. split; [eapply last_in; eauto|]. rewrite <- Hg at 1.
        split; [exact (proj2 HS i' c b b' t Hc Hb E)|exact (proj2 HK i' c b b' t Hc Hb E)]. }
    destruct Q as (b & Hb & Htb & Q1 & Q2). pose proof (HTm b t Hb Htb) as Hr. destruct (com_acc cv t) as [acc Hacc].
    split; [split|].
    - intros k K kk HKk Hkk. rewrite <- (cof_ev pData Ts WP pi cv t x Epi Hcv).
      exact (krow_near (cof pData Ts pi t) x tau _ _ _ (krows_eq pData Ts WP c _ Hin) Q2 k K kk HKk Hkk).
    - exists (php c), acc. split; [exact Hph|]. split; [exact Hacc|]. destruct OS as (HB & _).
      pose proof (srows_near g (mh pData c) (wf_t Ts ws t) B HB (fun Hh HI => mh_short c t b Hh Hin Hb Htb HI) tau x Ht Q1) as Q.
      unfold mh in Q. rewrite (updateH_ok pData c (wf_in pData Ts WP c Hin)) in Q. cbn [okd] in Q. rewrite Forall_map in Q.
      rewrite (w_wrench t x cv acc Hr Hcv Hacc) in Q. unfold cone_ok. rewrite Forall_forall in *. intros Hh HI. specialize (Q Hh HI).
      destruct (wf_in pData Ts WP c Hin) as (ph & Eph & Hm & Hrows & _). assert (Ep : php c = ph) by (unfold php; rewrite Eph; reflexivity).
      rewrite Ep in *. rewrite Forall_forall in Hrows.
      assert (Q' : dot6 (fst (urow ph Hh (margin pData - tau * B))) (v6sub (wrench g (cv_fun cv t) acc) (g, vzero)) <= snd (urow ph Hh (margin pData - tau * B)))
        by (unfold urow in *; cbn [fst snd] in *; lra).
      apply (urow_ok ph Hh _ _ g Hm (Hrows Hh HI)) in Q'. rewrite wrench_giw2 in Q'. rewrite Hg.
      rewrite <- giw2_same. replace (snd Hh - margin pData + tau * B) with (snd Hh - (margin pData - tau * B)) by ring. exact Q'.
    - intros HC. exists (ev_coefs (aof pData Ts pi t) x). split; [apply (aof_ev pData Ts WP pi cv t x Epi Hcv)|].
      unfold all_acc in HA. rewrite HC in HA. unfold near in HA. rewrite Forall_flat_map, Forall_forall in HA.
      specialize (HA t ltac:(apply in_concat; exists b; auto)). destruct (aof pData Ts pi t) as [a v]. cbn [fst snd] in HA. apply acc_near, HA.
  Qed.
End Blocks.

(** * Hessian *)
Lemma sum_acc_M : forall ws M v, fst (sum_acc ws M v) = madd M (mscal (sum_list (map (fun w => fst w * fst w) ws)) mid).
Proof.
  induction ws as [|w ws IH]; intros M v; cbn [sum_acc map sum_list fold_right fst].
  - destruct M as [[a1 a2 a3] [b1 b2 b3] [c1 c2 c3]]. unfold madd, mscal, mid, vadd, vscal; cbn. f_equal; f_equal; ring.
  - rewrite IH. unfold sum_list. destruct M as [[a1 a2 a3] [b1 b2 b3] [c1 c2 c3]]. unfold madd, mscal, mid, vadd, vscal; cbn. f_equal; f_equal; ring.
Qed.
Lemma gencost_id pData Ts ta lam : well_posed pData Ts -> times_of Ts ta -> cost_weight pData Ts ta lam ->
  exists H v, genCostFunction pData Ts (total Ts) ta 3 = Ok (H, l3 v) /\
    forall i j, (i < 3)%nat -> (j < 3)%nat -> mat_of H i j = if Nat.eqb i j then lam else 0.
Proof.
  intros WP HT HW.
  assert (HM : forall l i j, (i < 3)%nat -> (j < 3)%nat -> mat_of (Hmat (mscal l mid) 0 (1 / 1000000)) i j = if Nat.eqb i j then l else 0).
  { intros l i j Hi Hj. destruct i as [|[|[|i]]]; [| | |lia]; (destruct j as [|[|[|j]]]; [| | |lia]); cbn; ring. }
  destruct HW as [[HC ->]|[HC HW]].
  - eexists _, _. split; [|apply (HM 1)]. unfold genCostFunction, cost_genCostFunction. rewrite HC.
    cbn [Z.eqb ACCELERATION DISTANCE_TRAVELED Pos.eqb]. unfold computeCostMidPoint. rewrite (set_Hg_ok _ _ 0).
    replace (mscal 1 mid) with mid by (unfold mscal, mid, vscal; cbn; f_equal; f_equal; ring). rewrite app_nil_r. reflexivity.
  - destruct (disc_acc_ok pData Ts ta WP HT) as (ws & Ews & Hws). destruct (sum_acc ws mzero vzero) as [M v] eqn:ES.
    pose proof (sum_acc_M ws mzero vzero) as EM. rewrite ES in EM. cbn [fst] in EM.
    assert (EL : sum_list (map (fun w => fst w * fst w) ws) = lam).
    { set (d := V3 1 0 0). destruct (curve_T pData Ts WP d) as (? & cvd & _ & _ & Hd & _). destruct (curve_T pData Ts WP vzero) as (? & cv0 & _ & _ & H0 & _).
      specialize (HW d vzero cvd cv0 (map (fun w => ev_coefs w d) ws) (map (fun w => ev_coefs w vzero) ws) Hd H0).
      assert (FM : forall x cv, com_curve pData (total Ts) x = Ok cv -> Forall2 (fun tp a => is_deriv_n 2 (cv_fun cv) (fst tp) a) ta (map (fun w => ev_coefs w x) ws)).
      { intros y cv Hcv. specialize (Hws y cv Hcv). clear - Hws. induction Hws; constructor; auto. }
      specialize (HW (FM d cvd Hd) (FM vzero cv0 H0)). replace (lam * vnorm2 (vsub d vzero)) with lam in HW by (unfold d, vnorm2, vdot; cbn; ring).
      rewrite <- HW. clear. induction ws as [|w ws IH]; [reflexivity|]. cbn [map combine]. unfold sum_list in *. cbn [fold_right]. rewrite IH. f_equal.
      unfold ev_coefs, d, vnorm2, vdot; cbn. ring. }
    eexists _, _. split; [|apply (HM lam)]. unfold genCostFunction, cost_genCostFunction. rewrite HC. cbn [Z.eqb ACCELERATION Pos.eqb].
    unfold computeCostMinAcceleration. rewrite Ews. cbn [bind]. rewrite ES, (set_Hg_ok _ _ 0), app_nil_r.
    replace (mscal lam mid) with M; [reflexivity|]. rewrite EM, EL. unfold madd, mzero, mscal, mid, vadd, vscal; cbn. f_equal; f_equal; ring.
Qed.

(** * The planner *)
Lemma front_grav pData Ts g : well_posed pData Ts -> same_gravity pData g -> front_gravity pData = Ok g.
Proof.
  intros (_ & _ & Hne & _ & HL & HF) Hs. unfold front_gravity.
  destruct (contacts pData) as [|c l] eqn:Ec; [destruct Ts; [congruence|discriminate]|].
  cbn. inversion HF as [|? ? (ph & E & _) _]; subst. rewrite E. cbn. f_equal. apply (Hs c ph); [rewrite Ec; left; reflexivity|exact E].
Qed.
Lemma plan_tol_nonneg n lam : 0 <= plan_tol n lam.
Proof.
  unfold plan_tol. pose proof (pos_INR n). assert (0 < eps52) by (apply ProofQp3.eps_pos). pose proof (sqrt_pos lam). repeat apply Rmult_le_pos; lra.
Qed.
Section Plan.
  Variable scaled wg : bool.
  Variable mem : qst.
  Variable glpk : lp -> outcome (Z * R * list R).

  (** the answer of the solver, then the curve *)
  Lemma plan_answer pData Ts rows lam H v D d :
    well_posed pData Ts -> mx_rows D = [] -> d = [] ->
    (forall i j, (i < 3)%nat -> (j < 3)%nat -> mat_of H i j = if Nat.eqb i j then lam else 0) ->
    eps52 < lam -> (forall r, In r rows -> eps52 * vnorm2 (fst r) < lam * lam) ->
    exists res r, solve wg (solve_quadprog mem) glpk (mat3cols rows) (map snd rows) D d H (l3 v) (repeat 0 3) [] [] SOLVER_QUADPROG = Ok res /\
      genTraj scaled res pData (total Ts) = Ok r /\
      (rc_success r = true -> exists x, near (plan_tol (length rows) lam) rows x /\ com_curve pData (total Ts) x = Ok (rc_c r) /\ plan_curve pData Ts r /\ rc_x r = l3 x).
  Proof.
    intros WP ED -> HH HL HR. unfold solve. rewrite Z.eqb_refl. cbn [addBoundaryConstraintsQuadProg addConstraintMinBoundQuadProg addConstraintMaxBoundQuadProg bind fst snd].
    rewrite ED. cbn [map mat3cols mx_rows].
    destruct (solve3_ok lam H v rows HH HL HR mem (repeat 0 3)) as (s & x & obj & ES & HO). unfold p3 in ES. rewrite ES. cbn [bind].
    destruct (Z.eqb_spec s EIQUADPROG_FAST_OPTIMAL) as [E|E].
    - destruct (genTraj_ok scaled (ResultData true obj (l3 x)) pData Ts x [] WP eq_refl) as (r & EG & _ & _ & Hx & Hcv & Hp); [cbn; reflexivity|].
      eexists _, r. split; [reflexivity|]. split; [exact EG|]. intros _. exists x. auto.
    - eexists _, default_result. split; [reflexivity|]. split; [apply genTraj_fail; reflexivity|]. discriminate.
  Qed.

  Lemma c53_fixed pData Ts p g lam B kap : well_posed pData Ts -> (1 <= p)%nat -> same_gravity pData g -> In (flag_of pData) exact_w_flags ->
    cost_weight pData Ts (computeDiscretizedTimeFixed Ts p) lam -> on_scale pData lam B kap ->
    (forall i t, sampled_fixed Ts p i t -> wrench_rate pData (total Ts) g B t) ->
    let tau := plan_tol (rows_needed (contacts pData) (fun _ => S p) 0 + acc_needed pData (length Ts * p + 1)) lam in
    exists r, computeCOMTrajFixedSize scaled wg (solve_quadprog mem) glpk pData Ts p = Ok r /\
      (rc_success r = true -> plan_curve pData Ts r /\
       forall i c t, nth_error (contacts pData) i = Some c -> sampled_fixed Ts p i t ->
         contact_near pData tau (tau * B) c (cv_fun (rc_c r)) t /\ accel_near pData tau (cv_fun (rc_c r)) t).
  Proof.
    intros WP Hp SG Hf CW OS WR tau. pose proof (wp_ne _ _ WP) as Hne. pose proof (wp_pos _ _ WP) as HF.
    pose proof (fixed_times_of Ts p Hp Hne HF) as HT.
    destruct (c14_fixed pData Ts p WP Hp) as (n & rows & En & Lr & _ & EA). rewrite (fixed_tagged Ts p Hp Hne) in EA.
    assert (Eg : front_gravity pData = Ok g) by (exact (front_grav pData Ts g WP SG)).
    pose proof WP as (Hfc & Hcap & _ & _ & HLc' & _).
    destruct (ws_ex pData (total Ts) g Hfc Hcap (T_pos pData Ts WP) Eg) as [ws Ews]. destruct (curve_T pData Ts WP vzero) as (pi & _ & Epi & _).
    set (bs := fixed_bs Ts p) in *.
    destruct (filled pData Ts bs WP (fixed_bs_len Ts p) (fixed_bs_ne Ts p Hp) (fixed_times Ts p Hp HF) ws pi g Ews Epi Eg) as (n' & _ & _ & _ & _ & EA').
    rewrite EA in EA'. injection EA' as ER. change (_ ++ _) with (all_rows pData Ts bs g ws pi) in ER.
    assert (WR' : forall b t, In b bs -> In t b -> wrench_rate pData (total Ts) g B t).
    { intros b t Hb Ht. apply In_nth_error in Hb. destruct Hb as [i Hi]. apply (WR i). apply fixed_sampled; [exact Hp| |left; exists b; auto].
      rewrite <- (fixed_bs_len Ts p). apply nth_error_Some. fold bs. congruence. }
    destruct (gencost_id pData Ts _ lam WP HT CW) as (H & v & EC & HH). pose proof OS as (_ & _ & Hl & _).
    destruct (plan_answer pData Ts rows lam H v (MX 3 []) [] WP eq_refl eq_refl HH Hl) as (res & r & ES & EG & HO).
    { intros r0 Hr0. rewrite ER in Hr0. exact (rows_short pData Ts bs WP (fixed_bs_len Ts p) (fixed_times Ts p Hp HF) g Hf lam B kap OS WR' ws pi Ews Epi Eg r0 Hr0). }
    exists r. split.
    - unfold computeCOMTrajFixedSize. rewrite (wp_len pData Ts WP), total_sumR. rewrite (fixed_tagged Ts p Hp Hne) in *. fold bs in EC |- *. rewrite EA. cbn [bind].
      rewrite EC. cbn [bind fst snd]. unfold solve_noeq. cbn [mat3cols mx_cols] in *. rewrite ES. cbn [bind]. exact EG.
    - intros Hs. destruct (HO Hs) as (x & HN & Hcv & Hpl & _). split; [exact Hpl|]. rewrite Lr, En in HN. fold tau in HN. rewrite ER in HN.
      exact (rows_near pData Ts bs WP (fixed_bs_len Ts p) (fixed_times Ts p Hp HF) (sampled_fixed Ts p) (fixed_smp Ts p Hp) g SG Hf lam B kap OS WR'
        ws pi Ews Epi Eg tau x _ (plan_tol_nonneg _ _) Hcv HN).
  Qed.

  Lemma c53_step pData Ts dt g lam B kap ta : well_posed pData Ts -> 0 < dt -> same_gravity pData g -> In (flag_of pData) exact_w_flags ->
    computeDiscretizedTime Ts dt = Ok ta -> cost_weight pData Ts ta lam -> on_scale pData lam B kap ->
    (forall i t, sampled_step Ts dt i t -> wrench_rate pData (total Ts) g B t) ->
    exists ns r, length ns = length Ts /\ (forall i k, nth_error ns i = Some k -> steps_to (phase_start Ts i) (phase_end Ts i) dt k) /\
      computeCOMTraj scaled wg (solve_quadprog mem) glpk pData Ts dt SOLVER_QUADPROG = Ok r /\
      let tau := plan_tol (rows_needed (contacts pData) (fun i => nth i ns 0 + (if Nat.eqb i 0 then 1 else 2)) 0
                           + acc_needed pData (fold_right Nat.add 0 (map S ns)))%nat lam in
      (rc_success r = true -> plan_curve pData Ts r /\
       forall i c t, nth_error (contacts pData) i = Some c -> sampled_step Ts dt i t ->
         contact_near pData tau (tau * B) c (cv_fun (rc_c r)) t /\ accel_near pData tau (cv_fun (rc_c r)) t).
  Proof.
    intros WP Hdt SG Hf Et CW OS WR. pose proof (wp_ne _ _ WP) as Hne. pose proof (wp_pos _ _ WP) as HF.
    pose proof (step_times_of Ts dt ta Hdt HF Et) as HT.
    destruct (c14_step pData Ts dt WP Hdt) as (ta' & ns & n & rows & Et' & N1 & N2 & En & Lr & _ & EA). rewrite Et in Et'. injection Et' as <-.
    destruct (c11_ok Ts dt Hdt HF) as (bs & Eb & HL & Hbs & _). rewrite Et in Eb. injection Eb as Eb.
    assert (Eg : front_gravity pData = Ok g) by (exact (front_grav pData Ts g WP SG)).
    pose proof WP as (Hfc & Hcap & _ & _ & HLc' & _).
    destruct (ws_ex pData (total Ts) g Hfc Hcap (T_pos pData Ts WP) Eg) as [ws Ews]. destruct (curve_T pData Ts WP vzero) as (pi & _ & Epi & _).
    pose proof (step_bs_ne Ts dt bs Hbs) as HNe. pose proof (step_times Ts dt bs Hdt HF HL Hbs) as HTm.
    destruct (filled pData Ts bs WP HL HNe HTm ws pi g Ews Epi Eg) as (n' & _ & _ & _ & _ & EA').
    pose proof EA as EA2. rewrite Eb in EA2. rewrite EA2 in EA'. injection EA' as ER. change (_ ++ _) with (all_rows pData Ts bs g ws pi) in ER.
    pose proof (fun i t Hi => step_sampled Ts dt bs i t Hdt HF HL Hbs Hi) as Hsm.
    assert (WR' : forall b t, In b bs -> In t b -> wrench_rate pData (total Ts) g B t).
    { intros b t Hb Ht. apply In_nth_error in Hb. destruct Hb as [i Hi]. apply (WR i). apply Hsm; [|left; exists b; auto].
      rewrite <- HL. apply nth_error_Some. congruence. }
    destruct (gencost_id pData Ts _ lam WP HT CW) as (H & v & EC & HH). pose proof OS as (_ & _ & Hl & _).
    destruct (plan_answer pData Ts rows lam H v (MX 3 []) [] WP eq_refl eq_refl HH Hl) as (res & r & ES & EG & HO).
    { intros r0 Hr0. rewrite ER in Hr0. exact (rows_short pData Ts bs WP HL HTm g Hf lam B kap OS WR' ws pi Ews Epi Eg r0 Hr0). }
    exists ns, r. split; [exact N1|]. split; [exact N2|]. split.
    - unfold computeCOMTraj. rewrite (wp_len pData Ts WP), total_sumR. destruct (Rlt_dec 0 dt); [|tauto]. rewrite Et. cbn [bind]. rewrite EA. cbn [bind mat3cols mx_cols].
      rewrite EC. cbn [bind fst snd]. cbn [mat3cols mx_cols] in *. rewrite ES. cbn [bind]. exact EG.
    - intros tau Hs. destruct (HO Hs) as (x & HN & Hcv & Hpl & _). split; [exact Hpl|]. rewrite Lr, En in HN. fold tau in HN. rewrite ER in HN.
      exact (rows_near pData Ts bs WP HL HTm (sampled_step Ts dt) Hsm g SG Hf lam B kap OS WR'
        ws pi Ews Epi Eg tau x _ (plan_tol_nonneg _ _) Hcv HN).
  Qed.
End Plan.
