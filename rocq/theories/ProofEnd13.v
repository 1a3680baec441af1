(** Plans with the two flags whose wrench formulas use decimals, made with the bundled
    QP solver (C53, C54 decimal). *)
From Verif Require Import Vec SpecBezier SpecTime ModelData ModelDispatch ModelUtils ModelRows ModelCom ModelNd ModelCont ModelSolver ModelTraj ModelQp
  SpecCom SpecWp SpecCtr SpecSolver SpecTraj SpecQp SpecEnd SpecDec ProofBezier ProofCurve ProofWaypoints ProofWaypoints2 ProofWaypointsErr ProofTime ProofTime2
  ProofRows ProofEmit ProofCom ProofCom2 ProofCom3 ProofSolver ProofTraj ProofTraj2 ProofTraj3 ProofQp14 ProofEnd ProofEnd2 ProofEnd3 ProofEnd4.
Open Scope R_scope.

(** the free point is one of the control points, the others do not depend on it *)
Lemma dec_pts pData T cv0 M : In (flag_of pData) dec_w_flags -> com_curve pData T vzero = Ok cv0 -> Forall (within M) (bc_pts cv0) ->
  forall d cv, within M d -> com_curve pData T d = Ok cv -> Forall (within M) (bc_pts cv).
Proof.
  intros Hf H0 HM d cv Hd Hcv. pose proof (dec_in_com _ Hf) as Hc.
  destruct (com_curve_inv _ _ _ _ Hc H0) as (pi & pts0 & S0 & E0 & _ & -> & _).
  destruct (com_curve_inv _ _ _ _ Hc Hcv) as (pi' & pts & S1 & E1 & _ & -> & _). rewrite E0 in E1. injection E1 as <-.
  cbn [bc_pts] in *.
  assert (N : forall l, In (flag_of pData) l -> l = dec_w_flags -> forall z, flag_of pData = z -> In z l) by (intros; subst; assumption).
  specialize (N _ Hf eq_refl).
  destruct S0 as [pi E _ a b c e Ep|pi E _ a b c e Ep|pi E _ a b c e f Ep|pi E _ a b c e Ep|pi E _ a b c e f Ep|pi E _ a b c e f h Ep|pi E _ a b c e f h k Ep];
    try (exfalso; apply N in E; vm_compute in E; intuition discriminate);
  (destruct S1 as [pi E' _ a' b' c' e' Ep'|pi E' _ a' b' c' e' Ep'|pi E' _ a' b' c' e' f' Ep'|pi E' _ a' b' c' e' Ep'|pi E' _ a' b' c' e' f' Ep'
     |pi E' _ a' b' c' e' f' h' Ep'|pi E' _ a' b' c' e' f' h' k' Ep'];
    try (exfalso; rewrite E in E'; vm_compute in E'; discriminate));
  rewrite Ep in Ep'; injection Ep'; intros; subst;
  repeat match goal with H : Forall _ (_ :: _) |- _ => inversion H; clear H; subst end;
  repeat (apply Forall_cons; [assumption|]); constructor.
Qed.

Lemma rate_mono pData T g B B' t : B <= B' -> wrench_rate pData T g B t -> wrench_rate pData T g B' t.
Proof.
  intros HB H x y cvx cvy ax ay Hx Hy Ax Ay. eapply Rle_trans; [exact (H x y cvx cvy ax ay Hx Hy Ax Ay)|].
  apply Rmult_le_compat_r; [apply vnorm_ge|exact HB].
Qed.
Lemma unit_within d M : vnorm d = 1 -> 1 <= M -> within M d.
Proof.
  intros Hd HM. assert (S : vnorm2 d = 1) by (rewrite <- vnorm_sq, Hd; ring). unfold vnorm2, vdot in S.
  assert (K : forall a, a * a <= 1 -> Rabs a <= M).
  { intros a Ha. apply Rle_trans with 1; [|exact HM]. apply Rabs_le. split; nra. }
  pose proof (Rle_0_sqr (vx d)). pose proof (Rle_0_sqr (vy d)). pose proof (Rle_0_sqr (vz d)). unfold Rsqr in *.
  split; [|split]; apply K; lra.
Qed.
Lemma norm6_err d ef em : within ef (fst d) -> within em (snd d) -> norm6 d <= 3 * (ef + em).
Proof.
  intros Hf Hm. pose proof (dot6_err d d ef em Hf Hm) as H. pose proof (norm6_sq d) as S. pose proof (norm6_ge d) as P.
  pose proof (within_nonneg _ _ Hf). pose proof (within_nonneg _ _ Hm).
  rewrite <- S, Rabs_right in H by (apply Rle_ge, Rmult_le_pos; exact P).
  destruct (Rle_lt_or_eq_dec _ _ P) as [L|E]; [|rewrite <- E; lra]. apply (Rmult_le_reg_l (norm6 d)); assumption.
Qed.

Section Dec.
  Variable pData : problem.
  Variable Ts : list R.
  Variable bs : list (list R).
  Hypothesis WP : well_posed pData Ts.
  Hypothesis HLbs : length bs = length Ts.
  Hypothesis HTm : forall b t, In b bs -> In t b -> 0 <= t <= total Ts.
  Variable smp : nat -> R -> Prop.
  Hypothesis Hsmp : forall i t, (i < length Ts)%nat -> (smp i t <-> in_block bs i t \/ at_switch bs i t).
  Variables (g : vec3) (G M0 : R) (cv0 : bcurve).
  Hypothesis SG : same_gravity pData g.
  Hypothesis HG : within G g.
  Hypothesis Hf : In (flag_of pData) dec_w_flags.
  Hypothesis H1 : 1 <= M0.
  Hypothesis Hcv0 : com_curve pData (total Ts) vzero = Ok cv0.
  Hypothesis HM0 : Forall (within M0) (bc_pts cv0).
  Variables lam B B' kap : R.
  Hypothesis EB : B' = B + 6 * (err_force M0 (total Ts) + err_moment G M0 (total Ts)).
  Hypothesis OS : on_scale pData lam B' kap.
  Hypothesis WR : forall b t, In b bs -> In t b -> wrench_rate pData (total Ts) g B t.
  Let T := total Ts.

  Variables (ws : list wp6) (pi : list vec3).
  Hypothesis Ews : computeWwaypoints pData T = Ok ws.
  Hypothesis Epi : computeConstantWaypoints pData T = Ok pi.
  Hypothesis Eg : front_gravity pData = Ok g.

  Lemma dec_err t x cv acc M : 0 <= t <= T -> com_curve pData T x = Ok cv -> Forall (within M) (bc_pts cv) -> is_deriv_n 2 (cv_fun cv) t acc ->
    let d := v6sub (ev_w6 (wf_t Ts ws t) x) (wrench g (cv_fun cv t) acc) in within (err_force M T) (fst d) /\ within (err_moment G M T) (snd d).
  Proof.
    intros Ht Hcv HM Ha. destruct (c06_ok _ _ _ _ _ _ _ Hf Hcv Eg HM HG) as (ws' & Hw' & Hall). fold T in Hw'. rewrite Ews in Hw'. injection Hw' as <-.
    rewrite (wf_t_ev pData Ts WP ws t x Ht). exact (Hall t acc Ht Ha).
  Qed.
  Lemma err_nonneg : 0 <= err_force M0 T + err_moment G M0 T.
  Proof.
    destruct (com_acc cv0 0) as [a Ha]. assert (0 <= 0 <= T) by (pose proof (T_pos pData Ts WP); fold T; unfold T; lra).
    destruct (dec_err 0 vzero cv0 a M0 H Hcv0 HM0 Ha) as [P Q]. apply within_nonneg in P. apply within_nonneg in Q. lra.
  Qed.
  Lemma WRB b t : In b bs -> In t b -> wrench_rate pData (total Ts) g B' t.
  Proof. intros Hb Ht. apply rate_mono with B; [|exact (WR b t Hb Ht)]. pose proof err_nonneg. fold T in EB. lra. Qed.

  Lemma dec_unit t d b : In b bs -> In t b -> vnorm d = 1 -> norm6 (v6sub (ev_w6 (wf_t Ts ws t) d) (ev_w6 (wf_t Ts ws t) vzero)) <= B'.
  Proof.
    intros Hb Ht Hd. pose proof (HTm b t Hb Ht) as Hr. destruct (curve_T pData Ts WP d) as (? & cvd & _ & _ & Hcd & _).
    pose proof (dec_pts pData T cv0 M0 Hf Hcv0 HM0 d cvd (unit_within d M0 Hd H1) Hcd) as HMd.
    destruct (com_acc cvd t) as [ad Had]. destruct (com_acc cv0 t) as [a0 Ha0].
    destruct (dec_err t d cvd ad M0 Hr Hcd HMd Had) as [P1 P2]. destruct (dec_err t vzero cv0 a0 M0 Hr Hcv0 HM0 Ha0) as [Q1 Q2].
    pose proof (norm6_err _ _ _ P1 P2) as N1. pose proof (norm6_err _ _ _ Q1 Q2) as N2.
    pose proof (WR b t Hb Ht vzero d cv0 cvd a0 ad Hcv0 Hcd Ha0 Had) as HW.
    replace (vnorm (vsub vzero d)) with (vnorm d) in HW by (rewrite <- (vnorm_opp d); f_equal; apply v3_eq; cbn; ring). rewrite Hd in HW.
    set (Wd := ev_w6 _ d) in *. set (W0 := ev_w6 _ vzero) in *. rewrite !wrench_giw1 in *.
    set (gd := giw 1 g (cv_fun cvd t) ad) in *. set (g0 := giw 1 g (cv_fun cv0 t) a0) in *.
    replace (v6sub Wd W0) with (v6sub (v6sub (v6sub Wd (v6sub (g, vzero) gd)) (v6sub W0 (v6sub (g, vzero) g0))) (v6sub gd g0)).
    2:{ destruct Wd as [[? ? ?] [? ? ?]], W0 as [[? ? ?] [? ? ?]], gd as [[? ? ?] [? ? ?]], g0 as [[? ? ?] [? ? ?]]. unfold v6sub, vsub, vzero; cbn. f_equal; f_equal; ring. }
    eapply Rle_trans; [apply norm6_triang|].
    replace (norm6 (v6sub gd g0)) with (norm6 (v6sub g0 gd)).
    2:{ clear. destruct gd as [[? ? ?] [? ? ?]], g0 as [[? ? ?] [? ? ?]]. unfold norm6, dot6, v6sub, vsub, vdot; cbn. f_equal. ring. }
    pose proof (norm6_triang (v6sub Wd (v6sub (g, vzero) gd)) (v6sub W0 (v6sub (g, vzero) g0))). fold T in EB. rewrite EB. lra.
  Qed.
  Lemma dec_stab t u b : In b bs -> In t b -> norm6 u <= 1 -> vnorm (v6_mmul u (wf_t Ts ws t)) <= B'.
  Proof.
    intros Hb Ht Hu. destruct OS as (HB & _). apply adjoint_le; [lra|exact Hu|]. intros d.
    destruct (Req_dec (vnorm d) 0) as [Z|NZ].
    - rewrite Z, Rmult_0_r. apply vnorm_0 in Z. subst d. 
      replace (v6sub _ _) with ((vzero, vzero) : v6) by (destruct (ev_w6 (wf_t Ts ws t) vzero) as [[? ? ?] [? ? ?]]; unfold v6sub, vsub, vzero; cbn; f_equal; f_equal; ring).
      rewrite norm6_v, vnorm_zero. lra.
    - pose proof (vnorm_ge d) as P. set (k := vnorm d) in *. set (e := vscal (/ k) d).
      assert (Ne : vnorm e = 1) by (unfold e; rewrite vnorm_scal, Rabs_inv, (Rabs_right k) by lra; fold k; field; exact NZ).
      pose proof (dec_unit t e b Hb Ht Ne) as N. set (w := wf_t Ts ws t) in *.
      replace (v6sub (ev_w6 w d) (ev_w6 w vzero)) with (v6_scal k (v6sub (ev_w6 w e) (ev_w6 w vzero))).
      + rewrite norm6_scal, (Rabs_right k) by lra. rewrite (Rmult_comm B'). apply Rmult_le_compat_l; [exact P|exact N].
      + assert (D : d = vscal k e) by (unfold e; apply v3_eq; cbn; field; exact NZ). rewrite D. clearbody e w k. clear.
        destruct w as [[[? ? ?] [? ? ?] [? ? ?]] [[? ? ?] [? ? ?] [? ? ?]] [? ? ?] [? ? ?]], e as [? ? ?].
        unfold v6_scal, v6sub, ev_w6, mvmul, vadd, vsub, vdot, vscal, vzero; cbn. f_equal; f_equal; ring.
  Qed.
  Lemma dec_mh_short c t b Hh : In c (contacts pData) -> In b bs -> In t b -> In Hh (mh pData c) -> vnorm (v6_mmul (fst Hh) (wf_t Ts ws t)) <= B'.
  Proof.
    intros Hc Hb Ht HI. unfold mh in HI. rewrite (updateH_ok pData c (wf_in pData Ts WP c Hc)) in HI. cbn [okd] in HI.
    apply in_map_iff in HI. destruct HI as (H0 & <- & HI). apply (dec_stab t _ b Hb Ht). rewrite (urow_norm pData Ts WP c H0 Hc HI). lra.
  Qed.

  Lemma dec_rows_short r : In r (all_rows pData Ts bs g ws pi) -> eps52 * vnorm2 (fst r) < lam * lam.
  Proof.
    destruct OS as (HB & HK & Hl & HBl & HKl & HKin).
    assert (SB : forall r : vec3 * R, vnorm (fst r) <= B' -> eps52 * vnorm2 (fst r) < lam * lam).
    { intros r0 H. pose proof (vnorm_ge (fst r0)). rewrite <- vnorm_sq. assert (0 < eps52) by (apply ProofQp3.eps_pos).
      eapply Rle_lt_trans; [|exact HBl]. apply Rmult_le_compat_l; [lra|]. apply Rmult_le_compat; assumption. }
    assert (SK : forall r : vec3 * R, vnorm (fst r) <= kap -> eps52 * vnorm2 (fst r) < lam * lam).
    { intros r0 H. pose proof (vnorm_ge (fst r0)). rewrite <- vnorm_sq. assert (0 < eps52) by (apply ProofQp3.eps_pos).
      eapply Rle_lt_trans; [|exact HKl]. apply Rmult_le_compat_l; [lra|]. apply Rmult_le_compat; assumption. }
    pose proof (HLc pData Ts bs WP HLbs) as HL.
    assert (F : Forall (fun r => eps52 * vnorm2 (fst r) < lam * lam) (all_rows pData Ts bs g ws pi)); [|rewrite Forall_forall in F; apply F].
    unfold all_rows. rewrite !Forall_app. split; [|split].
    - apply rows_of_Forall; [exact HL|].
      assert (K : forall c b t g', In c (contacts pData) -> In b bs -> In t b -> Forall (fun r => eps52 * vnorm2 (fst r) < lam * lam) (srows g' (mh pData c) (wf_t Ts ws t))).
      { intros c b t g' Hc Hb Ht. rewrite Forall_forall. intros r' Hr'. apply SB.
        apply (srows_short g' (mh pData c) (wf_t Ts ws t) B' HB (fun Hh HI => dec_mh_short c t b Hh Hc Hb Ht HI) r' Hr'). }
      split; [intros i c b t Hc Hb Ht|intros i c b b' t Hc Hb Ht]; eapply K; eauto using nth_error_In, last_in.
    - apply rows_of_Forall; [exact HL|].
      assert (K : forall c b t, In c (contacts pData) -> In b bs -> In t b -> Forall (fun r => eps52 * vnorm2 (fst r) < lam * lam) (krows c (cof pData Ts pi t))).
      { intros c b t Hc Hb Ht. rewrite Forall_forall. intros r' Hr'. apply SK.
        apply (krow_short (cof pData Ts pi t) kap (row_kin pData Ts bs WP HTm pi Epi t b Hb Ht) _ _ _ (krows_eq pData Ts WP c _ Hc) (fun K HI => HKin c K Hc HI) r' Hr'). }
      split; [intros i c b t Hc Hb Ht|intros i c b b' t Hc Hb Ht]; eapply K; eauto using nth_error_In, last_in.
    - unfold all_acc. destruct (k_constraintAcceleration (constr pData)); [|constructor]. rewrite Forall_flat_map, Forall_forall.
      intros t Ht. apply in_concat in Ht. destruct Ht as (b & Hb & Ht). rewrite Forall_forall. intros r' Hr'. apply SB.
      rewrite (acc_short _ _ _ _ Hr'). exact (row_acc pData Ts bs WP g B' WRB pi Epi t b Hb Ht).
  Qed.

  Lemma dec_rows_near tau x cv M : 0 <= tau -> com_curve pData T x = Ok cv -> Forall (within M) (bc_pts cv) -> near tau (all_rows pData Ts bs g ws pi) x ->
    forall i c t, nth_error (contacts pData) i = Some c -> smp i t ->
      contact_near pData tau (tau * B' + 3 * (err_force M T + err_moment G M T)) c (cv_fun cv) t /\ accel_near pData tau (cv_fun cv) t.
  Proof.
    intros Ht Hcv HM HN i c t Hc Hs. unfold all_rows in HN. apply near_app in HN. destruct HN as [HS HN]. apply near_app in HN. destruct HN as [HK HA].
    pose proof (HLc pData Ts bs WP HLbs) as HL. pose proof HL as HL2. rewrite HLbs in HL2.
    assert (Hi : (i < length Ts)%nat) by (rewrite <- HL2; apply nth_error_Some; congruence).
    apply (rows_of_Forall _ _ _ _ _ HL) in HS. apply (rows_of_Forall _ _ _ _ _ HL) in HK.
    assert (Hin : In c (contacts pData)) by (eapply nth_error_In; eauto).
    pose proof (php_eq pData Ts WP c Hin) as Hph. pose proof (SG c _ Hin Hph) as Hg.
    assert (Q : exists b, In b bs /\ In t b /\ near tau (srows g (mh pData c) (wf_t Ts ws t)) x /\ near tau (krows c (cof pData Ts pi t)) x).
    { apply Hsmp in Hs; [|exact Hi]. destruct Hs as [(b & Hb & Htb)|(i' & b & b' & -> & Hb & E)]; exists b.
      - split; [eapply nth_error_In; eauto|]. split; [exact Htb|]. split; [exact (proj1 HS i c b t Hc Hb Htb)|exact (proj1 HK i c b t Hc Hb Htb)].
      - split; [eapply nth_error_In; eauto|]. split; [eapply last_in; eauto|]. rewrite <- Hg at 1.
        split; [exact (proj2 HS i' c b b' t Hc Hb E)|exact (proj2 HK i' c b b' t Hc Hb E)]. }
    destruct Q as (b & Hb & Htb & Q1 & Q2). pose proof (HTm b t Hb Htb) as Hr. destruct (com_acc cv t) as [acc Hacc].
    split; [split|].
    - intros k K kk HKk Hkk. rewrite <- (cof_ev pData Ts WP pi cv t x Epi Hcv).
      exact (krow_near (cof pData Ts pi t) x tau _ _ _ (krows_eq pData Ts WP c _ Hin) Q2 k K kk HKk Hkk).
    - exists (php c), acc. split; [exact Hph|]. split; [exact Hacc|]. destruct OS as (HB & _).
      pose proof (srows_near g (mh pData c) (wf_t Ts ws t) B' HB (fun Hh HI => dec_mh_short c t b Hh Hin Hb Htb HI) tau x Ht Q1) as Q.
      unfold mh in Q. rewrite (updateH_ok pData c (wf_in pData Ts WP c Hin)) in Q. cbn [okd] in Q. rewrite Forall_map in Q.
      destruct (dec_err t x cv acc M Hr Hcv HM Hacc) as [Ef Em]. set (sl := 3 * (err_force M T + err_moment G M T)).
      unfold cone_ok. rewrite Forall_forall in *. intros Hh HI. specialize (Q Hh HI). pose proof (urow_norm pData Ts WP c Hh Hin HI) as NU.
      pose proof (dot6_err (fst (urow (php c) Hh (margin pData))) _ _ _ Ef Em) as DE. rewrite NU, Rmult_1_l in DE. fold sl in DE. apply Rabs_le_inv in DE.
      destruct (wf_in pData Ts WP c Hin) as (ph & Eph & Hm & Hrows & _). assert (Ep : php c = ph) by (unfold php; rewrite Eph; reflexivity).
      rewrite Ep in *. rewrite Forall_forall in Hrows.
      assert (Q' : dot6 (fst (urow ph Hh (margin pData - (tau * B' + sl)))) (v6sub (wrench g (cv_fun cv t) acc) (g, vzero)) <= snd (urow ph Hh (margin pData - (tau * B' + sl)))).
      { change (fst (urow ph Hh (margin pData - (tau * B' + sl)))) with (fst (urow ph Hh (margin pData))).
        replace (snd (urow ph Hh (margin pData - (tau * B' + sl)))) with (snd (urow ph Hh (margin pData)) + tau * B' + sl) by (unfold urow; cbn [snd]; ring).
        set (u := fst (urow ph Hh (margin pData))) in *. clearbody u.
        assert (DD : dot6 u (v6sub (wrench g (cv_fun cv t) acc) (g, vzero)) = dot6 u (v6sub (ev_w6 (wf_t Ts ws t) x) (g, vzero)) - dot6 u (v6sub (ev_w6 (wf_t Ts ws t) x) (wrench g (cv_fun cv t) acc))).
        { generalize (wrench g (cv_fun cv t) acc). generalize (ev_w6 (wf_t Ts ws t) x). clear. intros [[? ? ?] [? ? ?]] [[? ? ?] [? ? ?]].
          unfold dot6, v6sub, vsub, vdot, vzero; cbn. ring. }
        rewrite DD. lra. }
      apply (urow_ok ph Hh _ _ g Hm (Hrows Hh HI)) in Q'. rewrite wrench_giw2 in Q'. rewrite Hg.
      rewrite <- giw2_same. replace (snd Hh - margin pData + (tau * B' + sl)) with (snd Hh - (margin pData - (tau * B' + sl))) by ring. exact Q'.
    - intros HC. exists (ev_coefs (aof pData Ts pi t) x). split; [apply (aof_ev pData Ts WP pi cv t x Epi Hcv)|].
      unfold all_acc in HA. rewrite HC in HA. unfold near in HA. rewrite Forall_flat_map, Forall_forall in HA.
      specialize (HA t ltac:(apply in_concat; exists b; auto)). destruct (aof pData Ts pi t) as [a v]. cbn [fst snd] in HA. apply acc_near, HA.
  Qed.
End Dec.

(** * The planner *)
Section Plan.
  Variable scaled wg : bool.
  Variable mem : qst.
  Variable glpk : lp -> outcome (Z * R * list R).

  Section Common.
    Variables (pData : problem) (Ts : list R) (g : vec3) (G M0 : R) (cv0 : bcurve) (lam B kap : R).
    Hypothesis WP : well_posed pData Ts.
    Hypothesis SG : same_gravity pData g.
    Hypothesis HG : within G g.
    Hypothesis Hf : In (flag_of pData) dec_w_flags.
    Hypothesis H1 : 1 <= M0.
    Hypothesis Hcv0 : com_curve pData (total Ts) vzero = Ok cv0.
    Hypothesis HM0 : Forall (within M0) (bc_pts cv0).
    Let B' := B + 2 * dec_slack G M0 (total Ts).
    Hypothesis OS : on_scale pData lam B' kap.
    Let EB : B' = B + 6 * (err_force M0 (total Ts) + err_moment G M0 (total Ts)).
    Proof. unfold B', dec_slack. ring. Qed.

    Lemma dec_fixed_short p rows : (1 <= p)%nat -> (forall i t, sampled_fixed Ts p i t -> wrench_rate pData (total Ts) g B t) ->
      computeConstraintsOneStep pData Ts (total Ts) (computeDiscretizedTimeFixed Ts p) = Ok rows ->
      (forall r, In r rows -> eps52 * vnorm2 (fst r) < lam * lam) /\
      forall tau x cv M, 0 <= tau -> com_curve pData (total Ts) x = Ok cv -> Forall (within M) (bc_pts cv) -> near tau rows x ->
        forall i c t, nth_error (contacts pData) i = Some c -> sampled_fixed Ts p i t ->
        contact_near pData tau (tau * B' + dec_slack G M (total Ts)) c (cv_fun cv) t /\ accel_near pData tau (cv_fun cv) t.
    Proof.
      intros Hp WR EA. pose proof (wp_ne _ _ WP) as Hne. pose proof (wp_pos _ _ WP) as HF. rewrite (fixed_tagged Ts p Hp Hne) in EA.
      assert (Eg : front_gravity pData = Ok g) by (exact (front_grav pData Ts g WP SG)).
      pose proof WP as (Hfc & Hcap & _).
      destruct (ws_ex pData (total Ts) g Hfc Hcap (T_pos pData Ts WP) Eg) as [ws Ews]. destruct (curve_T pData Ts WP vzero) as (pi & _ & Epi & _).
      set (bs := fixed_bs Ts p) in *.
      destruct (filled pData Ts bs WP (fixed_bs_len Ts p) (fixed_bs_ne Ts p Hp) (fixed_times Ts p Hp HF) ws pi g Ews Epi Eg) as (n' & _ & _ & _ & _ & EA').
      rewrite EA in EA'. injection EA' as ER. change (_ ++ _) with (all_rows pData Ts bs g ws pi) in ER.
      assert (WR' : forall b t, In b bs -> In t b -> wrench_rate pData (total Ts) g B t).
      { intros b t Hb Ht. apply In_nth_error in Hb. destruct Hb as [i Hi]. apply (WR i). apply fixed_sampled; [exact Hp| |left; exists b; auto].
        rewrite <- (fixed_bs_len Ts p). apply nth_error_Some. fold bs. congruence. }
      rewrite ER. split.
      - intros r0 Hr0. exact (dec_rows_short pData Ts bs WP (fixed_bs_len Ts p) (fixed_times Ts p Hp HF) g G M0 cv0 HG Hf H1 Hcv0 HM0 lam B B' kap EB OS WR' ws pi Ews Epi Eg r0 Hr0).
      - intros tau x cv M Ht Hcv HM HN.
        exact (dec_rows_near pData Ts bs WP (fixed_bs_len Ts p) (fixed_times Ts p Hp HF) (sampled_fixed Ts p) (fixed_smp Ts p Hp) g G M0 cv0 SG HG Hf H1 Hcv0 HM0 lam B B' kap EB OS WR'
          ws pi Ews Epi Eg tau x cv M Ht Hcv HM HN).
    Qed.
    Lemma dec_step_short dt ta rows : 0 < dt -> computeDiscretizedTime Ts dt = Ok ta -> (forall i t, sampled_step Ts dt i t -> wrench_rate pData (total Ts) g B t) ->
      computeConstraintsOneStep pData Ts (total Ts) ta = Ok rows ->
      (forall r, In r rows -> eps52 * vnorm2 (fst r) < lam * lam) /\
      forall tau x cv M, 0 <= tau -> com_curve pData (total Ts) x = Ok cv -> Forall (within M) (bc_pts cv) -> near tau rows x ->
        forall i c t, nth_error (contacts pData) i = Some c -> sampled_step Ts dt i t ->
        contact_near pData tau (tau * B' + dec_slack G M (total Ts)) c (cv_fun cv) t /\ accel_near pData tau (cv_fun cv) t.
    Proof.
      intros Hdt Et WR EA. pose proof (wp_pos _ _ WP) as HF.
      destruct (c11_ok Ts dt Hdt HF) as (bs & Eb & HL & Hbs & _). rewrite Et in Eb. injection Eb as ->.
      assert (Eg : front_gravity pData = Ok g) by (exact (front_grav pData Ts g WP SG)).
      pose proof WP as (Hfc & Hcap & _).
      destruct (ws_ex pData (total Ts) g Hfc Hcap (T_pos pData Ts WP) Eg) as [ws Ews]. destruct (curve_T pData Ts WP vzero) as (pi & _ & Epi & _).
      pose proof (step_bs_ne Ts dt bs Hbs) as HNe. pose proof (step_times Ts dt bs Hdt HF HL Hbs) as HTm.
      destruct (filled pData Ts bs WP HL HNe HTm ws pi g Ews Epi Eg) as (n' & _ & _ & _ & _ & EA').
      rewrite EA in EA'. injection EA' as ER. change (_ ++ _) with (all_rows pData Ts bs g ws pi) in ER.
      pose proof (fun i t Hi => step_sampled Ts dt bs i t Hdt HF HL Hbs Hi) as Hsm.
      assert (WR' : forall b t, In b bs -> In t b -> wrench_rate pData (total Ts) g B t).
      { intros b t Hb Ht. apply In_nth_error in Hb. destruct Hb as [i Hi]. apply (WR i). apply Hsm; [|left; exists b; auto].
        rewrite <- HL. apply nth_error_Some. congruence. }
      rewrite ER. split.
      - intros r0 Hr0. exact (dec_rows_short pData Ts bs WP HL HTm g G M0 cv0 HG Hf H1 Hcv0 HM0 lam B B' kap EB OS WR' ws pi Ews Epi Eg r0 Hr0).
      - intros tau x cv M Ht Hcv HM HN.
        exact (dec_rows_near pData Ts bs WP HL HTm (sampled_step Ts dt) Hsm g G M0 cv0 SG HG Hf H1 Hcv0 HM0 lam B B' kap EB OS WR'
          ws pi Ews Epi Eg tau x cv M Ht Hcv HM HN).
    Qed.

    Lemma c53_fixed_dec p : (1 <= p)%nat ->
      cost_weight pData Ts (computeDiscretizedTimeFixed Ts p) lam ->
      (forall i t, sampled_fixed Ts p i t -> wrench_rate pData (total Ts) g B t) ->
      let tau := plan_tol (rows_needed (contacts pData) (fun _ => S p) 0 + acc_needed pData (length Ts * p + 1)) lam in
      exists r, computeCOMTrajFixedSize scaled wg (solve_quadprog mem) glpk pData Ts p = Ok r /\
        (rc_success r = true -> plan_curve pData Ts r /\
         forall M, Forall (within M) (bc_pts (rc_c r)) -> forall i c t, nth_error (contacts pData) i = Some c -> sampled_fixed Ts p i t ->
           contact_near pData tau (tau * B' + dec_slack G M (total Ts)) c (cv_fun (rc_c r)) t /\ accel_near pData tau (cv_fun (rc_c r)) t).
    Proof.
      intros Hp CW WR tau. pose proof (fixed_times_of Ts p Hp (wp_ne _ _ WP) (wp_pos _ _ WP)) as HT.
      destruct (c14_fixed pData Ts p WP Hp) as (n & rows & En & Lr & _ & EA). destruct (dec_fixed_short p rows Hp WR EA) as [HR HNr].
      destruct (gencost_id pData Ts _ lam WP HT CW) as (H & v & EC & HH). pose proof OS as (_ & _ & Hl & _).
      destruct (plan_answer scaled wg mem glpk pData Ts rows lam H v (MX 3 []) [] WP eq_refl eq_refl HH Hl HR) as (res & r & ES & EG & HO).
      exists r. split; [rewrite (traj_fixed scaled wg _ _ _ _ WP p rows EA), EC; cbn [bind fst snd]; rewrite ES; exact EG|].
      intros Hs. destruct (HO Hs) as (x & HN & Hcv & Hpl & _). split; [exact Hpl|]. rewrite Lr, En in HN. fold tau in HN.
      intros M HM. exact (HNr tau x _ M (plan_tol_nonneg _ _) Hcv HM HN).
    Qed.
    Lemma c53_step_dec dt ta : 0 < dt -> computeDiscretizedTime Ts dt = Ok ta -> cost_weight pData Ts ta lam ->
      (forall i t, sampled_step Ts dt i t -> wrench_rate pData (total Ts) g B t) ->
      exists ns r, length ns = length Ts /\ (forall i k, nth_error ns i = Some k -> steps_to (phase_start Ts i) (phase_end Ts i) dt k) /\
        computeCOMTraj scaled wg (solve_quadprog mem) glpk pData Ts dt SOLVER_QUADPROG = Ok r /\
        let tau := plan_tol (rows_needed (contacts pData) (fun i => nth i ns 0 + (if Nat.eqb i 0 then 1 else 2)) 0
                             + acc_needed pData (fold_right Nat.add 0 (map S ns)))%nat lam in
        (rc_success r = true -> plan_curve pData Ts r /\
         forall M, Forall (within M) (bc_pts (rc_c r)) -> forall i c t, nth_error (contacts pData) i = Some c -> sampled_step Ts dt i t ->
           contact_near pData tau (tau * B' + dec_slack G M (total Ts)) c (cv_fun (rc_c r)) t /\ accel_near pData tau (cv_fun (rc_c r)) t).
    Proof.
      intros Hdt Et CW WR. pose proof (step_times_of Ts dt ta Hdt (wp_pos _ _ WP) Et) as HT.
      destruct (c14_step pData Ts dt WP Hdt) as (ta' & ns & n & rows & Et' & N1 & N2 & En & Lr & _ & EA). rewrite Et in Et'. injection Et' as <-.
      destruct (dec_step_short dt ta rows Hdt Et WR EA) as [HR HNr].
      destruct (gencost_id pData Ts _ lam WP HT CW) as (H & v & EC & HH). pose proof OS as (_ & _ & Hl & _).
      destruct (plan_answer scaled wg mem glpk pData Ts rows lam H v (MX 3 []) [] WP eq_refl eq_refl HH Hl HR) as (res & r & ES & EG & HO).
      exists ns, r. split; [exact N1|]. split; [exact N2|].
      split; [rewrite (traj_step scaled wg _ _ _ _ WP dt ta rows Hdt Et EA), EC; cbn [bind fst snd]; rewrite ES; exact EG|].
      intros tau Hs. destruct (HO Hs) as (x & HN & Hcv & Hpl & _). split; [exact Hpl|]. rewrite Lr, En in HN. fold tau in HN.
      intros M HM. exact (HNr tau x _ M (plan_tol_nonneg _ _) Hcv HM HN).
    Qed.

    Lemma c54_optimal_fixed_dec p : (1 <= p)%nat -> let ta := computeDiscretizedTimeFixed Ts p in
      cost_weight pData Ts ta lam -> (forall i t, sampled_fixed Ts p i t -> wrench_rate pData (total Ts) g B t) ->
      exists rows H gg r, computeConstraintsOneStep pData Ts (total Ts) ta = Ok rows /\
        genCostFunction pData Ts (total Ts) ta 3 = Ok (H, gg) /\
        computeCOMTrajFixedSize scaled wg (solve_quadprog mem) glpk pData Ts p = Ok r /\
        (well_scaled (eqp_of (plan_qp H gg rows)) ->
         forall y cvy M, com_curve pData (total Ts) y = Ok cvy -> Forall (within M) (bc_pts cvy) ->
         plan_feasible_by pData (sampled_fixed Ts p) (- dec_slack G M (total Ts)) (cv_fun cvy) ->
         (rc_success r = true /\ exists x s s', rc_x r = l3 x /\ com_curve pData (total Ts) x = Ok (rc_c r) /\
            plan_cost pData ta x (cv_fun (rc_c r)) s /\ plan_cost pData ta y (cv_fun cvy) s' /\ s <= s') \/
         (rc_success r = false /\ (1000 <= subsets (length rows) 3)%nat /\ exists st, returns (eqp_of (plan_qp H gg rows)) mem st_MAX_ITER st)).
    Proof.
      intros Hp ta CW WR. pose proof (fixed_times_of Ts p Hp (wp_ne _ _ WP) (wp_pos _ _ WP)) as HT.
      destruct (c15_fixed_dec pData Ts p g G WP Hp SG HG Hf) as (rows & EA & HM). pose proof OS as (_ & _ & HL & _).
      destruct (opt_go scaled wg mem glpk pData Ts lam ta WP HT CW rows
        (fun _ cv => exists M, Forall (within M) (bc_pts cv) /\ plan_feasible_by pData (sampled_fixed Ts p) (- dec_slack G M (total Ts)) (cv_fun cv))
        (fun x cv H '(ex_intro _ M (conj A F)) => proj2 (HM x cv M H A) F) HL (proj1 (dec_fixed_short p rows Hp WR EA))) as (H & gg & r & EC & ER & R1).
      exists rows, H, gg, r. split; [exact EA|]. split; [exact EC|]. split; [rewrite (traj_fixed scaled wg _ _ _ _ WP p rows EA); fold ta; rewrite EC; exact ER|].
      intros HW y cvy M Hy HMy FE. apply (R1 HW y cvy Hy). exists M. split; assumption.
    Qed.
    Lemma c54_optimal_step_dec dt ta : 0 < dt -> computeDiscretizedTime Ts dt = Ok ta ->
      cost_weight pData Ts ta lam -> (forall i t, sampled_step Ts dt i t -> wrench_rate pData (total Ts) g B t) ->
      exists rows H gg r, computeConstraintsOneStep pData Ts (total Ts) ta = Ok rows /\
        genCostFunction pData Ts (total Ts) ta 3 = Ok (H, gg) /\
        computeCOMTraj scaled wg (solve_quadprog mem) glpk pData Ts dt SOLVER_QUADPROG = Ok r /\
        (well_scaled (eqp_of (plan_qp H gg rows)) ->
         forall y cvy M, com_curve pData (total Ts) y = Ok cvy -> Forall (within M) (bc_pts cvy) ->
         plan_feasible_by pData (sampled_step Ts dt) (- dec_slack G M (total Ts)) (cv_fun cvy) ->
         (rc_success r = true /\ exists x s s', rc_x r = l3 x /\ com_curve pData (total Ts) x = Ok (rc_c r) /\
            plan_cost pData ta x (cv_fun (rc_c r)) s /\ plan_cost pData ta y (cv_fun cvy) s' /\ s <= s') \/
         (rc_success r = false /\ (1000 <= subsets (length rows) 3)%nat /\ exists st, returns (eqp_of (plan_qp H gg rows)) mem st_MAX_ITER st)).
    Proof.
      intros Hdt Et CW WR. pose proof (step_times_of Ts dt ta Hdt (wp_pos _ _ WP) Et) as HT.
      destruct (c15_step_dec pData Ts dt g G WP Hdt SG HG Hf) as (ta' & rows & Et' & EA & HM). rewrite Et in Et'. injection Et' as <-. pose proof OS as (_ & _ & HL & _).
      destruct (opt_go scaled wg mem glpk pData Ts lam ta WP HT CW rows
        (fun _ cv => exists M, Forall (within M) (bc_pts cv) /\ plan_feasible_by pData (sampled_step Ts dt) (- dec_slack G M (total Ts)) (cv_fun cv))
        (fun x cv H '(ex_intro _ M (conj A F)) => proj2 (HM x cv M H A) F) HL (proj1 (dec_step_short dt ta rows Hdt Et WR EA))) as (H & gg & r & EC & ER & R1).
      exists rows, H, gg, r. split; [exact EA|]. split; [exact EC|]. split; [rewrite (traj_step scaled wg _ _ _ _ WP dt ta rows Hdt Et EA), EC; exact ER|].
      intros HW y cvy M Hy HMy FE. apply (R1 HW y cvy Hy). exists M. split; assumption.
    Qed.
  End Common.

  Lemma c54_best_fixed_dec pData Ts p g G lam x cv M : well_posed pData Ts -> (1 <= p)%nat -> same_gravity pData g -> within G g -> In (flag_of pData) dec_w_flags ->
    cost_weight pData Ts (computeDiscretizedTimeFixed Ts p) lam -> 0 < lam ->
    com_curve pData (total Ts) x = Ok cv -> Forall (within M) (bc_pts cv) ->
    plan_feasible_by pData (sampled_fixed Ts p) (- dec_slack G M (total Ts)) (cv_fun cv) ->
    cheapest pData Ts (computeDiscretizedTimeFixed Ts p) x (cv_fun cv) ->
    exists r, computeCOMTrajFixedSize scaled wg (solve_quadprog mem) glpk pData Ts p = Ok r /\ rc_success r = true /\ rc_x r = l3 x /\ rc_c r = cv.
  Proof.
    intros WP Hp SG HG Hf CW L0 Hcv HMx FE CH. pose proof (fixed_times_of Ts p Hp (wp_ne _ _ WP) (wp_pos _ _ WP)) as HT.
    destruct (c15_fixed_dec pData Ts p g G WP Hp SG HG Hf) as (rows & EA & HM).
    destruct (best_go scaled wg mem glpk pData Ts lam _ WP HT CW rows
      (fun _ cv => Forall (within M) (bc_pts cv) /\ plan_feasible_by pData (sampled_fixed Ts p) (- dec_slack G M (total Ts)) (cv_fun cv))
      (fun x cv H '(conj A F) => proj2 (HM x cv M H A) F) x cv L0 Hcv (conj HMx FE) CH) as (H & gg & r & EC & ER & R1).
    exists r. rewrite (traj_fixed scaled wg _ _ _ _ WP p rows EA), EC. cbn [bind fst snd]. split; [exact ER|exact R1].
  Qed.
  Lemma c54_best_step_dec pData Ts dt ta g G lam x cv M : well_posed pData Ts -> 0 < dt -> same_gravity pData g -> within G g -> In (flag_of pData) dec_w_flags ->
    computeDiscretizedTime Ts dt = Ok ta -> cost_weight pData Ts ta lam -> 0 < lam ->
    com_curve pData (total Ts) x = Ok cv -> Forall (within M) (bc_pts cv) ->
    plan_feasible_by pData (sampled_step Ts dt) (- dec_slack G M (total Ts)) (cv_fun cv) ->
    cheapest pData Ts ta x (cv_fun cv) ->
    exists r, computeCOMTraj scaled wg (solve_quadprog mem) glpk pData Ts dt SOLVER_QUADPROG = Ok r /\ rc_success r = true /\ rc_x r = l3 x /\ rc_c r = cv.
  Proof.
    intros WP Hdt SG HG Hf Et CW L0 Hcv HMx FE CH. pose proof (step_times_of Ts dt ta Hdt (wp_pos _ _ WP) Et) as HT.
    destruct (c15_step_dec pData Ts dt g G WP Hdt SG HG Hf) as (ta' & rows & Et' & EA & HM). rewrite Et in Et'. injection Et' as <-.
    destruct (best_go scaled wg mem glpk pData Ts lam _ WP HT CW rows
      (fun _ cv => Forall (within M) (bc_pts cv) /\ plan_feasible_by pData (sampled_step Ts dt) (- dec_slack G M (total Ts)) (cv_fun cv))
      (fun x cv H '(conj A F) => proj2 (HM x cv M H A) F) x cv L0 Hcv (conj HMx FE) CH) as (H & gg & r & EC & ER & R1).
    exists r. rewrite (traj_step scaled wg _ _ _ _ WP dt ta rows Hdt Et EA), EC. cbn [bind fst snd]. split; [exact ER|exact R1].
  Qed.
End Plan.
