(** Continuous plans with the bundled QP solver (C62). *)
From Verif Require Import Vec SpecBezier SpecTime ModelData ModelWaypoints ModelDispatch ModelUtils ModelRows ModelCom ModelNd ModelCont ModelSolver ModelTraj ModelQp
  SpecCom SpecWp SpecCtr SpecCont SpecSolver SpecTraj SpecEnd SpecEnd2 ProofBezier ProofCurve ProofWaypoints ProofWaypoints2 ProofWaypointsErr ProofTime ProofTime2
  ProofRows ProofEmit ProofCom ProofCom2 ProofCom3 ProofNd ProofCont ProofCont2 ProofCont3 ProofCont4 ProofCont5 ProofCont6 ProofCont7 ProofCont8
  ProofSolver ProofTraj ProofTraj2 ProofQp14 ProofEnd ProofEnd2 ProofEnd3 ProofEnd5.
Open Scope R_scope.

Lemma crows_Forall (P : vec3 * R -> Prop) pData dd : forall cs lc la lw, length lc = length cs -> length la = length cs -> length lw = length cs ->
  (Forall P (crows pData dd lc la lw cs) <->
   forall i c pc pa pw, nth_error cs i = Some c -> nth_error lc i = Some pc -> nth_error la i = Some pa ->
     nth_error lw i = Some pw -> Forall P (phase_rows pData dd c pc pa pw)).
Proof.
  induction cs as [|c cs IH]; intros [|pc lc] [|pa la] [|pw lw] L1 L2 L3; cbn in L1, L2, L3; try lia.
  - split; [intros _ i ? ? ? ? H; destruct i; discriminate|intros _; constructor].
  - cbn [crows]. rewrite Forall_app, (IH lc la lw) by lia. split.
    + intros [H1 H2] [|i] c' pc' pa' pw' E1 E2 E3 E4; cbn in *.
      * injection E1 as <-. injection E2 as <-. injection E3 as <-. injection E4 as <-. exact H1.
      * eapply H2; eassumption.
    + intros H. split; [apply (H 0%nat); reflexivity|]. intros i c' pc' pa' pw' E1 E2 E3 E4. apply (H (S i)); assumption.
Qed.

(** * Kinematic rows *)
Lemma kaff_short p kap : opb 1 p -> 1 <= kap -> forall kin Kin l, kin_rows (kin_row_aff p) Kin kin = Ok l ->
  (forall K, In K Kin -> vnorm K <= kap) -> forall r, In r l -> vnorm (fst r) <= kap.
Proof.
  intros Hp Hk. induction kin as [|k kin IH]; intros Kin l H HK r Hr.
  - assert (l = []) as -> by (destruct Kin; inversion H; reflexivity). destruct Hr.
  - destruct Kin as [|K0 Kin]; [discriminate|]. cbn [kin_rows] in H.
    destruct (kin_rows (kin_row_aff p) Kin kin) as [rs| |] eqn:E; try discriminate. cbn [bind] in H. injection H as <-.
    destruct Hr as [<-|Hr]; [|eapply IH; eauto; intros; apply HK; right; assumption]. unfold kin_row_aff; cbn [fst].
    pose proof (opb_row 1 p K0 ltac:(lra) Hp). specialize (HK K0 (or_introl eq_refl)). lra.
Qed.
Lemma kaff_near p x tau : forall kin Kin l, kin_rows (kin_row_aff p) Kin kin = Ok l -> near tau l x ->
  forall i K k, nth_error Kin i = Some K -> nth_error kin i = Some k -> vdot K (ev_aff p x) <= k + tau.
Proof.
  induction kin as [|k kin IH]; intros Kin l H HN i K k' HK Hk; [destruct i; discriminate|].
  destruct Kin as [|K0 Kin]; [discriminate|]. cbn [kin_rows] in H.
  destruct (kin_rows (kin_row_aff p) Kin kin) as [rs| |] eqn:E; try discriminate. cbn [bind] in H. injection H as <-.
  inversion HN as [|? ? H1 H2]; subst. destruct i as [|i]; cbn in HK, Hk; [|eapply IH; eauto].
  injection HK as <-. injection Hk as <-. apply (kin_row_aff_ok p K0 (k + tau) x). unfold kin_row_aff in *; cbn [fst snd] in *. lra.
Qed.
(** * Acceleration rows *)
Lemma aaff_short C p amax r : 0 <= C -> opb C p -> In r (arows_aff amax p) -> vnorm (fst r) <= C.
Proof.
  intros HC Hp. assert (E : forall e m, vnorm2 e = 1 -> m = vmmul e (fst p) -> vnorm m <= C).
  { intros e m He ->. eapply Rle_trans; [apply (opb_row C p e HC Hp)|]. unfold vnorm. rewrite He, sqrt_1. lra. }
  assert (E0 : vnorm (row0 (fst p)) <= C) by (apply (E V1); [unfold vnorm2, vdot; cbn; ring|apply v3_eq; unfold vmmul; cbn; ring]).
  assert (E1 : vnorm (row1 (fst p)) <= C) by (apply (E V2); [unfold vnorm2, vdot; cbn; ring|apply v3_eq; unfold vmmul; cbn; ring]).
  assert (E2 : vnorm (row2 (fst p)) <= C) by (apply (E V4); [unfold vnorm2, vdot; cbn; ring|apply v3_eq; unfold vmmul; cbn; ring]).
  unfold arows_aff, acc_rows.
  intros [<-|[<-|[<-|[<-|[<-|[<-|[]]]]]]]; cbn [fst]; rewrite ?vnorm_opp; assumption.
Qed.
Lemma aaff_near p amax tau x : near tau (arows_aff amax p) x -> within (amax + tau) (ev_aff p x).
Proof.
  intros H. apply acc_rows_aff_sat. unfold arows_aff, near, sat, acc_rows in *. rewrite !Forall_cons_iff in *. cbn [fst snd] in *.
  destruct H as (H1 & H2 & H3 & H4 & H5 & H6 & H7). repeat split; try lra. constructor.
Qed.

(** * Wrench control points *)
Lemma ws_ctrl pData T g ws x cv : In (flag_of pData) exact_w_flags -> front_gravity pData = Ok g -> ws <> [] ->
  computeWwaypoints pData T = Ok ws -> com_curve pData T x = Ok cv ->
  ctrl_giw (map (fun w => item_w (w, CPhase [] 1 g []) x) ws) 0 T (CPhase [] 1 g []) (cv_fun cv).
Proof.
  intros Hf Eg Hne Ews Hcv t acc Ha. destruct (c05_ok _ _ _ _ _ Hf Hcv Eg) as (ws' & E & Hall). rewrite Ews in E. injection E as <-.
  rewrite items_curve by exact Hne. cbn [cp_mass cp_gravity]. rewrite !Rminus_0_r, (Hall t acc Ha), wrench_giw2. reflexivity.
Qed.
Lemma ws_opb6 pData Ts g ws B : well_posed pData Ts -> In (flag_of pData) exact_w_flags -> front_gravity pData = Ok g -> ws <> [] ->
  computeWwaypoints pData (total Ts) = Ok ws -> wrench_ctrl_rate pData (total Ts) g (length ws) B -> Forall (opb6 B) ws.
Proof.
  intros WP Hf Eg Hne Ews HR. apply Forall_forall. intros w Hw d.
  destruct (curve_T pData Ts WP d) as (? & cvd & _ & _ & Hd & _). destruct (curve_T pData Ts WP vzero) as (? & cv0 & _ & _ & H0 & _).
  pose proof (HR vzero d cv0 cvd _ _ H0 Hd (map_length _ _) (map_length _ _) (ws_ctrl _ _ g ws vzero cv0 Hf Eg Hne Ews H0) (ws_ctrl _ _ g ws d cvd Hf Eg Hne Ews Hd)) as F.
  clear - F Hw. induction ws as [|w0 ws IH]; [destruct Hw|]. cbn [map] in F. inversion F as [|? ? ? ? F1 F2]; subst.
  destruct Hw as [-> |Hw]; [|apply IH; assumption]. clear - F1.
  replace (vnorm (vsub vzero d)) with (vnorm d) in F1 by (rewrite <- (vnorm_opp d); f_equal; apply v3_eq; cbn; ring).
  replace (v6sub (item_w (w, CPhase [] 1 g []) vzero) (item_w (w, CPhase [] 1 g []) d)) with (v6sub (ev_w6 w d) (ev_w6 w vzero)) in F1; [exact F1|].
  unfold item_w; cbn [fst snd cp_mass cp_gravity]. destruct (ev_w6 w d) as [a b]. destruct (ev_w6 w vzero) as [a' b'].
  unfold v6_scal, v6sub; cbn [fst snd]. f_equal; apply v3_eq; cbn; ring.
Qed.

(** * The rows of the continuous problem *)
Section Cont.
  Variables (scaled : bool) (pData : problem) (Ts : list R).
  Hypothesis WP : well_posed pData Ts.
  Variables (g : vec3) (lam B kap : R) (ws : list wp6).
  Hypothesis SG : same_gravity pData g.
  Hypothesis HD : representation pData = DOUBLE_DESCRIPTION.
  Hypothesis SP : splittable Ts.
  Hypothesis OS : on_scale pData lam B kap.
  Hypothesis HA : acc_ctrl_rate scaled Ts <= B.
  Hypothesis Ews : computeWwaypoints pData (total Ts) = Ok ws.
  Hypothesis Fw : Forall (opb6 B) ws.

  Lemma mh_opb c w Hh : In c (contacts pData) -> opb6 B w -> In Hh (mh pData c) -> vnorm (v6_mmul (fst Hh) w) <= B.
  Proof.
    intros Hc Hw HI. unfold mh in HI. rewrite (updateH_ok pData c (wf_in pData Ts WP c Hc)) in HI. cbn [okd] in HI.
    apply in_map_iff in HI. destruct HI as (H0 & <- & HI). destruct OS as (HB & _). apply adjoint_le; [lra| |exact Hw].
    rewrite (urow_norm pData Ts WP c H0 Hc HI). lra.
  Qed.

  (** [e]: error of the computed wrench in direction of a unit vector *)
  Lemma cont_rows_err : exists pi rows, computeConstantWaypoints pData (total Ts) = Ok pi /\
    computeConstraintsContinuous scaled pData Ts = Ok (CO (map (padr 0) rows) [] [] 3) /\
    length rows = cont_rows_needed true (length pi) (length ws) (contacts pData) /\
    (forall r, In r rows -> eps52 * vnorm2 (fst r) < lam * lam) /\
    forall tau x cv e, 0 <= tau -> com_curve pData (total Ts) x = Ok cv -> no_zero_point cv x -> near tau rows x ->
      (forall t acc u, 0 <= t <= total Ts -> is_deriv_n 2 (cv_fun cv) t acc -> norm6 u <= 1 ->
         dot6 u (wrench g (cv_fun cv t) acc) <= dot6 u (curve6 (map (fun q => ev_w6 q x) ws) (total Ts) t) + e) ->
      forall i c t, nth_error (contacts pData) i = Some c -> in_phase Ts i t ->
        contact_near pData tau (tau * B + e) c (cv_fun cv) t /\ accel_within (acc_bound_near scaled pData Ts tau) (cv_fun cv) t.
  Proof.
    destruct (cont_main scaled pData Ts WP SP) as (pi & ws' & ddc & lc & la & lw & M). cbv zeta in M.
    destruct M as (Epi & Ews' & Lpi & Lws & HT & Edd & Llc & Lla & Llw & Plc & Pla & Plw & Lrows & _ & Eout).
    rewrite Ews in Ews'. injection Ews' as <-. assert (Hdd : useDD_of pData = true) by (unfold useDD_of; rewrite HD; reflexivity).
    unfold items_of in Eout. rewrite Hdd in Eout, Lrows. cbn [sumcols strips rhss combine fold_right] in Eout.
    set (rows := crows pData true lc la lw (contacts pData)) in *.
    exists pi, rows. split; [exact Epi|]. split; [exact Eout|]. split; [exact Lrows|].
    pose proof WP as (Hfc & _ & _ & _ & HLc & HW). pose proof OS as (HB & HK & Hl & HBl & HKl & HKin). pose proof ProofQp3.eps_pos as EP.
    assert (Hne : ws <> []) by (intros ->; cbn in Lws; lia).
    pose proof (front_same _ _ _ WP SG) as Eg.
    assert (Oc : nd_ok aff (NDC (map sym_aff pi) 0 (total Ts) 1)).
    { split; [|cbn; lra]. cbn. destruct pi; [cbn in Lpi; lia|discriminate]. }
    assert (Ow : nd_ok wp6 (NDC ws 0 (total Ts) 1)) by (split; [exact Hne|cbn; lra]).
    pose proof (pi_le _ _ _ Hfc Epi) as L7.
    assert (Fc : Forall (opb 1) (map sym_aff pi)) by (rewrite Forall_map; apply Forall_forall; intros p _; apply sym_opb).
    destruct (derivate2_ok scaled (NDC (map sym_aff pi) 0 (total Ts) 1)) as (ddc' & E & Od & _);
      [cbn; rewrite map_length; lia|cbn; lra|]. rewrite Edd in E. injection E as <-.
    assert (Fa : Forall (opb B) (nd_pts ddc)).
    { pose proof (derivate2_opb scaled (NDC (map sym_aff pi) 0 (total Ts) 1) ddc ltac:(cbn [nd_pts]; rewrite map_length; lia) ltac:(cbn; lra) Fc Edd) as F.
      cbn [nd_min nd_max] in F. rewrite Rminus_0_r in F. eapply Forall_impl; [|exact F]. intros p Hp d. eapply Rle_trans; [apply Hp|].
      apply Rmult_le_compat_r; [apply vnorm_ge|exact HA]. }
    assert (Pc : forall i p q, nth_error lc i = Some p -> In q (nd_pts p) -> opb 1 q).
    { intros i p q Hp. destruct (Plc i p Hp) as (P & _). pose proof (piece_opb 1 p _ ltac:(lra) Oc P Fc) as F. rewrite Forall_forall in F. apply F. }
    assert (Pa : forall i p q, nth_error la i = Some p -> In q (nd_pts p) -> opb B q).
    { intros i p q Hp. destruct (Pla i p Hp) as (P & _). pose proof (piece_opb B p _ ltac:(lra) Od P Fa) as F. rewrite Forall_forall in F. apply F. }
    assert (Pw : forall i p q, nth_error lw i = Some p -> In q (nd_pts p) -> opb6 B q).
    { intros i p q Hp. destruct (Plw i p Hp) as (P & _). pose proof (piece_opb6 B p _ ltac:(lra) Ow P Fw) as F. rewrite Forall_forall in F. apply F. }
    assert (Kr : forall c q, In c (contacts pData) -> kin_rows (kin_row_aff q) (cd_Kin c) (cd_kin c) = Ok (krows_aff c q)).
    { intros c q Hc. apply krows_aff_ok. destruct (wf_in pData Ts WP c Hc) as (? & _ & _ & _ & H). exact H. }
    split.
    - assert (S : forall b (r : vec3 * R), 0 <= b -> eps52 * (b * b) < lam * lam -> vnorm (fst r) <= b -> eps52 * vnorm2 (fst r) < lam * lam).
      { intros b r0 Hb Hbl H. pose proof (vnorm_ge (fst r0)). rewrite <- vnorm_sq. eapply Rle_lt_trans; [|exact Hbl].
        apply Rmult_le_compat_l; [lra|]. apply Rmult_le_compat; assumption. }
      assert (F : Forall (fun r => eps52 * vnorm2 (fst r) < lam * lam) rows); [|rewrite Forall_forall in F; exact F].
      apply crows_Forall; [lia|lia|lia|]. intros i c pc pa pw Hc E1 E2 E3. assert (Hin : In c (contacts pData)) by (eapply nth_error_In; eauto).
      unfold phase_rows. rewrite !Forall_app, !Forall_flat_map, !Forall_forall. split; [|split].
      + intros q Hq. apply Forall_forall. intros r Hr. apply (S kap); [lra|exact HKl|].
        exact (kaff_short q kap (Pc i pc q E1 Hq) HK _ _ _ (Kr c q Hin) (fun K HI => HKin c K Hin HI) r Hr).
      + intros q Hq. apply Forall_forall. intros r Hr. apply (S B); [lra|exact HBl|].
        exact (srows_short _ (mh pData c) q B HB (fun Hh HI => mh_opb c q Hh Hin (Pw i pw q E3 Hq) HI) r Hr).
      + intros q Hq. apply Forall_forall. intros r Hr. apply (S B); [lra|exact HBl|]. exact (aaff_short B q _ r ltac:(lra) (Pa i pa q E2 Hq) Hr).
    - intros tau x cv e Ht Hcv Hnz HN HE i c t Hc Hti. unfold near, rows in HN. rewrite crows_Forall in HN by lia.
      destruct (com_curve_inv _ _ _ _ Hfc Hcv) as (pi' & pts & Hs & Epi' & _ & -> & _). rewrite Epi in Epi'. injection Epi' as <-.
      apply com_shape_pts in Hs. pose proof (proj2 (sym_pts x pi pts Hs) Hnz) as Hpts. destruct Hti as [Hi Hti].
      assert (Htr : 0 <= t <= total Ts) by (destruct (total_prefix Ts i (wp_pos _ _ WP)); lra).
      assert (Hin : In c (contacts pData)) by (eapply nth_error_In; eauto). pose proof (wf_in pData Ts WP c Hin) as Hw. destruct (php_some c Hw) as [Ep Hm].
      destruct (nth_error lc i) as [pc|] eqn:E1; [|apply nth_error_None in E1; lia].
      destruct (nth_error la i) as [pa|] eqn:E2; [|apply nth_error_None in E2; lia].
      destruct (nth_error lw i) as [pw|] eqn:E3; [|apply nth_error_None in E3; lia].
      specialize (HN i c pc pa pw Hc E1 E2 E3). unfold phase_rows in HN. rewrite !Forall_app, !Forall_flat_map, !Forall_forall in HN. destruct HN as (S1 & S2 & S3).
      split; [split|].
      + intros j K k HKj Hkj. pose proof (hull _ _ _ _ _ _ (fun p => vdot K (ev_aff p x)) (k + tau) t (Plc i pc E1) (lin_aff K x) Hti) as H.
        unfold nd_val in H. cbn [nd_pts nd_min nd_max] in H. rewrite (T_fac _ _ HT), map_map in H.
        unfold cv_fun, curve; cbn [bc_pts bc_T]. rewrite vdot_bez3, <- Hpts, map_map. apply H. intros q Hq.
        exact (kaff_near q x tau _ _ _ (Kr c q Hin) (S1 q Hq) j K k HKj Hkj).
      + destruct (com_acc (BCurve pts (total Ts)) t) as [acc Hacc]. exists (php c), acc. split; [exact Ep|]. split; [exact Hacc|].
        pose proof Hw as (ph & Eph & _ & Hrows & _). rewrite Ep in Eph. injection Eph as Eph. rewrite Forall_forall in Hrows.
        unfold cone_ok. apply Forall_forall. intros Hh HI. rewrite <- Eph in Hrows.
        set (u := fst (urow (php c) Hh (margin pData))). set (h := snd (urow (php c) Hh (margin pData))).
        assert (S6 : forall v gg, dot6 u (v6sub v (gg, vzero)) = dot6 u v - dot6 u (gg, vzero))
          by (intros; unfold dot6, v6sub, vsub, vdot; cbn; ring).
        pose proof (SG c (php c) Hin Ep) as Hg.
        pose proof (hull _ _ _ _ _ _ (fun w => dot6 u (ev_w6 w x)) (h + tau * B + dot6 u (g, vzero)) t (Plw i pw E3) (lin_w6 u x) Hti) as H.
        unfold nd_val in H. cbn [nd_pts nd_min nd_max] in H. rewrite (T_fac _ _ HT) in H.
        assert (H' : dot6 u (curve6 (map (fun q => ev_w6 q x) ws) (total Ts) t) <= h + tau * B + dot6 u (g, vzero)).
        { rewrite dot6_curve6, map_map. apply H. intros q Hq.
          pose proof (srows_near _ (mh pData c) q B HB (fun Hh HI => mh_opb c q Hh Hin (Pw i pw q E3 Hq) HI) tau x Ht (S2 q Hq)) as Q.
          unfold mh in Q. rewrite (updateH_ok pData c Hw) in Q. cbn [okd] in Q. rewrite Forall_map, Forall_forall in Q. specialize (Q Hh HI).
          fold u h in Q. rewrite S6, Hg in Q. lra. }
        assert (Hu : norm6 u <= 1) by (unfold u; rewrite (urow_norm pData Ts WP c Hh Hin HI); lra).
        pose proof (HE t acc u Htr Hacc Hu) as HEu.
        set (sl := tau * B + e).
        assert (Q : dot6 (fst (urow (php c) Hh (margin pData - sl))) (v6sub (wrench g (cv_fun (BCurve pts (total Ts)) t) acc) (g, vzero)) <= snd (urow (php c) Hh (margin pData - sl))).
        { change (fst (urow (php c) Hh (margin pData - sl))) with u. rewrite S6. replace (snd (urow (php c) Hh (margin pData - sl))) with (h + sl) by (unfold h, urow; cbn [snd]; ring). unfold sl. lra. }
        apply (urow_ok (php c) Hh _ _ g Hm (Hrows Hh HI)) in Q. rewrite wrench_giw2 in Q. rewrite Hg.
        rewrite <- giw2_same. replace (snd Hh - margin pData + sl) with (snd Hh - (margin pData - sl)) by ring. exact Q.
      + unfold acc_bound_near. apply (acc_piece scaled pi (BCurve pts (total Ts)) x (total Ts) ddc pa _ _ t _ HT ltac:(lia) eq_refl Hpts Edd (Pla i pa E2) Hti).
        intros q Hq. apply aaff_near. exact (S3 q Hq).
  Qed.
End Cont.

Lemma cont_rows scaled pData Ts : well_posed pData Ts -> forall g lam B kap ws, same_gravity pData g ->
  representation pData = DOUBLE_DESCRIPTION -> In (flag_of pData) exact_w_flags -> splittable Ts -> on_scale pData lam B kap ->
  acc_ctrl_rate scaled Ts <= B -> computeWwaypoints pData (total Ts) = Ok ws -> wrench_ctrl_rate pData (total Ts) g (length ws) B ->
  exists pi rows, computeConstantWaypoints pData (total Ts) = Ok pi /\
    computeConstraintsContinuous scaled pData Ts = Ok (CO (map (padr 0) rows) [] [] 3) /\
    length rows = cont_rows_needed true (length pi) (length ws) (contacts pData) /\
    (forall r, In r rows -> eps52 * vnorm2 (fst r) < lam * lam) /\
    forall tau x cv, 0 <= tau -> com_curve pData (total Ts) x = Ok cv -> no_zero_point cv x -> near tau rows x ->
      forall i c t, nth_error (contacts pData) i = Some c -> in_phase Ts i t ->
        contact_near pData tau (tau * B) c (cv_fun cv) t /\ accel_within (acc_bound_near scaled pData Ts tau) (cv_fun cv) t.
Proof.
  intros WP g lam B kap ws SG HD Hf SP OS HA Ews WR. pose proof (front_same _ _ _ WP SG) as Eg.
  destruct (cont_main scaled pData Ts WP SP) as (pi0 & ws' & ddc & lc & la & lw & M). cbv zeta in M.
  destruct M as (_ & Ews' & _ & Lws & _). rewrite Ews in Ews'. injection Ews' as <-.
  assert (Hne : ws <> []) by (intros ->; cbn in Lws; lia).
  pose proof (ws_opb6 pData Ts g ws B WP Hf Eg Hne Ews WR) as Fw.
  destruct (cont_rows_err scaled pData Ts WP g lam B kap ws SG HD SP OS HA Ews Fw) as (pi & rows & H1 & H2 & H3 & H4 & H5).
  exists pi, rows. split; [exact H1|]. split; [exact H2|]. split; [exact H3|]. split; [exact H4|].
  intros tau x cv Ht Hcv Hnz HN i c t Hc Hti. replace (tau * B) with (tau * B + 0) by ring.
  refine (H5 tau x cv 0 Ht Hcv Hnz HN _ i c t Hc Hti).
  intros s acc u _ Hacc _. destruct (c05_ok _ _ _ _ _ Hf Hcv Eg) as (ws' & E & Hall). rewrite Ews in E. injection E as <-.
  rewrite (Hall s acc Hacc). lra.
Qed.
