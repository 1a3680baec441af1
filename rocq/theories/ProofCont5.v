(** Continuous formulation: meaning of the inequalities at every time. *)
From Verif Require Import Vec SpecBezier SpecTime ModelData ModelDispatch ModelUtils ModelRows ModelCom ModelNd ModelCont
  SpecCom SpecWp SpecCtr SpecCont ProofBezier ProofCurve ProofWaypoints ProofTime ProofTime2 ProofEmit ProofCom ProofCom2 ProofCom3 ProofNd
  ProofWaypointsErr ProofCont ProofCont2 ProofCont3 ProofCont4.
Open Scope R_scope.

Lemma satX_pad n rows x beta : satX (map (padr n) rows) (l3 x ++ beta) <-> sat rows x.
Proof.
  unfold satX, sat. rewrite Forall_map. rewrite !Forall_forall. unfold padr; cbn [fst snd].
  split; intros H r Hr; specialize (H r Hr).
  - rewrite rdot_app, rdot_l3, rdot_zeros in H by reflexivity. lra.
  - rewrite rdot_app, rdot_l3, rdot_zeros by reflexivity. lra.
Qed.

Lemma crows_sat pData dd x : forall cs lc la lw, length lc = length cs -> length la = length cs -> length lw = length cs ->
  (sat (crows pData dd lc la lw cs) x <->
   forall i c pc pa pw, nth_error cs i = Some c -> nth_error lc i = Some pc -> nth_error la i = Some pa ->
     nth_error lw i = Some pw -> sat (phase_rows pData dd c pc pa pw) x).
Proof.
  induction cs as [|c cs IH]; intros [|pc lc] [|pa la] [|pw lw] L1 L2 L3; cbn in L1, L2, L3; try lia.
  - split; [intros _ i ? ? ? ? H; destruct i; discriminate|intros _; constructor].
  - cbn [crows]. rewrite sat_app, (IH lc la lw) by lia. split.
    + intros [H1 H2] [|i] c' pc' pa' pw' E1 E2 E3 E4; cbn in *.
      * injection E1 as <-. injection E2 as <-. injection E3 as <-. injection E4 as <-. exact H1.
      * eapply H2; eassumption.
    + intros H. split; [apply (H 0%nat); reflexivity|]. intros i c' pc' pa' pw' E1 E2 E3 E4. apply (H (S i)); assumption.
Qed.

Lemma T_fac T t : 0 < T -> (t - 0) / (T - 0) = t / T.
Proof. intros H. rewrite !Rminus_0_r. reflexivity. Qed.

Section Meaning.
  Variables (scaled : bool) (pData : problem) (Ts : list R).
  Hypothesis WP : well_posed pData Ts.

  Lemma ph_ex i c : nth_error (contacts pData) i = Some c -> contact_wf c /\ (i < length Ts)%nat.
  Proof.
    intros H. destruct WP as (_ & _ & _ & _ & HL & HW). rewrite Forall_forall in HW. split; [apply HW; eapply nth_error_In; eauto|].
    rewrite <- HL. apply nth_error_Some. congruence.
  Qed.

  (** hull of a piece, for a functional *)
  Lemma hull {A} (add : A -> A -> A) scal (cv p : ndc A) a b phi B t : is_piece add scal cv a b p -> linear A add scal phi ->
    a <= t <= b -> (forall q, In q (nd_pts p) -> phi q <= B) -> nd_val A phi cv t <= B.
  Proof.
    intros ((Hok & _ & _ & _ & _ & Hv) & Ha & Hb & _) Hl Ht Hq. rewrite <- (Hv phi t Hl).
    apply val_le; [exact Hok|lra|]. apply Forall_forall. exact Hq.
  Qed.

  Lemma kin_piece pi cv x T p a b t c : 0 < T -> cv_fun cv = curve (map (fun q => ev_aff (sym_aff q) x) pi) T ->
    is_piece aff_add aff_scal (NDC (map sym_aff pi) 0 T 1) a b p -> a <= t <= b ->
    (forall q, In q (nd_pts p) -> kin_ok c (ev_aff q x)) -> kin_ok c (cv_fun cv t).
  Proof.
    intros HT Hcv HP Ht Hq i K k HK Hk.
    pose proof (hull _ _ _ _ _ _ (fun p => vdot K (ev_aff p x)) k t HP (lin_aff K x) Ht
                  (fun q Hin => Hq q Hin i K k HK Hk)) as H.
    unfold nd_val in H. cbn [nd_pts nd_min nd_max] in H. rewrite (T_fac _ _ HT), map_map in H.
    rewrite Hcv. unfold curve. rewrite vdot_bez3, map_map. exact H.
  Qed.

  Lemma acc_piece pi cv x T ddc p a b t amax : 0 < T -> (3 <= length pi)%nat ->
    bc_T cv = T -> map (fun q => ev_aff (sym_aff q) x) pi = bc_pts cv ->
    nd_derivate aff aff_sub aff_scal aff_zero scaled 2 (NDC (map sym_aff pi) 0 T 1) = Ok ddc ->
    is_piece aff_add aff_scal ddc a b p -> a <= t <= b ->
    (forall q, In q (nd_pts p) -> within amax (ev_aff q x)) ->
    accel_within (if scaled then amax else amax / (T * T)) (cv_fun cv) t.
  Proof.
    intros HT HL HcT Hpts Hdd HP Ht Hq.
    destruct (derivate2_ok scaled (NDC (map sym_aff pi) 0 T 1)) as (ddc' & E & _ & m2 & M2 & _ & HE);
      [cbn; rewrite map_length; lia|cbn; lra|].
    rewrite Hdd in E. injection E as <-. specialize (HE x). cbn [nd_min nd_max nd_pts] in *. cbv zeta in HE.
    rewrite Rminus_0_r, map_map, Hpts in HE.
    assert (V : forall u, nd_val aff (fun q => vdot u (ev_aff q x)) ddc t =
                d_fac scaled T * d_fac scaled T * vdot u (curve (hodo_n 2 T (bc_pts cv)) T t)).
    { intros u. unfold nd_val. rewrite m2, M2, (T_fac _ _ HT).
      change (map (fun q => vdot u (ev_aff q x)) (nd_pts ddc)) with (map (fun q => vdot u ((fun p => ev_aff p x) q)) (nd_pts ddc)).
      rewrite <- (map_map (fun p => ev_aff p x) (vdot u)), HE, map_map.
      rewrite (bezl_ext_map _ (fun v => (d_fac scaled T * d_fac scaled T) * vdot u v + 0 * 0))
        by (intros v _; unfold vdot, vscal; cbn [vx vy vz]; ring).
      rewrite bezl_comb. unfold curve. rewrite vdot_bez3. ring. }
    exists (curve (hodo_n 2 T (bc_pts cv)) T t). split.
    { unfold cv_fun. rewrite HcT. apply curve_is_deriv_n. }
    assert (U : forall u, (forall v, within amax v -> vdot u v <= amax) ->
       d_fac scaled T * d_fac scaled T * vdot u (curve (hodo_n 2 T (bc_pts cv)) T t) <= amax).
    { intros u Hu. rewrite <- V. apply (hull _ _ _ _ _ _ _ _ t HP (lin_aff u x) Ht). intros q Hin. apply Hu, Hq, Hin. }
    set (acc := curve (hodo_n 2 T (bc_pts cv)) T t) in *.
    assert (B : forall e, (forall v, vdot e v = vx v) \/ (forall v, vdot e v = vy v) \/ (forall v, vdot e v = vz v) ->
                Rabs (vdot e acc) <= (if scaled then amax else amax / (T * T))).
    { intros e He.
      assert (P1 : d_fac scaled T * d_fac scaled T * vdot e acc <= amax).
      { apply U. intros v (A1 & A2 & A3). apply Rabs_le_inv in A1, A2, A3. destruct He as [He|[He|He]]; rewrite He; lra. }
      assert (P2 : d_fac scaled T * d_fac scaled T * vdot (vopp e) acc <= amax).
      { apply U. intros v (A1 & A2 & A3). apply Rabs_le_inv in A1, A2, A3.
        replace (vdot (vopp e) v) with (- vdot e v) by (unfold vdot, vopp; cbn; ring).
        destruct He as [He|[He|He]]; rewrite He; lra. }
      replace (vdot (vopp e) acc) with (- vdot e acc) in P2 by (unfold vdot, vopp; cbn; ring).
      unfold d_fac in P1, P2. apply Rabs_le. destruct scaled; [lra|].
      assert (HTT : 0 < T * T) by nra.
      split; apply (Rmult_le_reg_l (T * T)); try exact HTT; field_simplify; try lra. }
    split; [|split].
    - rewrite <- dot_V1. apply B. left. intros; apply dot_V1.
    - rewrite <- dot_V2. apply B. right; left. intros; apply dot_V2.
    - rewrite <- dot_V4. apply B. right; right. intros; apply dot_V4.
  Qed.

  Lemma stab_piece ws T p a b t c x : 0 < T -> contact_wf c ->
    is_piece w6_add w6_scal (NDC ws 0 T 1) a b p -> a <= t <= b ->
    (forall q, In q (nd_pts p) -> sat (srows (cp_gravity (php c)) (mh pData c) q) x) ->
    enf pData ws T (cp_gravity (php c)) c t x.
  Proof.
    intros HT Hw HP Ht Hq. unfold enf. pose proof Hw as (ph & Eph & Hm & Hrows & _).
    assert (Ep : php c = ph) by (unfold php; rewrite Eph; reflexivity).
    apply Forall_forall. intros Hh Hin. rewrite Ep in *. rewrite Forall_forall in Hrows. specialize (Hrows Hh Hin).
    apply urow_ok; [exact Hm|exact Hrows|]. set (u := fst (urow ph Hh (margin pData))).
    set (h := snd (urow ph Hh (margin pData))).
    pose proof (hull _ _ _ _ _ _ (fun w => dot6 u (ev_w6 w x)) (h + dot6 u (cp_gravity ph, vzero)) t HP (lin_w6 u x) Ht) as H.
    assert (S6 : forall v, dot6 u (v6sub v (cp_gravity ph, vzero)) = dot6 u v - dot6 u (cp_gravity ph, vzero))
      by (intros; unfold dot6, v6sub, vsub, vdot; cbn; ring).
    rewrite S6. rewrite dot6_curve6, map_map. unfold nd_val in H. cbn [nd_pts nd_min nd_max] in H. rewrite (T_fac _ _ HT) in H.
    apply Rle_minus_l in H || (assert (forall a b c, a <= b + c -> a - c <= b) as X by (intros; lra); apply X).
    apply H. intros q Hqin. specialize (Hq q Hqin). rewrite srows_sat in Hq. unfold mh in Hq. rewrite (updateH_ok pData c Hw) in Hq.
    cbn [okd] in Hq. rewrite Ep, Forall_map, Forall_forall in Hq. specialize (Hq Hh Hin). fold u h in Hq. rewrite S6 in Hq. lra.
  Qed.

  Lemma cont_meaning : splittable Ts -> exists ws out,
    computeWwaypoints pData (total Ts) = Ok ws /\
    computeConstraintsContinuous scaled pData Ts = Ok out /\
    forall x beta cv, com_curve pData (total Ts) x = Ok cv -> no_zero_point cv x -> satX (co_A out) (l3 x ++ beta) ->
    forall i c t, nth_error (contacts pData) i = Some c -> in_phase Ts i t ->
      kin_ok c (cv_fun cv t) /\
      accel_within (if scaled then k_maxAcceleration (constr pData) else k_maxAcceleration (constr pData) / (total Ts * total Ts)) (cv_fun cv) t /\
      (representation pData = DOUBLE_DESCRIPTION -> enf pData ws (total Ts) (cp_gravity (php c)) c t x).
  Proof.
    intros SP. destruct (cont_main scaled pData Ts WP SP) as (pi & ws & ddc & lc & la & lw & M). cbv zeta in M.
    destruct M as (Epi & Ews & Lpi & Lws & HT & Edd & Llc & Lla & Llw & Plc & Pla & Plw & _ & _ & Eout).
    exists ws. eexists. split; [exact Ews|]. split; [exact Eout|]. cbn [co_A].
    pose proof WP as (Hf & _ & _ & _ & HLc & HW).
    intros x beta cv Hcv Hnz Hsat. apply satX_pad in Hsat. rewrite crows_sat in Hsat by lia.
    destruct (com_curve_inv _ _ _ _ Hf Hcv) as (pi' & pts & Hs & Epi' & _ & -> & _). rewrite Epi in Epi'. injection Epi' as <-.
    apply com_shape_pts in Hs. pose proof (proj2 (sym_pts x pi pts Hs) Hnz) as Hpts.
    intros i c t Hc [Hi Ht]. destruct (ph_ex i c Hc) as [Hw _].
    destruct (nth_error lc i) as [pc|] eqn:E1; [|apply nth_error_None in E1; lia].
    destruct (nth_error la i) as [pa|] eqn:E2; [|apply nth_error_None in E2; lia].
    destruct (nth_error lw i) as [pw|] eqn:E3; [|apply nth_error_None in E3; lia].
    specialize (Hsat i c pc pa pw Hc E1 E2 E3). unfold phase_rows in Hsat. rewrite !sat_app in Hsat. destruct Hsat as (S1 & S2 & S3).
    split; [|split].
    - apply (kin_piece pi _ x (total Ts) pc _ _ t c HT) with (2 := Plc i pc E1) (3 := Ht).
      + unfold cv_fun; cbn [bc_pts bc_T]. rewrite Hpts. reflexivity.
      + intros q Hq. destruct Hw as (ph & _ & _ & _ & Hk). apply (krows_aff_ok c q Hk). rewrite sat_flat_map in S1. apply S1, Hq.
    - apply (acc_piece pi (BCurve pts (total Ts)) x (total Ts) ddc pa _ _ t _ HT ltac:(lia) eq_refl Hpts Edd (Pla i pa E2) Ht).
      intros q Hq. rewrite sat_flat_map in S3. apply acc_rows_aff_sat. apply S3, Hq.
    - intros HD. unfold useDD_of in S2. rewrite HD in S2. cbn [Z.eqb DOUBLE_DESCRIPTION Pos.eqb] in S2.
      apply (stab_piece ws (total Ts) pw _ _ t c x HT Hw (Plw i pw E3) Ht). intros q Hq. rewrite sat_flat_map in S2. apply S2, Hq.
  Qed.
End Meaning.

Lemma php_some c : contact_wf c -> cd_phase c = Some (php c) /\ 0 < cp_mass (php c).
Proof. intros (ph & E & Hm & _). unfold php. rewrite E. auto. Qed.

Lemma front_same pData Ts g : well_posed pData Ts -> same_gravity pData g -> front_gravity pData = Ok g.
Proof.
  intros WP SG. destruct (front_ex pData Ts WP) as [g0 E]. rewrite E. f_equal. unfold front_gravity in E.
  destruct WP as (_ & _ & _ & _ & _ & HW). destruct (contacts pData) as [|c l] eqn:Ec; [discriminate|]. cbn in E.
  destruct (cd_phase c) as [ph|] eqn:Ep; [|discriminate]. cbn in E. injection E as <-.
  apply (SG c ph); [rewrite Ec; left; reflexivity|exact Ep].
Qed.

Lemma c17_kin scaled pData Ts : well_posed pData Ts -> splittable Ts -> exists out,
  computeConstraintsContinuous scaled pData Ts = Ok out /\
  forall x beta cv, com_curve pData (total Ts) x = Ok cv -> no_zero_point cv x -> satX (co_A out) (l3 x ++ beta) ->
  forall i c t, nth_error (contacts pData) i = Some c -> in_phase Ts i t ->
    kin_ok c (cv_fun cv t) /\
    accel_within (if scaled then k_maxAcceleration (constr pData) else k_maxAcceleration (constr pData) / (total Ts * total Ts)) (cv_fun cv) t.
Proof.
  intros WP SP. destruct (cont_meaning scaled pData Ts WP SP) as (ws & out & _ & E & H). exists out. split; [exact E|].
  intros x beta cv H1 H2 H3 i c t H4 H5. destruct (H x beta cv H1 H2 H3 i c t H4 H5) as (A & B & _). auto.
Qed.

Lemma c17_dd scaled pData Ts g : well_posed pData Ts -> splittable Ts -> same_gravity pData g ->
  representation pData = DOUBLE_DESCRIPTION -> In (flag_of pData) exact_w_flags -> exists out,
  computeConstraintsContinuous scaled pData Ts = Ok out /\ co_D out = [] /\ co_min out = [] /\ co_cols out = 3%nat /\
  forall x cv, com_curve pData (total Ts) x = Ok cv -> no_zero_point cv x -> satX (co_A out) (l3 x) ->
  forall i c t, nth_error (contacts pData) i = Some c -> in_phase Ts i t -> contact_ok pData 0 c (cv_fun cv) t.
Proof.
  intros WP SP SG HD HF. destruct (cont_meaning scaled pData Ts WP SP) as (ws & out & Ews & E & H). exists out. split; [exact E|].
  assert (EO : co_D out = [] /\ co_min out = [] /\ co_cols out = 3%nat).
  { destruct (cont_main scaled pData Ts WP SP) as (pi & ws' & ddc & lc & la & lw & M). cbv zeta in M.
    destruct M as (_ & _ & _ & _ & _ & _ & _ & _ & _ & _ & _ & _ & _ & _ & Eout). rewrite E in Eout. injection Eout as ->.
    unfold items_of, useDD_of. rewrite HD. cbn. auto. }
  split; [apply EO|]. split; [apply EO|]. split; [apply EO|].
  intros x cv H1 H2 H3 i c t H4 H5. rewrite <- (app_nil_r (l3 x)) in H3.
  destruct (H x [] cv H1 H2 H3 i c t H4 H5) as (A & _ & C). specialize (C HD).
  destruct (ph_ex pData Ts WP i c H4) as [Hw _]. destruct (php_some c Hw) as [Ep _].
  destruct (com_acc cv t) as [acc Hacc]. split; [exact A|]. exists (php c), acc. split; [exact Ep|]. split; [exact Hacc|].
  rewrite <- giw2_same. pose proof (SG c (php c) (nth_error_In _ _ H4) Ep) as Hg. rewrite Hg in *.
  eapply (enf_exact pData (total Ts) g g ws x cv c t acc); try eassumption. eapply front_same; eassumption.
Qed.

Lemma c17_dd_dec scaled pData Ts g G : well_posed pData Ts -> splittable Ts -> same_gravity pData g -> within G g ->
  representation pData = DOUBLE_DESCRIPTION -> In (flag_of pData) dec_w_flags -> exists out,
  computeConstraintsContinuous scaled pData Ts = Ok out /\ co_D out = [] /\ co_min out = [] /\ co_cols out = 3%nat /\
  forall x cv M, com_curve pData (total Ts) x = Ok cv -> no_zero_point cv x -> Forall (within M) (bc_pts cv) ->
  satX (co_A out) (l3 x) ->
  forall i c t, nth_error (contacts pData) i = Some c -> in_phase Ts i t ->
    contact_ok pData (3 * (err_force M (total Ts) + err_moment G M (total Ts))) c (cv_fun cv) t.
Proof.
  intros WP SP SG HG HD HF. destruct (cont_meaning scaled pData Ts WP SP) as (ws & out & Ews & E & H). exists out. split; [exact E|].
  assert (EO : co_D out = [] /\ co_min out = [] /\ co_cols out = 3%nat).
  { destruct (cont_main scaled pData Ts WP SP) as (pi & ws' & ddc & lc & la & lw & M). cbv zeta in M.
    destruct M as (_ & _ & _ & _ & _ & _ & _ & _ & _ & _ & _ & _ & _ & _ & Eout). rewrite E in Eout. injection Eout as ->.
    unfold items_of, useDD_of. rewrite HD. cbn. auto. }
  split; [apply EO|]. split; [apply EO|]. split; [apply EO|].
  intros x cv M H1 H2 HM H3 i c t H4 H5. rewrite <- (app_nil_r (l3 x)) in H3.
  destruct (H x [] cv H1 H2 H3 i c t H4 H5) as (A & _ & C). specialize (C HD).
  destruct (ph_ex pData Ts WP i c H4) as [Hw _]. destruct (php_some c Hw) as [Ep Hm].
  destruct (com_acc cv t) as [acc Hacc]. split; [exact A|]. exists (php c), acc. split; [exact Ep|]. split; [exact Hacc|].
  rewrite <- giw2_same. pose proof (SG c (php c) (nth_error_In _ _ H4) Ep) as Hg. rewrite Hg in *.
  assert (Ht : 0 <= t <= total Ts).
  { destruct H5 as [_ H5]. destruct (total_prefix Ts i (wp_pos _ _ WP)). lra. }
  eapply (enf_dec pData (total Ts) g g ws x cv c t acc M G); try eassumption. eapply front_same; eassumption.
Qed.
