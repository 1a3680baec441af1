(** Continuous formulation: property lemmas. *)
From Verif Require Import Vec SpecBezier SpecTime ModelData ModelDispatch ModelUtils ModelRows ModelCom ModelNd ModelCont
  SpecCom SpecWp SpecCtr SpecCont ProofBezier ProofCurve ProofWaypoints ProofWaypoints2 ProofTime ProofTime2 ProofEmit ProofCom ProofCom2 ProofCom3 ProofNd
  ProofWaypointsErr ProofCont ProofCont2 ProofCont3 ProofCont4 ProofCont5 ProofCont6 ProofCont7.
Open Scope R_scope.


Lemma within_scal k B v : 0 < k -> (within B v <-> within (/ k * B) (vscal (/ k) v)).
Proof.
  intros Hk. assert (Hi : 0 < / k) by (apply Rinv_0_lt_compat, Hk).
  assert (A : forall a, Rabs (/ k * a) <= / k * B <-> Rabs a <= B).
  { intros a. rewrite Rabs_mult, (Rabs_right (/ k)) by lra. split; intros H; [eapply Rmult_le_reg_l; eassumption|apply Rmult_le_compat_l; lra]. }
  unfold within, vscal; cbn [vx vy vz]. rewrite !A. reflexivity.
Qed.

Section Main.
  Variables (scaled : bool) (pData : problem) (Ts : list R).
  Hypothesis WP : well_posed pData Ts.

  Lemma deriv_ctrl pi cv x ddc p t acc : 0 < total Ts -> (3 <= length pi)%nat ->
    bc_T cv = total Ts -> map (fun q => ev_aff (sym_aff q) x) pi = bc_pts cv ->
    nd_derivate aff aff_sub aff_scal aff_zero scaled 2 (NDC (map sym_aff pi) 0 (total Ts) 1) = Ok ddc ->
    piece aff aff_add aff_scal p ddc -> is_deriv_n 2 (cv_fun cv) t acc ->
    acc = curve (map (fun q => vscal (/ (d_fac scaled (total Ts) * d_fac scaled (total Ts))) (ev_aff q x)) (nd_pts p))
            (nd_max p - nd_min p) (t - nd_min p).
  Proof.
    intros HT HL HcT Hpts Hdd (_ & _ & _ & _ & _ & Hv) Hacc.
    destruct (derivate2_ok scaled (NDC (map sym_aff pi) 0 (total Ts) 1)) as (ddc' & E & _ & m2 & M2 & _ & HE);
      [cbn; rewrite map_length; lia|cbn; lra|].
    rewrite Hdd in E. injection E as <-. specialize (HE x). cbn [nd_min nd_max nd_pts] in *. cbv zeta in HE.
    rewrite Rminus_0_r, map_map, Hpts in HE.
    assert (HF : 0 < d_fac scaled (total Ts) * d_fac scaled (total Ts)) by (unfold d_fac; destruct scaled; nra).
    set (k := d_fac scaled (total Ts) * d_fac scaled (total Ts)) in *.
    pose proof (curve_is_deriv_n 2 (bc_pts cv) (total Ts) t) as Hd.
    unfold cv_fun in Hacc. rewrite HcT in Hacc.
    rewrite (is_deriv_n_unique 2 _ _ t _ _ (fun _ => eq_refl) Hacc Hd).
    apply v3_ext. intros u. unfold curve at 2. rewrite vdot_bez3, map_map.
    rewrite (bezl_ext_map _ (fun q => / k * vdot u (ev_aff q x) + 0 * 0))
        by (intros v _; unfold vdot, vscal; cbn [vx vy vz]; ring).
    rewrite bezl_comb. specialize (Hv (fun q => vdot u (ev_aff q x)) t (lin_aff u x)). unfold nd_val in Hv.
    rewrite Hv, m2, M2, (T_fac _ _ HT).
    change (map (fun q => vdot u (ev_aff q x)) (nd_pts ddc)) with (map (fun q => vdot u ((fun p => ev_aff p x) q)) (nd_pts ddc)).
    rewrite <- (map_map (fun p => ev_aff p x) (vdot u)), HE, map_map.
    rewrite (bezl_ext_map _ (fun v => k * vdot u v + 0 * 0))
      by (intros v _; unfold vdot, vscal; cbn [vx vy vz]; ring).
    rewrite bezl_comb. unfold curve. rewrite vdot_bez3. field. lra.
  Qed.

  Lemma giw_ctrl g ws x cv c p t acc : 0 < total Ts -> contact_wf c ->
    same_gravity pData g -> In c (contacts pData) -> In (flag_of pData) exact_w_flags ->
    com_curve pData (total Ts) x = Ok cv -> computeWwaypoints pData (total Ts) = Ok ws ->
    piece wp6 w6_add w6_scal p (NDC ws 0 (total Ts) 1) -> is_deriv_n 2 (cv_fun cv) t acc ->
    giw (cp_mass (php c)) (cp_gravity (php c)) (cv_fun cv t) acc =
    curve6 (map (fun w => item_w (w, php c) x) (nd_pts p)) (nd_max p - nd_min p) (t - nd_min p).
  Proof.
    intros HT Hw SG Hin HF Hcv Ews HP Hacc.
    destruct (c05_ok _ _ _ _ _ HF Hcv (front_same _ _ _ WP SG)) as (ws' & E & Hall). rewrite Ews in E. injection E as <-.
    destruct (php_some c Hw) as [Ep _].
    rewrite items_curve by (destruct HP as ((Hn & _) & _); exact Hn).
    rewrite (piece_w6 _ _ _ _ _ HT HP), (Hall t acc Hacc), (SG c (php c) Hin Ep), wrench_giw2. reflexivity.
  Qed.

  Lemma cone_item c q x : contact_wf c ->
    (sat (srows (cp_gravity (php c)) (mh pData c) q) x <-> cone_ok (margin pData) 0 (php c) (item_w (q, php c) x)).
  Proof.
    intros Hw. pose proof Hw as (ph & Eph & Hm & Hrows & _).
    assert (Ep : php c = ph) by (unfold php; rewrite Eph; reflexivity).
    rewrite srows_sat. unfold mh. rewrite (updateH_ok pData c Hw). cbn [okd]. rewrite Ep, Forall_map.
    unfold cone_ok. rewrite !Forall_forall. rewrite Forall_forall in Hrows.
    split; intros H Hh Hin; specialize (H Hh Hin).
    - apply urow_ok in H; [|exact Hm|apply Hrows, Hin]. replace (snd Hh - margin pData + 0) with (snd Hh - margin pData) by ring. exact H.
    - apply urow_ok; [exact Hm|apply Hrows, Hin|]. replace (snd Hh - margin pData + 0) with (snd Hh - margin pData) in H by ring. exact H.
  Qed.

  (** the rows in terms of the pieces of the wrench *)
  Lemma c17_pieces : long_phases Ts ->
    exists out ws, computeConstraintsContinuous scaled pData Ts = Ok out /\ computeWwaypoints pData (total Ts) = Ok ws /\
    0 < total Ts /\ forall x cv, com_curve pData (total Ts) x = Ok cv -> no_zero_point cv x ->
    exists (Pc Pa : nat -> list vec3) (Pw : nat -> ndc wp6),
      (forall i c ph, nth_error (contacts pData) i = Some c -> cd_phase c = Some ph ->
         (length (Pc i) = length (bc_pts cv) /\ ctrl_pos (Pc i) (phase_start Ts i) (phase_end Ts i) (cv_fun cv)) /\
         (length (Pa i) = length (bc_pts cv) - 2 /\ ctrl_acc (Pa i) (phase_start Ts i) (phase_end Ts i) (cv_fun cv))%nat /\
         (piece wp6 w6_add w6_scal (Pw i) (NDC ws 0 (total Ts) 1) /\ nd_min (Pw i) = phase_start Ts i /\ nd_max (Pw i) = phase_end Ts i)) /\
      forall beta, satX (co_A out) (l3 x ++ beta) <->
        forall i c ph, nth_error (contacts pData) i = Some c -> cd_phase c = Some ph ->
          Forall (kin_ok c) (Pc i) /\ Forall (within (acc_bound scaled pData Ts)) (Pa i) /\
          (representation pData = DOUBLE_DESCRIPTION -> Forall (cone_ok (margin pData) 0 ph) (map (fun q => item_w (q, ph) x) (nd_pts (Pw i)))).
  Proof.
    intros HL. pose proof (long_split _ HL) as SP.
    destruct (cont_main scaled pData Ts WP SP) as (pi & ws & ddc & lc & la & lw & M). cbv zeta in M.
    destruct M as (Epi & Ews & Lpi & Lws & HT & Edd & Llc & Lla & Llw & Plc & Pla & Plw & _ & _ & Eout).
    eexists. exists ws. split; [exact Eout|]. split; [exact Ews|]. split; [exact HT|]. cbn [co_A].
    pose proof WP as (Hf & _ & _ & _ & HLc & HW).
    intros x cv Hcv Hnz.
    destruct (com_curve_inv _ _ _ _ Hf Hcv) as (pi' & pts & Hs & Epi' & _ & -> & _). rewrite Epi in Epi'. injection Epi' as <-.
    apply com_shape_pts in Hs. pose proof (proj2 (sym_pts x pi pts Hs) Hnz) as Hpts.
    assert (Lpts : length pts = length pi) by (rewrite <- Hpts; apply map_length).
    destruct (derivate2_ok scaled (NDC (map sym_aff pi) 0 (total Ts) 1)) as (ddc0 & E & _ & m2 & M2 & Ldd & _);
      [cbn; rewrite map_length; lia|cbn; lra|]. rewrite Edd in E. injection E as <-. cbn [nd_pts nd_min nd_max] in Ldd, m2, M2.
    rewrite map_length in Ldd.
    set (k := / (d_fac scaled (total Ts) * d_fac scaled (total Ts))).
    exists (fun i => match nth_error lc i with Some p => map (fun q => ev_aff q x) (nd_pts p) | None => [] end).
    exists (fun i => match nth_error la i with Some p => map (fun q => vscal k (ev_aff q x)) (nd_pts p) | None => [] end).
    exists (fun i => match nth_error lw i with Some p => p | None => NDC [] 0 0 0 end).
    assert (Ex : forall i c, nth_error (contacts pData) i = Some c -> exists pc pa pw,
      nth_error lc i = Some pc /\ nth_error la i = Some pa /\ nth_error lw i = Some pw /\ (i < length Ts)%nat /\
      (piece aff aff_add aff_scal pc (NDC (map sym_aff pi) 0 (total Ts) 1) /\ nd_min pc = phase_start Ts i /\ nd_max pc = phase_end Ts i) /\
      (piece aff aff_add aff_scal pa ddc /\ nd_min pa = phase_start Ts i /\ nd_max pa = phase_end Ts i) /\
      (piece wp6 w6_add w6_scal pw (NDC ws 0 (total Ts) 1) /\ nd_min pw = phase_start Ts i /\ nd_max pw = phase_end Ts i)).
    { intros i c Hc. assert (Hi : (i < length Ts)%nat) by (rewrite <- HLc; apply nth_error_Some; congruence).
      destruct (nth_error lc i) as [pc|] eqn:E1; [|apply nth_error_None in E1; lia].
      destruct (nth_error la i) as [pa|] eqn:E2; [|apply nth_error_None in E2; lia].
      destruct (nth_error lw i) as [pw|] eqn:E3; [|apply nth_error_None in E3; lia].
      exists pc, pa, pw. split; [reflexivity|]. split; [reflexivity|]. split; [reflexivity|]. split; [exact Hi|].
      split; [eapply exact_piece; try eassumption; [reflexivity|reflexivity|apply Plc, E1]|].
      split; [eapply exact_piece; try eassumption; apply Pla, E2|].
      eapply exact_piece; try eassumption; [reflexivity|reflexivity|apply Plw, E3]. }
    split.
    - intros i c ph Hc Hph. destruct (Ex i c Hc) as (pc & pa & pw & E1 & E2 & E3 & Hi & (C1 & C2 & C3) & (A1 & A2 & A3) & (W1 & W2 & W3)).
      destruct (ph_ex pData Ts WP i c Hc) as [Hw _]. destruct (php_some c Hw) as [Ep _]. rewrite Hph in Ep. injection Ep as Ep.
      rewrite E1, E2, E3. cbn [bc_pts]. split; [|split; [|auto]]; (split; [rewrite map_length|]).
      + destruct C1 as (_ & Len & _). cbn [nd_pts] in Len. rewrite Len, map_length. auto.
      + intros t. rewrite <- C2, <- C3. rewrite (piece_pos pi (total Ts) pc x t HT C1). unfold cv_fun; cbn [bc_pts bc_T]. rewrite Hpts. reflexivity.
      + destruct A1 as (_ & Len & _). rewrite Len, Ldd. lia.
      + intros t acc Hacc. rewrite <- A2, <- A3. apply (deriv_ctrl pi (BCurve pts (total Ts)) x ddc pa t acc); auto. lia.
    - intros beta. rewrite satX_pad, crows_sat by lia.
      assert (Key : forall i c ph pc pa pw, nth_error (contacts pData) i = Some c -> cd_phase c = Some ph ->
        nth_error lc i = Some pc -> nth_error la i = Some pa -> nth_error lw i = Some pw ->
        (sat (phase_rows pData (useDD_of pData) c pc pa pw) x <->
          Forall (kin_ok c) (map (fun q => ev_aff q x) (nd_pts pc)) /\
          Forall (within (acc_bound scaled pData Ts)) (map (fun q => vscal k (ev_aff q x)) (nd_pts pa)) /\
          (representation pData = DOUBLE_DESCRIPTION -> Forall (cone_ok (margin pData) 0 ph) (map (fun q => item_w (q, ph) x) (nd_pts pw))))).
      { intros i c ph pc pa pw Hc Hph E1 E2 E3. destruct (ph_ex pData Ts WP i c Hc) as [Hw _].
        destruct (php_some c Hw) as [Ep _]. rewrite Hph in Ep. injection Ep as Ep.
        assert (Hk : (length (cd_kin c) <= length (cd_Kin c))%nat) by (destruct Hw as (? & _ & _ & _ & H); exact H).
        assert (HF2 : 0 < d_fac scaled (total Ts) * d_fac scaled (total Ts)) by (unfold d_fac; destruct scaled; nra).
        unfold phase_rows. rewrite !sat_app, !sat_flat_map, !Forall_map.
        assert (K1 : Forall (fun q => kin_ok c (ev_aff q x)) (nd_pts pc) <-> forall a, In a (nd_pts pc) -> sat (krows_aff c a) x).
        { rewrite Forall_forall. split; intros H q Hq; apply (krows_aff_ok c q Hk); apply H, Hq. }
        assert (K2 : Forall (fun q => within (acc_bound scaled pData Ts) (vscal k (ev_aff q x))) (nd_pts pa) <->
                     forall a, In a (nd_pts pa) -> sat (arows_aff (k_maxAcceleration (constr pData)) a) x).
        { rewrite Forall_forall. unfold arows_aff.
          assert (Eb : acc_bound scaled pData Ts = k * k_maxAcceleration (constr pData))
            by (unfold acc_bound, k, d_fac; destruct scaled; field; lra).
          rewrite Eb. split; intros H q Hq.
          - apply acc_rows_aff_sat. apply (within_scal (d_fac scaled (total Ts) * d_fac scaled (total Ts))); [exact HF2|]. apply H, Hq.
          - apply (within_scal (d_fac scaled (total Ts) * d_fac scaled (total Ts)) (k_maxAcceleration (constr pData)) (ev_aff q x) HF2). apply acc_rows_aff_sat, H, Hq. }
        rewrite K1, K2. unfold useDD_of.
        destruct (Z.eqb_spec (representation pData) DOUBLE_DESCRIPTION) as [ED|ED].
        - rewrite sat_flat_map.
          assert (K3 : Forall (fun q => cone_ok (margin pData) 0 ph (item_w (q, ph) x)) (nd_pts pw) <->
                       forall a, In a (nd_pts pw) -> sat (srows (cp_gravity (php c)) (mh pData c) a) x).
          { rewrite Forall_forall, Ep. split; intros H q Hq; apply (cone_item c q x Hw), H, Hq. }
          rewrite K3. tauto.
        - assert (sat [] x) by constructor. tauto. }
      split.
      + intros H i c ph Hc Hph. destruct (Ex i c Hc) as (pc & pa & pw & E1 & E2 & E3 & _).
        rewrite E1, E2, E3. apply (Key i c ph pc pa pw Hc Hph E1 E2 E3). eapply H; eassumption.
      + intros H i c pc pa pw Hc E1 E2 E3. destruct (ph_ex pData Ts WP i c Hc) as [Hw _]. destruct (php_some c Hw) as [Ep _].
        specialize (H i c _ Hc Ep). rewrite E1, E2, E3 in H. apply (Key i c _ pc pa pw Hc Ep E1 E2 E3), H.
  Qed.
  Lemma c17_exact g : long_phases Ts -> same_gravity pData g -> In (flag_of pData) exact_w_flags ->
    exists out ws, computeConstraintsContinuous scaled pData Ts = Ok out /\ computeWwaypoints pData (total Ts) = Ok ws /\
    forall x cv, com_curve pData (total Ts) x = Ok cv -> no_zero_point cv x ->
    exists (Pc Pa : nat -> list vec3) (Pw : nat -> list v6),
      (forall i c ph, nth_error (contacts pData) i = Some c -> cd_phase c = Some ph ->
         (length (Pc i) = length (bc_pts cv) /\ ctrl_pos (Pc i) (phase_start Ts i) (phase_end Ts i) (cv_fun cv)) /\
         (length (Pa i) = length (bc_pts cv) - 2 /\ ctrl_acc (Pa i) (phase_start Ts i) (phase_end Ts i) (cv_fun cv))%nat /\
         (length (Pw i) = length ws /\ ctrl_giw (Pw i) (phase_start Ts i) (phase_end Ts i) ph (cv_fun cv))) /\
      forall beta, satX (co_A out) (l3 x ++ beta) <->
        forall i c ph, nth_error (contacts pData) i = Some c -> cd_phase c = Some ph ->
          Forall (kin_ok c) (Pc i) /\ Forall (within (acc_bound scaled pData Ts)) (Pa i) /\
          (representation pData = DOUBLE_DESCRIPTION -> Forall (cone_ok (margin pData) 0 ph) (Pw i)).
  Proof.
    intros HL SG HF. destruct (c17_pieces HL) as (out & ws & Eout & Ews & HT & HP). exists out, ws. split; [exact Eout|]. split; [exact Ews|].
    intros x cv Hcv Hnz. destruct (HP x cv Hcv Hnz) as (Pc & Pa & Pw & H1 & H2).
    exists Pc, Pa, (fun i => match nth_error (contacts pData) i with Some c => map (fun q => item_w (q, php c) x) (nd_pts (Pw i)) | None => [] end).
    assert (EP : forall i c ph, nth_error (contacts pData) i = Some c -> cd_phase c = Some ph -> php c = ph)
      by (intros i c ph _ Hph; unfold php; rewrite Hph; reflexivity).
    split.
    - intros i c ph Hc Hph. destruct (H1 i c ph Hc Hph) as (A1 & A2 & W1 & W2 & W3). split; [exact A1|]. split; [exact A2|]. rewrite Hc. split.
      + rewrite map_length. destruct W1 as (_ & Len & _). exact Len.
      + intros t acc Hacc. rewrite <- W2, <- W3, <- (EP i c ph Hc Hph). destruct (ph_ex pData Ts WP i c Hc) as [Hw _].
        eapply giw_ctrl; try eassumption. eapply nth_error_In; eassumption.
    - intros beta. rewrite H2. split; intros H i c ph Hc Hph; specialize (H i c ph Hc Hph); rewrite Hc, (EP i c ph Hc Hph) in *; exact H.
  Qed.
End Main.
