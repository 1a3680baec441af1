(** Continuous formulation: force representation, sizes, acceleration flag. *)
From Verif Require Import Vec SpecBezier SpecTime ModelData ModelDispatch ModelUtils ModelRows ModelCom ModelNd ModelCont
  SpecCom SpecWp SpecCtr SpecCont ProofBezier ProofCurve ProofWaypoints ProofWaypoints2 ProofTime ProofTime2 ProofEmit ProofCom ProofCom2 ProofCom3 ProofNd
  ProofWaypointsErr ProofCont ProofCont2 ProofCont3 ProofCont4 ProofCont5 ProofCont6 ProofCont7 ProofCont8.
Open Scope R_scope.

Section Force.
  Variables (scaled : bool) (pData : problem) (Ts : list R).
  Hypothesis WP : well_posed pData Ts.
  Hypothesis NDD : representation pData <> DOUBLE_DESCRIPTION.

  Lemma noDD : useDD_of pData = false.
  Proof. unfold useDD_of. apply Z.eqb_neq, NDD. Qed.

  (** what the equalities and bounds say, in terms of the pieces *)
  Lemma force_core : splittable Ts -> exists ws out lw,
    computeWwaypoints pData (total Ts) = Ok ws /\ computeConstraintsContinuous scaled pData Ts = Ok out /\ 0 < total Ts /\ (2 <= length ws)%nat /\
    length lw = length Ts /\
    (forall i p, nth_error lw i = Some p -> is_piece w6_add w6_scal (NDC ws 0 (total Ts) 1) (phase_start Ts i) (phase_end Ts i) p) /\
    forall x,
      let P := forall i c pw j w, nth_error (contacts pData) i = Some c -> nth_error lw i = Some pw -> nth_error (nd_pts pw) j = Some w ->
        (j = 0%nat -> ~ left_to_prev (contacts pData) i) -> (S j = length ws -> ~ left_to_next (contacts pData) i) ->
        in_cone (gens c) (item_w (w, php c) x) in
      (forall beta, ge_forces out beta -> eqX (co_D out) (l3 x ++ beta) -> P) /\
      (P -> -100000 <= vx x -> -100000 <= vy x -> -100000 <= vz x ->
       exists beta, geX (co_min out) (l3 x ++ beta) /\ eqX (co_D out) (l3 x ++ beta)).
  Proof.
    intros SP. destruct (cont_main scaled pData Ts WP SP) as (pi & ws & ddc & lc & la & lw & M). cbv zeta in M.
    destruct M as (_ & Ews & _ & Lws & HT & _ & _ & _ & Llw & _ & _ & Plw & _ & _ & Eout).
    pose proof WP as (_ & _ & _ & _ & HLc & _).
    exists ws. eexists. exists lw. split; [exact Ews|]. split; [exact Eout|]. split; [exact HT|]. split; [exact Lws|]. split; [exact Llw|]. split; [exact Plw|].
    intros x. cbv zeta. cbn [co_min co_D]. rewrite noDD. unfold items_of. rewrite noDD.
    set (items := fitems 0 lw (contacts pData)).
    assert (E : Forall (fun it => in_cone (cp_G (snd it)) (item_w it x)) items <->
      forall i c pw j w, nth_error (contacts pData) i = Some c -> nth_error lw i = Some pw -> nth_error (nd_pts pw) j = Some w ->
        (j = 0%nat -> ~ left_to_prev (contacts pData) i) -> (S j = length ws -> ~ left_to_next (contacts pData) i) ->
        in_cone (gens c) (item_w (w, php c) x)).
    { unfold items. rewrite fitems_in by lia. cbn [snd].
      assert (Len : forall i pw, nth_error lw i = Some pw -> length (nd_pts pw) = length ws).
      { intros i pw H. destruct (Plw i pw H) as ((_ & L & _) & _). exact L. }
      split; intros H i c pw j w Hc Hp Hj A B.
      - rewrite (gens_php c (wf_nth pData Ts WP i c Hc)). apply (H i c pw j w Hc Hp Hj).
        + intros C D. subst j. apply (A eq_refl). apply (prev_lt_left pData Ts WP i c Hc), C.
        + intros C D. rewrite (Len i pw Hp) in D. apply (B D). apply (next_le_left pData Ts WP i c Hc), C.
      - rewrite <- (gens_php c (wf_nth pData Ts WP i c Hc)). apply (H i c pw j w Hc Hp Hj).
        + intros D C. apply A; [|exact D]. apply (prev_lt_left pData Ts WP i c Hc), C.
        + intros D C. rewrite <- (Len i pw Hp) in D. apply B; [|exact D]. apply (next_le_left pData Ts WP i c Hc), C. }
    split.
    - intros beta Hg He. apply E. unfold ge_forces in Hg. cbn [co_min repeat app skipn] in Hg. apply geX_zero in Hg. destruct Hg as (L & Hb).
      apply (strips_in x items 0 [] beta); auto.
    - intros HP B1 B2 B3. apply E in HP. apply (strips_eq x items 0 []) in HP; [|reflexivity].
      destruct HP as (beta & L & Hb & He). exists beta. split; [|exact He]. apply geX_inv. unfold UNBOUNDED_DOWN. auto.
  Qed.

  Lemma item_nonempty ws lw i p : (forall i p, nth_error lw i = Some p -> is_piece w6_add w6_scal (NDC ws 0 (total Ts) 1) (phase_start Ts i) (phase_end Ts i) p) ->
    nth_error lw i = Some p -> nd_pts p <> [].
  Proof. intros H E. destruct (H i p E) as (((Hn & _) & _) & _). exact Hn. Qed.

  (** a phase all of whose control points are in the cone *)
  Lemma cone_at g ws x cv c i p t acc : 0 < total Ts -> nth_error (contacts pData) i = Some c ->
    same_gravity pData g -> In (flag_of pData) exact_w_flags ->
    com_curve pData (total Ts) x = Ok cv -> computeWwaypoints pData (total Ts) = Ok ws ->
    is_piece w6_add w6_scal (NDC ws 0 (total Ts) 1) (phase_start Ts i) (phase_end Ts i) p -> in_phase Ts i t ->
    (forall w, In w (nd_pts p) -> in_cone (gens c) (item_w (w, php c) x)) ->
    is_deriv_n 2 (cv_fun cv) t acc ->
    in_cone (gens c) (giw (cp_mass (php c)) (cp_gravity (php c)) (cv_fun cv t) acc).
  Proof.
    intros HT Hc SG HF Hcv Ews (HP & Ha & Hb & _) [Hi Ht] Hq Hacc.
    rewrite (giw_ctrl pData Ts WP g ws x cv c p t acc HT (wf_nth pData Ts WP i c Hc) SG (nth_error_In _ _ Hc) HF Hcv Ews HP Hacc).
    pose proof HP as (HP0 & _). pose proof HP as ((Hn & Hmm) & _). apply cone_curve6.
    - destruct (nd_pts p); [congruence|discriminate].
    - apply u_range; [exact HP0|lra].
    - intros q Hin. apply in_map_iff in Hin. destruct Hin as (w & <- & Hw). apply Hq, Hw.
  Qed.

  Lemma c18_phase g : splittable Ts -> same_gravity pData g -> In (flag_of pData) exact_w_flags ->
    exists out, computeConstraintsContinuous scaled pData Ts = Ok out /\
    forall x cv beta, com_curve pData (total Ts) x = Ok cv -> ge_forces out beta -> eqX (co_D out) (l3 x ++ beta) ->
    forall i c ph t acc, nth_error (contacts pData) i = Some c -> cd_phase c = Some ph ->
      ~ left_to_prev (contacts pData) i -> ~ left_to_next (contacts pData) i ->
      in_phase Ts i t -> is_deriv_n 2 (cv_fun cv) t acc ->
      in_cone (cp_G ph) (giw (cp_mass ph) (cp_gravity ph) (cv_fun cv t) acc).
  Proof.
    intros SP SG HF. destruct (force_core SP) as (ws & out & lw & Ews & Eout & HT & _ & Llw & Plw & HX).
    exists out. split; [exact Eout|]. intros x cv beta Hcv Hg He i c ph t acc Hc Hph NP NN Ht Hacc.
    destruct (HX x) as [H _]. specialize (H beta Hg He).
    destruct (php_some c (wf_nth pData Ts WP i c Hc)) as [Ep _].
    assert (E : php c = ph) by congruence. assert (EG : cp_G ph = gens c) by (unfold gens; rewrite Hph; reflexivity). rewrite EG, <- E.
    destruct (nth_error lw i) as [p|] eqn:E3; [|apply nth_error_None in E3; destruct Ht; lia].
    eapply cone_at; try eassumption; [apply Plw, E3|].
    intros w Hw. destruct (In_nth_error _ _ Hw) as [j Hj]. apply (H i c p j w Hc E3 Hj); intros _; assumption.
  Qed.

  (** all control points, when neighbours' cones are nested *)
  Lemma nested_all g ws lw x : long_phases Ts -> same_gravity pData g ->
    0 < total Ts -> (2 <= length ws)%nat -> length lw = length Ts ->
    cones_nested (contacts pData) ->
    (forall i p, nth_error lw i = Some p -> is_piece w6_add w6_scal (NDC ws 0 (total Ts) 1) (phase_start Ts i) (phase_end Ts i) p) ->
    (forall i c pw j w, nth_error (contacts pData) i = Some c -> nth_error lw i = Some pw -> nth_error (nd_pts pw) j = Some w ->
        (j = 0%nat -> ~ left_to_prev (contacts pData) i) -> (S j = length ws -> ~ left_to_next (contacts pData) i) ->
        in_cone (gens c) (item_w (w, php c) x)) ->
    forall i c pw w, nth_error (contacts pData) i = Some c -> nth_error lw i = Some pw -> In w (nd_pts pw) ->
      in_cone (gens c) (item_w (w, php c) x).
  Proof.
    intros HL SG HT Lws Llw CN Plw H.
    assert (Len : forall i pw, nth_error lw i = Some pw -> length (nd_pts pw) = length ws).
    { intros i pw E. destruct (Plw i pw E) as ((_ & L & _) & _). exact L. }
    pose proof WP as (_ & _ & _ & _ & HLc & _).
    (* shared control point: same wrench up to the masses *)
    assert (Shared : forall i c c' p p' w w', nth_error (contacts pData) i = Some c -> nth_error (contacts pData) (S i) = Some c' ->
      nth_error lw i = Some p -> nth_error lw (S i) = Some p' ->
      nth_error (nd_pts p) (length ws - 1) = Some w -> nth_error (nd_pts p') 0 = Some w' ->
      item_w (w, php c) x = v6_scal (cp_mass (php c) / cp_mass (php c')) (item_w (w', php c') x)).
    { intros i c c' p p' w w' Hc Hc' Hp Hp' Hw Hw'.
      assert (Hi : (S i < length Ts)%nat) by (rewrite <- HLc; apply nth_error_Some; congruence).
      destruct (exact_piece _ _ (NDC ws 0 (total Ts) 1) Ts i p HL ltac:(lia) eq_refl eq_refl (Plw i p Hp)) as (P1 & P2 & P3).
      destruct (exact_piece _ _ (NDC ws 0 (total Ts) 1) Ts (S i) p' HL ltac:(lia) eq_refl eq_refl (Plw (S i) p' Hp')) as (Q1 & Q2 & Q3).
      pose proof (php_some c (wf_nth pData Ts WP _ _ Hc)) as [Ec Mc]. pose proof (php_some c' (wf_nth pData Ts WP _ _ Hc')) as [Ec' Mc'].
      pose proof (SG c _ (nth_error_In _ _ Hc) Ec) as G1. pose proof (SG c' _ (nth_error_In _ _ Hc') Ec') as G2.
      assert (EV : ev_w6 w x = ev_w6 w' x).
      { pose proof (piece_w6 ws (total Ts) p x (phase_end Ts i) HT P1) as V1.
        pose proof (piece_w6 ws (total Ts) p' x (phase_end Ts i) HT Q1) as V2. rewrite <- V2 in V1. clear V2.
        apply v6_ext. intros u. apply (f_equal (dot6 u)) in V1. rewrite !dot6_curve6, !map_map in V1.
        pose proof P1 as ((Hn & Hm) & _). pose proof Q1 as ((Hn' & Hm') & _).
        replace ((phase_end Ts i - nd_min p) / (nd_max p - nd_min p)) with 1 in V1 by (rewrite P3; field; lra).
        replace ((phase_end Ts i - nd_min p') / (nd_max p' - nd_min p')) with 0 in V1 by (rewrite Q2, phase_end_start; field; lra).
        rewrite bezl_at_1, bezl_at_0 in V1.
        assert (L1 : last (map (fun q => dot6 u (ev_w6 q x)) (nd_pts p)) 0 = dot6 u (ev_w6 w x)).
        { clear - Hw Len Hp Lws. specialize (Len i p Hp). rewrite <- Len in Hw. revert Hw.
          induction (nd_pts p) as [|a l IH] using rev_ind; [cbn; discriminate|].
          rewrite app_length, map_app. cbn [length map]. rewrite last_last.
          replace (length l + 1 - 1)%nat with (length l) by lia. rewrite nth_error_app2, Nat.sub_diag by lia. cbn. congruence. }
        rewrite L1 in V1. destruct (nd_pts p') as [|q' l']; [discriminate|]. cbn in Hw', V1. injection Hw' as ->. exact V1. }
      unfold item_w; cbn [fst snd]. rewrite EV, G1, G2. unfold v6_scal, v6sub; cbn [fst snd].
      f_equal; apply v3_eq; unfold vscal, vsub; cbn; field; lra. }
    assert (Pos : forall i c, nth_error (contacts pData) i = Some c -> 0 < cp_mass (php c)).
    { intros i c Hc. apply (php_some c (wf_nth pData Ts WP _ _ Hc)). }
    intros i c pw w Hc Hp Hw. destruct (In_nth_error _ _ Hw) as [j Hj].
    assert (Hi : (i < length Ts)%nat) by (rewrite <- HLc; apply nth_error_Some; congruence).
    assert (Hjl : (j < length ws)%nat) by (rewrite <- (Len i pw Hp); apply nth_error_Some; congruence).
    (* first control point, when left to the previous phase *)
    destruct (Nat.eq_dec j 0) as [->|Nj].
    - assert (Dec : left_to_prev (contacts pData) i \/ ~ left_to_prev (contacts pData) i).
      { rewrite <- (prev_lt_left pData Ts WP i c Hc). destruct (prev_lt (prev_count 0 (contacts pData) i) c); auto. }
      destruct Dec as [(i0 & c0 & c1 & -> & E0 & E1 & Hlt)|NP]; [|apply (H i c pw 0%nat w Hc Hp Hj); [auto|intros; lia]].
      rewrite Hc in E1. injection E1 as <-.
      destruct (nth_error lw i0) as [p0|] eqn:Ep0; [|apply nth_error_None in Ep0; lia].
      destruct (nth_error (nd_pts p0) (length ws - 1)) as [w0|] eqn:Ew0; [|apply nth_error_None in Ew0; rewrite (Len i0 p0 Ep0) in Ew0; lia].
      pose proof (Shared i0 c0 c p0 pw w0 w E0 Hc Ep0 Hp Ew0 Hj) as ES.
      destruct (CN i0 c0 c E0 Hc) as [_ CI]. apply CI; [exact Hlt|].
      assert (In0 : in_cone (gens c0) (item_w (w0, php c0) x)).
      { apply (H i0 c0 p0 (length ws - 1)%nat w0 E0 Ep0 Ew0); [intros; lia|]. intros _ (a & b & Ha & Hb & Hab).
        rewrite E0 in Ha. rewrite Hc in Hb. injection Ha as <-. injection Hb as <-. lia. }
      pose proof (Pos _ _ E0). pose proof (Pos _ _ Hc).
      replace (item_w (w, php c) x) with (v6_scal (cp_mass (php c) / cp_mass (php c0)) (item_w (w0, php c0) x)).
      + apply cone_scal; [|exact In0]. apply Rlt_le, Rdiv_lt_0_compat; assumption.
      + rewrite ES. unfold v6_scal; cbn [fst snd]. destruct (item_w (w, php c) x) as [a b]. cbn. f_equal; apply v3_eq; unfold vscal; cbn; field; lra.
    - destruct (Nat.eq_dec (S j) (length ws)) as [Ej|Nej]; [|apply (H i c pw j w Hc Hp Hj); intros; lia].
      assert (Dec : left_to_next (contacts pData) i \/ ~ left_to_next (contacts pData) i).
      { rewrite <- (next_le_left pData Ts WP i c Hc). destruct (match nth_error (contacts pData) (S i) with Some c' => Nat.leb (ncols c') (ncols c) | None => false end); auto. }
      destruct Dec as [(c0 & c1 & E0 & E1 & Hle)|NN]; [|apply (H i c pw j w Hc Hp Hj); [intros; lia|auto]].
      rewrite Hc in E0. injection E0 as <-.
      assert (Hi1 : (S i < length Ts)%nat) by (rewrite <- HLc; apply nth_error_Some; congruence).
      destruct (nth_error lw (S i)) as [p1|] eqn:Ep1; [|apply nth_error_None in Ep1; lia].
      destruct (nth_error (nd_pts p1) 0) as [w1|] eqn:Ew1; [|apply nth_error_None in Ew1; rewrite (Len (S i) p1 Ep1) in Ew1; lia].
      replace j with (length ws - 1)%nat in Hj by lia.
      pose proof (Shared i c c1 pw p1 w w1 Hc E1 Hp Ep1 Hj Ew1) as ES. rewrite ES.
      pose proof (Pos _ _ E1). pose proof (Pos _ _ Hc).
      apply cone_scal; [apply Rlt_le, Rdiv_lt_0_compat; assumption|].
      destruct (CN i c c1 Hc E1) as [CI _]. apply CI; [exact Hle|].
      apply (H (S i) c1 p1 0%nat w1 E1 Ep1 Ew1); [|intros; lia].
      intros _ (j0 & a & b & Hj0 & Ha & Hb & Hab). injection Hj0 as <-. rewrite Hc in Ha. rewrite E1 in Hb. injection Ha as <-. injection Hb as <-. lia.
  Qed.

  Lemma c18_nested g : long_phases Ts -> same_gravity pData g -> In (flag_of pData) exact_w_flags -> cones_nested (contacts pData) ->
    exists out, computeConstraintsContinuous scaled pData Ts = Ok out /\
    forall x cv beta, com_curve pData (total Ts) x = Ok cv -> ge_forces out beta -> eqX (co_D out) (l3 x ++ beta) ->
    forall i c ph t acc, nth_error (contacts pData) i = Some c -> cd_phase c = Some ph ->
      in_phase Ts i t -> is_deriv_n 2 (cv_fun cv) t acc ->
      in_cone (cp_G ph) (giw (cp_mass ph) (cp_gravity ph) (cv_fun cv t) acc).
  Proof.
    intros HL SG HF CN. destruct (force_core (long_split _ HL)) as (ws & out & lw & Ews & Eout & HT & Lws & Llw & Plw & HX).
    exists out. split; [exact Eout|]. intros x cv beta Hcv Hg He i c ph t acc Hc Hph Ht Hacc.
    destruct (HX x) as [H _]. specialize (H beta Hg He).
    destruct (php_some c (wf_nth pData Ts WP i c Hc)) as [Ep _].
    assert (E : php c = ph) by congruence. assert (EG : cp_G ph = gens c) by (unfold gens; rewrite Hph; reflexivity). rewrite EG, <- E.
    destruct (nth_error lw i) as [p|] eqn:E3; [|apply nth_error_None in E3; destruct Ht; lia].
    eapply cone_at; try eassumption; [apply Plw, E3|].
    intros w Hw. eapply nested_all; eassumption.
  Qed.

  Lemma c18_nested_dec g G : long_phases Ts -> same_gravity pData g -> within G g -> In (flag_of pData) dec_w_flags -> cones_nested (contacts pData) ->
    exists out, computeConstraintsContinuous scaled pData Ts = Ok out /\
    forall x cv beta M, com_curve pData (total Ts) x = Ok cv -> Forall (within M) (bc_pts cv) ->
    ge_forces out beta -> eqX (co_D out) (l3 x ++ beta) ->
    forall i c ph t acc, nth_error (contacts pData) i = Some c -> cd_phase c = Some ph ->
      in_phase Ts i t -> is_deriv_n 2 (cv_fun cv) t acc ->
      exists w, in_cone (cp_G ph) w /\
        let d := v6sub w (giw (cp_mass ph) (cp_gravity ph) (cv_fun cv t) acc) in
        within (cp_mass ph * err_force M (total Ts)) (fst d) /\ within (cp_mass ph * err_moment G M (total Ts)) (snd d).
  Proof.
    intros HL SG HG HF CN. destruct (force_core (long_split _ HL)) as (ws & out & lw & Ews & Eout & HT & Lws & Llw & Plw & HX).
    exists out. split; [exact Eout|]. intros x cv beta M Hcv HM Hg He i c ph t acc Hc Hph Ht Hacc.
    destruct (HX x) as [H _]. specialize (H beta Hg He).
    pose proof (wf_nth pData Ts WP i c Hc) as Hw.
    destruct (php_some c Hw) as [Ep Pm].
    assert (E : php c = ph) by congruence. assert (EG : cp_G ph = gens c) by (unfold gens; rewrite Hph; reflexivity). rewrite EG, <- E.
    destruct (nth_error lw i) as [p|] eqn:E3; [|apply nth_error_None in E3; destruct Ht; lia].
    destruct (Plw i p E3) as (HP & Ha & Hb & _). pose proof HP as (HP0 & _). pose proof HP as ((Hn & Hmm) & _).
    exists (curve6 (map (fun w => item_w (w, php c) x) (nd_pts p)) (nd_max p - nd_min p) (t - nd_min p)). split.
    - apply cone_curve6.
      + destruct (nd_pts p); [congruence|discriminate].
      + destruct Ht as [_ Ht]. apply u_range; [exact HP0|lra].
      + intros q Hin. apply in_map_iff in Hin. destruct Hin as (w & <- & Hin). eapply nested_all; eassumption.
    - destruct (c06_ok _ _ _ _ _ _ _ HF Hcv (front_same _ _ _ WP SG) HM HG) as (ws' & E' & Hall). rewrite Ews in E'. injection E' as <-.
      assert (Htt : 0 <= t <= total Ts).
      { destruct Ht as [_ Ht]. destruct (total_prefix Ts i (wp_pos _ _ WP)). lra. }
      destruct (Hall t acc Htt Hacc) as [W1 W2]. cbv zeta.
      rewrite items_curve by exact Hn. rewrite (piece_w6 _ _ _ _ _ HT HP). rewrite <- (giw2_same (cp_mass (php c))).
      pose proof (SG c (php c) (nth_error_In _ _ Hc) Ep) as Gg. rewrite Gg. rewrite <- wrench_giw2.
      assert (AB : forall m a b : R, 0 < m -> Rabs a <= b -> Rabs (- (m * a)) <= m * b).
      { intros m a b Hm Hab. rewrite Rabs_Ropp, Rabs_mult, (Rabs_right m) by lra. apply Rmult_le_compat_l; lra. }
      set (W := curve6 (map (fun q => ev_w6 q x) ws) (total Ts) t) in *.
      destruct W as [[w1 w2 w3] [w4 w5 w6]]. destruct (wrench g (cv_fun cv t) acc) as [[v1 v2 v3] [v4 v5 v6']].
      destruct W1 as (F1 & F2 & F3), W2 as (M1 & M2 & M3). cbn in F1, F2, F3, M1, M2, M3.
      unfold within, v6sub, v6_scal, vsub, vscal; cbn.
      destruct (php c) as [mass ?]; cbn in *.
      repeat split; match goal with |- Rabs ?e <= ?m * ?B => first
        [ replace e with (- (m * (w1 - v1))) by ring; apply AB; [exact Pm|exact F1]
        | replace e with (- (m * (w2 - v2))) by ring; apply AB; [exact Pm|exact F2]
        | replace e with (- (m * (w3 - v3))) by ring; apply AB; [exact Pm|exact F3]
        | replace e with (- (m * (w4 - v4))) by ring; apply AB; [exact Pm|exact M1]
        | replace e with (- (m * (w5 - v5))) by ring; apply AB; [exact Pm|exact M2]
        | replace e with (- (m * (w6 - v6'))) by ring; apply AB; [exact Pm|exact M3] ] end.
  Qed.

  Lemma c18_exact g : long_phases Ts -> same_gravity pData g -> In (flag_of pData) exact_w_flags ->
    exists out ws, computeConstraintsContinuous scaled pData Ts = Ok out /\ computeWwaypoints pData (total Ts) = Ok ws /\
    forall x cv, com_curve pData (total Ts) x = Ok cv ->
    exists Pw : nat -> list v6,
      (forall i c ph, nth_error (contacts pData) i = Some c -> cd_phase c = Some ph ->
         length (Pw i) = length ws /\ ctrl_giw (Pw i) (phase_start Ts i) (phase_end Ts i) ph (cv_fun cv)) /\
      ((exists beta, geX (co_min out) (l3 x ++ beta) /\ eqX (co_D out) (l3 x ++ beta)) <->
       (-100000 <= vx x /\ -100000 <= vy x /\ -100000 <= vz x) /\
       forall i c ph j q, nth_error (contacts pData) i = Some c -> cd_phase c = Some ph -> nth_error (Pw i) j = Some q ->
         (j = 0%nat -> ~ left_to_prev (contacts pData) i) -> (S j = length ws -> ~ left_to_next (contacts pData) i) ->
         in_cone (cp_G ph) q).
  Proof.
    intros HL SG HF. destruct (force_core (long_split _ HL)) as (ws & out & lw & Ews & Eout & HT & Lws & Llw & Plw & HX).
    exists out, ws. split; [exact Eout|]. split; [exact Ews|]. intros x cv Hcv.
    exists (fun i => match nth_error lw i, nth_error (contacts pData) i with
                     | Some p, Some c => map (fun q => item_w (q, php c) x) (nd_pts p) | _, _ => [] end).
    pose proof WP as (_ & _ & _ & _ & HLc & _).
    assert (Ex : forall i c, nth_error (contacts pData) i = Some c -> exists pw, nth_error lw i = Some pw /\
      piece wp6 w6_add w6_scal pw (NDC ws 0 (total Ts) 1) /\ nd_min pw = phase_start Ts i /\ nd_max pw = phase_end Ts i).
    { intros i c Hc. assert (Hi : (i < length Ts)%nat) by (rewrite <- HLc; apply nth_error_Some; congruence).
      destruct (nth_error lw i) as [pw|] eqn:E3; [|apply nth_error_None in E3; lia].
      exists pw. split; [reflexivity|]. eapply exact_piece; try eassumption; [reflexivity|reflexivity|apply Plw, E3]. }
    split.
    - intros i c ph Hc Hph. destruct (Ex i c Hc) as (pw & E3 & W1 & W2 & W3). rewrite E3, Hc.
      pose proof (wf_nth pData Ts WP i c Hc) as Hw. destruct (php_some c Hw) as [Ep _]. rewrite Hph in Ep. injection Ep as Ep. split.
      + rewrite map_length. destruct W1 as (_ & Len & _). exact Len.
      + intros t acc Hacc. rewrite <- W2, <- W3, Ep. eapply giw_ctrl; try eassumption. eapply nth_error_In; eassumption.
    - destruct (HX x) as [H1 H2]. split.
      + intros (beta & Hg & He). specialize (H1 beta (geX_forces _ _ _ Hg) He). split.
        * revert Hg. destruct (cont_main scaled pData Ts WP (long_split _ HL)) as (pi & ws' & ddc & lc & la & lw' & M). cbv zeta in M.
          destruct M as (_ & _ & _ & _ & _ & _ & _ & _ & _ & _ & _ & _ & _ & _ & Eout'). rewrite Eout in Eout'. injection Eout' as ->.
          cbn [co_min]. rewrite noDD. intros Hg. apply geX_inv in Hg. apply Hg.
        * intros i c ph j q Hc Hph Hq A B. destruct (Ex i c Hc) as (pw & E3 & _). rewrite E3, Hc in Hq.
          rewrite nth_error_map in Hq. destruct (nth_error (nd_pts pw) j) as [w|] eqn:Ej; [|discriminate]. cbn in Hq. injection Hq as <-.
          pose proof (H1 i c pw j w Hc E3 Ej A B) as X. unfold gens in X. rewrite Hph in X. exact X.
      + intros [(B1 & B2 & B3) H]. apply H2; auto. intros i c pw j w Hc E3 Ej A B.
        destruct (php_some c (wf_nth pData Ts WP i c Hc)) as [Ep _].
        pose proof (H i c _ j (item_w (w, php c) x) Hc Ep) as X. rewrite E3, Hc in X. unfold gens. rewrite Ep.
        apply X; auto. rewrite nth_error_map, Ej. reflexivity.
  Qed.
End Force.

(** * Sizes *)
Lemma fitems_counts k : forall cs lw prev, Forall contact_wf cs -> length lw = length cs -> Forall (fun p => length (nd_pts p) = k) lw ->
  length (fitems prev lw cs) = force_points (force_counts k prev cs) /\ sumcols (fitems prev lw cs) = force_vars (force_counts k prev cs).
Proof.
  induction cs as [|c cs IH]; intros [|p lw] prev HW HL HF; try discriminate; [split; reflexivity|].
  inversion HW as [|? ? Hc HW']; inversion HF as [|? ? Hp HF']; subst.
  cbn [fitems force_counts]. destruct (IH lw (ncols c) HW' ltac:(cbn in HL; lia) HF') as [I1 I2].
  rewrite app_length, sumcols_app, sumcols_map, map_length, kept_len.
  assert (Gc : forall c, contact_wf c -> gen_count c = ncols c) by (intros d Hd; unfold gen_count, ncols; rewrite (gens_php d Hd); reflexivity).
  assert (E1 : prev_lt prev c = (Nat.ltb 0 prev && Nat.ltb prev (gen_count c))%bool) by (unfold prev_lt; rewrite (Gc c Hc); reflexivity).
  assert (E2 : next_le c cs = match cs with c2 :: _ => Nat.leb (gen_count c2) (gen_count c) | [] => false end).
  { unfold next_le. destruct cs as [|c2 cs']; [reflexivity|]. inversion HW'; subst. rewrite !Gc by assumption. reflexivity. }
  assert (E3 : length (cp_G (php c)) = gen_count c) by (rewrite (Gc c Hc); reflexivity).
  rewrite E1, E2, E3. rewrite <- (Gc c Hc) in *. cbn [force_points force_vars fold_right fst snd].
  fold (force_points (force_counts (length (nd_pts p)) (gen_count c) cs)). fold (force_vars (force_counts (length (nd_pts p)) (gen_count c) cs)).
  rewrite I1, I2. destruct cs as [|c2 cs']; [split; lia|]. destruct (Nat.leb (gen_count c2) (gen_count c)); split; lia.
Qed.

Lemma strips_width : forall items o, Forall (fun r => length r = (3 + (o + sumcols items))%nat) (strips o items).
Proof.
  induction items as [|[w ph] items IH]; intros o; cbn [strips]; [constructor|].
  apply Forall_app. split.
  - unfold strip. rewrite Forall_map. apply Forall_forall. intros [a b] Hin. cbn [fst snd].
    pose proof (in_combine_l _ _ _ _ Hin) as H1. pose proof (in_combine_r _ _ _ _ Hin) as H2.
    pose proof (G_rows_w (cp_G ph)) as HG. rewrite Forall_forall in HG. specialize (HG b H2).
    assert (Ha : length a = 3%nat) by (cbn in H1; repeat (destruct H1 as [<-|H1]; [reflexivity|]); destruct H1).
    rewrite !app_length, !repeat_length, Ha, HG. cbn [sumcols fold_right snd]. fold (sumcols items). lia.
  - eapply Forall_impl; [|apply IH]. intros r Hr. cbn [sumcols fold_right snd]. fold (sumcols items). cbn beta in Hr. rewrite Hr. lia.
Qed.
Lemma strips_len : forall items o, length (strips o items) = (6 * length items)%nat.
Proof. induction items as [|[w ph] items IH]; intros o; cbn [strips length]; [reflexivity|]. rewrite app_length, IH, strip_len. lia. Qed.
Lemma rhss_len items : length (rhss items) = (6 * length items)%nat.
Proof. induction items as [|it items IH]; [reflexivity|]. cbn [rhss flat_map length]. fold (rhss items). rewrite app_length, IH. cbn. lia. Qed.

Lemma c19_ok scaled pData Ts : well_posed pData Ts -> splittable Ts -> exists ws st fdim out,
  computeWwaypoints pData (total Ts) = Ok ws /\
  cont_raw scaled pData Ts = Ok (fdim, st) /\ computeConstraintsContinuous scaled pData Ts = Ok out /\
  let counts := if Z.eqb (representation pData) DOUBLE_DESCRIPTION then [] else force_counts (length ws) 0 (contacts pData) in
  let n := (6 * force_points counts)%nat in
  fdim = force_vars counts /\
  fs_row (cs_force st) = n /\ fs_col (cs_force st) = (3 + fdim)%nat /\
  length (fs_D (cs_force st)) = n /\ length (fs_d (cs_force st)) = n /\
  Forall (fun r => length r = (3 + fdim)%nat) (fs_D (cs_force st)) /\
  length (co_D out) = n /\ co_cols out = (3 + fdim)%nat /\
  Forall (fun r => length (fst r) = (3 + fdim)%nat) (co_A out) /\ Forall (fun r => length (fst r) = (3 + fdim)%nat) (co_D out).
Proof.
  intros WP SP. destruct (cont_main scaled pData Ts WP SP) as (pi & ws & ddc & lc & la & lw & M). cbv zeta in M.
  destruct M as (_ & Ews & _ & Lws & HT & _ & _ & _ & Llw & _ & _ & Plw & _ & (t' & cS & Eraw) & Eout).
  pose proof WP as (_ & _ & _ & _ & HLc & HW).
  exists ws. eexists. eexists. eexists. split; [exact Ews|]. split; [exact Eraw|]. split; [exact Eout|]. cbv zeta.
  cbn [cs_force fs_row fs_col fs_D fs_d co_D co_cols co_A]. unfold items_of, useDD_of.
  assert (C : forall b : bool, length (if b then [] else fitems 0 lw (contacts pData)) = force_points (if b then [] else force_counts (length ws) 0 (contacts pData)) /\
              sumcols (if b then [] else fitems 0 lw (contacts pData)) = force_vars (if b then [] else force_counts (length ws) 0 (contacts pData))).
  { intros [|]; [split; reflexivity|]. apply fitems_counts; [exact HW|lia|]. apply Forall_forall. intros p Hp.
    destruct (In_nth_error _ _ Hp) as [i Hi]. destruct (Plw i p Hi) as ((_ & L & _) & _). exact L. }
  destruct (C (Z.eqb (representation pData) DOUBLE_DESCRIPTION)) as [C1 C2].
  set (items := if Z.eqb (representation pData) DOUBLE_DESCRIPTION then [] else fitems 0 lw (contacts pData)) in *.
  rewrite <- C1, <- C2. pose proof (strips_width items 0) as SW. cbn [Nat.add] in SW.
  repeat split.
  - apply strips_len.
  - apply rhss_len.
  - exact SW.
  - rewrite combine_length, strips_len, rhss_len. lia.
  - rewrite Forall_map. apply Forall_forall. intros r _. unfold padr. cbn [fst]. rewrite app_length, repeat_length. reflexivity.
  - rewrite Forall_forall in *. intros [a b] Hin. apply SW. eapply in_combine_l, Hin.
Qed.

Lemma c20_ok scaled pData Ts : well_posed pData Ts -> splittable Ts -> exists pi ws rows st fdim,
  computeConstantWaypoints pData (total Ts) = Ok pi /\ computeWwaypoints pData (total Ts) = Ok ws /\
  length rows = cont_rows_needed (Z.eqb (representation pData) DOUBLE_DESCRIPTION) (length pi) (length ws) (contacts pData) /\
  cont_raw scaled pData Ts = Ok (fdim, st) /\
  cs_rows st = (length rows, map (fun rb => (fst rb, Some (snd rb))) rows) /\
  exists out, computeConstraintsContinuous scaled pData Ts = Ok out /\
    co_A out = map (fun rb => (l3 (fst rb) ++ repeat 0 fdim, snd rb)) rows.
Proof.
  intros WP SP. destruct (cont_main scaled pData Ts WP SP) as (pi & ws & ddc & lc & la & lw & M). cbv zeta in M.
  destruct M as (Epi & Ews & _ & _ & HT & _ & _ & _ & Llw & _ & _ & Plw & Lr & (t' & cS & Eraw) & Eout).
  exists pi, ws. eexists. eexists. eexists. split; [exact Epi|]. split; [exact Ews|]. split; [exact Lr|].
  split; [exact Eraw|]. split; [reflexivity|]. eexists. split; [exact Eout|]. reflexivity.
Qed.

(** * The acceleration flag is ignored *)
Lemma with_acc_well pData Ts b : well_posed pData Ts -> well_posed (with_acc_flag pData b) Ts.
Proof. exact (fun H => H). Qed.
Lemma acc_flag pData b : flag_of (with_acc_flag pData b) = flag_of pData.
Proof. reflexivity. Qed.
Ltac flag_split := cbn [compConsWps compWps find_flag bind fst snd];
  repeat match goal with |- context [Z.eqb ?a ?f] => destruct (Z.eqb a f); cbn [bind]; [reflexivity|] end; reflexivity.
Lemma acc_ccw pData T b : computeConstantWaypoints (with_acc_flag pData b) T = computeConstantWaypoints pData T.
Proof. unfold computeConstantWaypoints. rewrite acc_flag. flag_split. Qed.
Lemma acc_ccs pData T b : computeConstantWaypointsSymbolic (with_acc_flag pData b) T = computeConstantWaypointsSymbolic pData T.
Proof. unfold computeConstantWaypointsSymbolic. rewrite ?acc_ccw, ?acc_flag. reflexivity. Qed.
Lemma acc_w pData T b : computeWwaypoints (with_acc_flag pData b) T = computeWwaypoints pData T.
Proof. unfold computeWwaypoints. rewrite acc_flag. flag_split. Qed.
Lemma with_acc_curve pData T x b : com_curve (with_acc_flag pData b) T x = com_curve pData T x.
Proof. unfold com_curve. rewrite acc_ccw, acc_flag. reflexivity. Qed.
Lemma acc_loop pData b useDD c ddc w : forall Ts cs s,
  cont_loop (with_acc_flag pData b) useDD c ddc w Ts cs s = cont_loop pData useDD c ddc w Ts cs s.
Proof.
  induction Ts as [|d Ts IH]; intros cs s; [reflexivity|]. cbn [cont_loop].
  destruct (ex_c c (cs_t s) (d + cs_t s)); [cbn [bind]|reflexivity|reflexivity].
  destruct (ex_c ddc (cs_t s) (d + cs_t s)); [cbn [bind]|reflexivity|reflexivity].
  destruct (ex_w w (cs_t s) (d + cs_t s)); [cbn [bind]|reflexivity|reflexivity].
  destruct cs as [|ph cs]; [reflexivity|]. destruct (cont_kin ph (nd_pts a) (cs_rows s)); [cbn [bind]|reflexivity|reflexivity].
  change (updateH (with_acc_flag pData b) ph) with (updateH pData ph).
  change (k_maxAcceleration (constr (with_acc_flag pData b))) with (k_maxAcceleration (constr pData)).
  match goal with |- (r <- ?m ;; _) = _ => destruct m as [[[st f] cS]| |]; [cbn [bind]|reflexivity|reflexivity] end.
  match goal with |- (r <- ?m ;; _) = _ => destruct m as [st'| |]; [cbn [bind]|reflexivity|reflexivity] end.
  apply IH.
Qed.
Lemma c47_cont scaled pData Ts b :
  computeConstraintsContinuous scaled (with_acc_flag pData b) Ts = computeConstraintsContinuous scaled pData Ts.
Proof.
  unfold computeConstraintsContinuous. f_equal. unfold cont_raw. rewrite acc_ccs, acc_w.
  repeat match goal with |- (r <- ?m ;; _) = (r' <- ?m' ;; _) => 
    change m with m'; destruct m' as [?| |]; [cbn [bind]|reflexivity|reflexivity] end.
  repeat match goal with |- (if ?b then _ else _) = _ => destruct b; [reflexivity|] end.
  rewrite acc_loop. reflexivity.
Qed.
Lemma c47_disc pData Ts p g : well_posed pData Ts -> (1 <= p)%nat -> same_gravity pData g -> In (flag_of pData) exact_w_flags ->
  exists rows1 rows0,
  computeConstraintsOneStep (with_acc_flag pData true) Ts (total Ts) (computeDiscretizedTimeFixed Ts p) = Ok rows1 /\
  computeConstraintsOneStep (with_acc_flag pData false) Ts (total Ts) (computeDiscretizedTimeFixed Ts p) = Ok rows0 /\
  forall x cv, com_curve pData (total Ts) x = Ok cv ->
    (sat rows0 x <-> forall i c t, nth_error (contacts pData) i = Some c -> sampled_fixed Ts p i t -> contact_ok pData 0 c (cv_fun cv) t) /\
    (sat rows1 x <-> sat rows0 x /\ forall i c t, nth_error (contacts pData) i = Some c -> sampled_fixed Ts p i t ->
       accel_within (k_maxAcceleration (constr pData)) (cv_fun cv) t).
Proof.
  intros WP Hp SG HF.
  destruct (c15_fixed (with_acc_flag pData true) Ts p g WP Hp SG HF) as (r1 & E1 & H1).
  destruct (c15_fixed (with_acc_flag pData false) Ts p g WP Hp SG HF) as (r0 & E0 & H0).
  exists r1, r0. split; [exact E1|]. split; [exact E0|]. intros x cv Hcv. 
  assert (C1 : com_curve (with_acc_flag pData true) (total Ts) x = Ok cv) by (rewrite with_acc_curve; exact Hcv).
  assert (C0 : com_curve (with_acc_flag pData false) (total Ts) x = Ok cv) by (rewrite with_acc_curve; exact Hcv).
  rewrite (H1 x cv C1), (H0 x cv C0). split.
  - split; intros H i c t Hc Ht.
    + apply (H i c t Hc Ht).
    + split; [apply (H i c t Hc Ht)|]. intros X. discriminate X.
  - split.
    + intros H. split; intros i c t Hc Ht; destruct (H i c t Hc Ht) as [A B].
      * split; [exact A|]. intros X. discriminate X.
      * exact (B eq_refl).
    + intros [A B] i c t Hc Ht. split; [apply (A i c t Hc Ht)|]. intros _. apply (B i c t Hc Ht).
Qed.
