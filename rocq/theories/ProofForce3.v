(** Force plans with the bundled QP solver (C73): wrenches near the cones. *)
From Coq Require Import Lia Lra Psatz.
From Verif Require Import Vec SpecBezier SpecTime ModelData ModelWaypoints ModelDispatch ModelUtils ModelRows ModelCom ModelNd ModelCont ModelSolver ModelTraj ModelQp
  SpecCom SpecWp SpecCtr SpecCont SpecSolver SpecTraj SpecEnd SpecEnd2 SpecEnd3 SpecForce ProofBezier ProofCurve ProofWaypoints ProofWaypoints2 ProofWaypointsErr ProofTime ProofTime2
  ProofRows ProofEmit ProofCom ProofCom2 ProofCom3 ProofNd ProofCont ProofCont2 ProofCont3 ProofCont4 ProofCont5 ProofCont6 ProofCont7 ProofCont8 ProofCont9
  ProofSolver ProofTraj ProofTraj2 ProofQp14 ProofEnd ProofEnd2 ProofEnd3 ProofEnd5 ProofEnd6 ProofForce ProofForce2.
Import ListNotations.
Open Scope R_scope.

(** * Near a cone *)
Lemma norm6_scal k a : norm6 (v6_scal k a) = Rabs k * norm6 a.
Proof.
  unfold norm6. replace (dot6 (v6_scal k a) (v6_scal k a)) with (k * k * dot6 a a) by (unfold dot6, v6_scal, vscal, vdot; cbn; ring).
  rewrite sqrt_mult by (try apply dot6_nonneg; pose proof (Rle_0_sqr k) as Q; exact Q). rewrite <- sqrt_Rsqr_abs. reflexivity.
Qed.
Lemma norm6_add a b : norm6 (v6add a b) <= norm6 a + norm6 b.
Proof.
  pose proof (norm6_triang a (v6_scal (-1) b)) as H. rewrite norm6_scal in H. replace (Rabs (-1)) with 1 in H by (rewrite Rabs_left; lra).
  replace (v6sub a (v6_scal (-1) b)) with (v6add a b) in H by (unfold v6sub, v6add, v6_scal; cbn; f_equal; apply v3_eq; cbn; ring). lra.
Qed.
Lemma near_le e e' G w : e <= e' -> near_cone e G w -> near_cone e' G w.
Proof. intros H (v & Hv & N). exists v. split; [exact Hv|lra]. Qed.
Lemma near_add e e' G a b : near_cone e G a -> near_cone e' G b -> near_cone (e + e') G (v6add a b).
Proof.
  intros (v & Hv & N) (v' & Hv' & N'). exists (v6add v v'). split; [apply cone_add; assumption|].
  replace (v6sub (v6add v v') (v6add a b)) with (v6add (v6sub v a) (v6sub v' b)) by (unfold v6sub, v6add; cbn; f_equal; apply v3_eq; cbn; ring).
  eapply Rle_trans; [apply norm6_add|]. lra.
Qed.
Lemma near_scal e G k a : 0 <= k -> near_cone e G a -> near_cone (k * e) G (v6_scal k a).
Proof.
  intros Hk (v & Hv & N). exists (v6_scal k v). split; [apply cone_scal; assumption|].
  replace (v6sub (v6_scal k v) (v6_scal k a)) with (v6_scal k (v6sub v a)) by (unfold v6sub, v6_scal; cbn; f_equal; apply v3_eq; cbn; ring).
  rewrite norm6_scal, Rabs_right by lra. apply Rmult_le_compat_l; assumption.
Qed.
Lemma bezf6_near e G s : 0 <= s <= 1 -> forall n f, (forall i, (i <= n)%nat -> near_cone e G (f i)) -> near_cone e G (bezf6 n f s).
Proof.
  intros Hs. induction n as [|n IH]; intros f Hf.
  - unfold bezf6. rewrite !bez_0. specialize (Hf 0%nat (le_n 0)).
    destruct (f 0%nat) as [[? ? ?] [? ? ?]]; cbn in *. exact Hf.
  - replace (bezf6 (S n) f s) with (v6add (v6_scal (1 - s) (bezf6 n f s)) (v6_scal s (bezf6 n (fun i => f (S i)) s))).
    + apply (near_le ((1 - s) * e + s * e)); [lra|]. apply near_add; apply near_scal; try lra; apply IH; intros i Hi; apply Hf; lia.
    + unfold bezf6. rewrite !bez_S. unfold v6add, v6_scal; cbn. f_equal; apply v3_eq; cbn; ring.
Qed.
Lemma near_curve6 e G P T t : P <> [] -> 0 <= t / T <= 1 -> (forall q, In q P -> near_cone e G q) -> near_cone e G (curve6 P T t).
Proof.
  intros HP Ht Hq. rewrite curve6_bezf6 by exact HP. apply bezf6_near; [exact Ht|]. intros i Hi. apply Hq, nth_In.
  destruct P; [congruence|cbn in *; lia].
Qed.
Lemma gen_len_nonneg G : 0 <= gen_len G.
Proof. unfold gen_len, sum_list. induction G as [|g G IH]; cbn; [lra|]. pose proof (norm6_ge g). lra. Qed.
Lemma near_comb tau : 0 <= tau -> forall G b, length b = length G -> Forall (Rle (- tau)) b -> near_cone (tau * gen_len G) G (comb G b).
Proof.
  intros Ht G b Lb Hb. exists (comb G (map (Rplus tau) b)). split.
  - exists (map (Rplus tau) b). split; [rewrite map_length; exact Lb|]. split; [|reflexivity]. rewrite Forall_map. eapply Forall_impl; [|exact Hb]. intros; cbv beta in *; lra.
  - clear Hb. revert b Lb. induction G as [|g G IH]; intros [|x b] Lb; try discriminate.
    + cbn. unfold gen_len; cbn. replace (norm6 _) with 0; [lra|]. unfold norm6. replace (dot6 _ _) with 0 by (unfold dot6, v6sub, vdot; cbn; ring). rewrite sqrt_0. reflexivity.
    + cbn [map comb]. specialize (IH b ltac:(cbn in Lb; lia)). unfold gen_len, sum_list in *. cbn [map fold_right].
      set (A := comb G (map (Rplus tau) b)) in *. set (B := comb G b) in *.
      replace (v6sub _ _) with (v6add (v6_scal tau g) (v6sub A B)) by (unfold v6sub, v6add, v6_scal; cbn; f_equal; apply v3_eq; cbn; ring).
      eapply Rle_trans; [apply norm6_add|]. rewrite norm6_scal, Rabs_right by lra. lra.
Qed.
Lemma strips_near tau x : 0 <= tau -> forall items o b0 b, length b0 = o -> length b = sumcols items -> Forall (Rle (- tau)) b ->
  eqX (combine (strips o items) (rhss items)) (l3 x ++ b0 ++ b) ->
  Forall (fun it => near_cone (tau * gen_len (cp_G (snd it))) (cp_G (snd it)) (item_w it x)) items.
Proof.
  intros Ht. induction items as [|[w ph] items IH]; intros o b0 b H0 Hl Hp HE; [constructor|].
  cbn [strips rhss flat_map] in HE. rewrite combine_app in HE by reflexivity. unfold eqX in HE. apply Forall_app in HE. destruct HE as [E1 E2].
  change (sumcols ((w, ph) :: items)) with (length (cp_G ph) + sumcols items)%nat in Hl.
  assert (La : length (firstn (length (cp_G ph)) b) = length (cp_G ph)) by (rewrite firstn_length; lia).
  rewrite <- (firstn_skipn (length (cp_G ph)) b) in Hl, Hp, E1, E2.
  set (ba := firstn _ b) in *. set (bb := skipn _ b) in *.
  rewrite app_length in Hl. apply Forall_app in Hp. destruct Hp as [Pa Pb]. constructor.
  - cbn [snd]. apply (strip_eq o (sumcols items) w ph x b0 ba bb H0 La) in E1. rewrite <- E1. apply near_comb; assumption.
  - apply (IH (o + length (cp_G ph))%nat (b0 ++ ba) bb); [rewrite app_length; lia|lia|exact Pb|]. rewrite <- app_assoc. exact E2.
Qed.

(** * The rows *)
Lemma strips_light F lam B s : 0 < B -> 0 < lam -> forall items o, (o + sumcols items <= F)%nat ->
  Forall (fun it => opb6 B (fst it) /\ 0 < cp_mass (snd it) /\ exists Gam, singular_values s Gam (cp_G (snd it)) /\
    eps52 * (cp_mass (snd it) * B * (cp_mass (snd it) * B) / lam + Gam * Gam / force_weight) < force_weight) items ->
  (o + sumcols items = F)%nat -> Forall (light F lam) (strips o items).
Proof.
  intros HB Hl. induction items as [|[w ph] items IH]; intros o _ HF EF; [constructor|]. cbn [strips].
  inversion HF as [|? ? (H1 & Hm & Gam & HS & HG) HF']; subst. cbn [fst snd] in *. apply Forall_app.
  change (sumcols ((w, ph) :: items)) with (length (cp_G ph) + sumcols items)%nat in *. split.
  - apply Forall_forall. intros l Hin. destruct (strip_row _ _ _ _ _ Hin) as (r & Hr & ->).
    eexists _, _. split; [reflexivity|]. split; [rewrite !app_length, !repeat_length, map_length; lia|]. rewrite rdot_block.
    eapply Rle_lt_trans; [|exact HG]. pose proof ProofQp3.eps_pos. apply Rmult_le_compat_l; [lra|]. apply Rplus_le_compat.
    + apply Rmult_le_compat_r; [apply Rlt_le, Rinv_0_lt_compat, Hl|]. apply vnorm2_sq; [apply Rmult_le_pos; lra|].
      rewrite vnorm_scal, Rabs_right by lra. apply Rmult_le_compat_l; [lra|]. apply w_row_norm; [lra|exact H1].
    + apply Rmult_le_compat_r; [apply Rlt_le, Rinv_0_lt_compat; unfold force_weight; lra|]. rewrite (rdot_gen_sq (cp_G ph) r Hr).
      destruct (HS (unit6 r)) as [_ U]. rewrite (unit6_norm r Hr) in U. lra.
  - apply IH; [lia|exact HF'|lia].
Qed.

Section FP.
  Variables (scaled : bool) (pData : problem) (Ts : list R).
  Hypothesis WP : well_posed pData Ts.
  Hypothesis NDD : representation pData <> DOUBLE_DESCRIPTION.
  Variables (g : vec3) (lam B kap s : R) (ws : list wp6).
  Hypothesis SG : same_gravity pData g.
  Hypothesis SP : splittable Ts.
  Hypothesis OS : force_scale pData lam B kap s.
  Hypothesis HA : acc_ctrl_rate scaled Ts <= B.
  Hypothesis Ews : computeWwaypoints pData (total Ts) = Ok ws.
  Hypothesis Fw : Forall (opb6 B) ws.

  Lemma force_built : exists pi rows lw, let items := fitems 0 lw (contacts pData) in
    let F := force_vars (force_counts (length ws) 0 (contacts pData)) in
    computeConstantWaypoints pData (total Ts) = Ok pi /\ 0 < total Ts /\ (2 <= length ws)%nat /\ length lw = length Ts /\
    (forall i p, nth_error lw i = Some p -> is_piece w6_add w6_scal (NDC ws 0 (total Ts) 1) (phase_start Ts i) (phase_end Ts i) p) /\
    sumcols items = F /\
    computeConstraintsContinuous scaled pData Ts =
      Ok (CO (map (padr F) rows) (combine (strips 0 items) (rhss items)) (repeat UNBOUNDED_DOWN 3 ++ repeat 0 F) (3 + F)) /\
    length rows = cont_rows_needed false (length pi) (length ws) (contacts pData) /\
    (forall r, In r rows -> eps52 * vnorm2 (fst r) < lam * force_weight) /\
    Forall (light F lam) (strips 0 items) /\
    Forall (fun it => forall u, s * s * dot6 u u <= gen_sq (cp_G (snd it)) u) items /\
    forall tau x cv, com_curve pData (total Ts) x = Ok cv -> no_zero_point cv x -> near tau rows x ->
      forall i c t, nth_error (contacts pData) i = Some c -> in_phase Ts i t ->
        kin_near tau c (cv_fun cv t) /\ accel_within (acc_bound_near scaled pData Ts tau) (cv_fun cv) t.
  Proof.
    destruct (cont_main scaled pData Ts WP SP) as (pi & ws' & ddc & lc & la & lw & M). cbv zeta in M.
    destruct M as (Epi & Ews' & Lpi & Lws & HT & Edd & Llc & Lla & Llw & Plc & Pla & Plw & Lrows & _ & Eout).
    rewrite Ews in Ews'. injection Ews' as <-. pose proof (noDD pData NDD) as Hdd.
    unfold items_of in Eout. rewrite Hdd in Eout, Lrows.
    set (rows := crows pData false lc la lw (contacts pData)) in *. set (items := fitems 0 lw (contacts pData)) in *.
    pose proof WP as (Hfc & _ & _ & _ & HLc & HW). pose proof OS as (HB & HK & Hl & HBl & HKl & Hs & HKin & HG). pose proof ProofQp3.eps_pos as EP.
    assert (KP : 0 < force_weight) by (unfold force_weight; lra).
    assert (Len : Forall (fun p => length (nd_pts p) = length ws) lw).
    { apply Forall_forall. intros p Hp. apply In_nth_error in Hp. destruct Hp as [i Hp]. destruct (Plw i p Hp) as ((_ & L & _) & _). exact L. }
    assert (EF : sumcols items = force_vars (force_counts (length ws) 0 (contacts pData))) by (apply fitems_counts; [exact HW|lia|exact Len]).
    exists pi, rows, lw. cbv zeta. fold items. rewrite <- EF.
    split; [exact Epi|]. split; [exact HT|]. split; [exact Lws|]. split; [exact Llw|]. split; [exact Plw|]. split; [reflexivity|]. split; [exact Eout|]. split; [exact Lrows|].
    assert (Hne : ws <> []) by (intros ->; cbn in Lws; lia).
    assert (Oc : nd_ok aff (NDC (map sym_aff pi) 0 (total Ts) 1)).
    { split; [|cbn; lra]. cbn. destruct pi; [cbn in Lpi; lia|discriminate]. }
    assert (Ow : nd_ok wp6 (NDC ws 0 (total Ts) 1)) by (split; [exact Hne|cbn; lra]).
    pose proof (pi_le _ _ _ Hfc Epi) as L7.
    assert (Fc : Forall (opb 1) (map sym_aff pi)) by (rewrite Forall_map; apply Forall_forall; intros p _; apply sym_opb).
    destruct (derivate2_ok scaled (NDC (map sym_aff pi) 0 (total Ts) 1)) as (ddc' & E & Od & _);
      [cbn; rewrite map_length; lia|cbn; lra|]. rewrite Edd in E. injection E as <-.
    assert (Fa : Forall (opb B) (nd_pts ddc)).
    { pose proof (derivate2_opb scaled (NDC (map sym_aff pi) 0 (total Ts) 1) ddc ltac:(cbn [nd_pts]; rewrite map_length; lia) ltac:(cbn; lra) Fc Edd) as F.
      cbn [nd_min nd_max] in F. rewrite Rminus_0_r in F. eapply Forall_impl; [|exact F]. intros p Hp d. eapply Rle_trans; [apply Hp|].
      apply Rmult_le_compat_r; [apply vnorm_ge|exact HA]. }
    assert (Pc : forall i p q, nth_error lc i = Some p -> In q (nd_pts p) -> opb 1 q).
    { intros i p q Hp. destruct (Plc i p Hp) as (P & _). pose proof (piece_opb 1 p _ ltac:(lra) Oc P Fc) as F. rewrite Forall_forall in F. apply F. }
    assert (Pa : forall i p q, nth_error la i = Some p -> In q (nd_pts p) -> opb B q).
    { intros i p q Hp. destruct (Pla i p Hp) as (P & _). pose proof (piece_opb B p _ ltac:(lra) Od P Fa) as F. rewrite Forall_forall in F. apply F. }
    assert (Pw : forall i p q, nth_error lw i = Some p -> In q (nd_pts p) -> opb6 B q).
    { intros i p q Hp. destruct (Plw i p Hp) as (P & _). pose proof (piece_opb6 B p _ ltac:(lra) Ow P Fw) as F. rewrite Forall_forall in F. apply F. }
    assert (Kr : forall c q, In c (contacts pData) -> kin_rows (kin_row_aff q) (cd_Kin c) (cd_kin c) = Ok (krows_aff c q)).
    { intros c q Hc. apply krows_aff_ok. destruct (wf_in pData Ts WP c Hc) as (? & _ & _ & _ & H). exact H. }
    assert (FI : Forall (fun it => opb6 B (fst it) /\ 0 < cp_mass (snd it) /\ exists Gam, singular_values s Gam (cp_G (snd it)) /\
      eps52 * (cp_mass (snd it) * B * (cp_mass (snd it) * B) / lam + Gam * Gam / force_weight) < force_weight) items).
    { unfold items. apply fitems_in; [lia|]. intros i c pw j w Hc Hp Hj _ _. cbn [fst snd].
      destruct (php_some c (wf_nth pData Ts WP i c Hc)) as [Ep Hm]. split; [apply (Pw i pw w Hp); eapply nth_error_In; eauto|]. split; [exact Hm|].
      apply (HG c (php c)); [eapply nth_error_In; eauto|exact Ep]. }
    split; [|split; [|split]].
    - assert (S : forall b (r : vec3 * R), 0 <= b -> eps52 * (b * b) < lam * force_weight -> vnorm (fst r) <= b -> eps52 * vnorm2 (fst r) < lam * force_weight).
      { intros b r0 Hb Hbl H. pose proof (vnorm2_sq (fst r0) b Hb H). eapply Rle_lt_trans; [|exact Hbl]. apply Rmult_le_compat_l; lra. }
      assert (FR : Forall (fun r => eps52 * vnorm2 (fst r) < lam * force_weight) rows); [|rewrite Forall_forall in FR; exact FR].
      apply crows_Forall; [lia|lia|lia|]. intros i c pc pa pw Hc E1 E2 E3. assert (Hin : In c (contacts pData)) by (eapply nth_error_In; eauto).
      unfold phase_rows. cbn [app]. rewrite Forall_app, !Forall_flat_map, !Forall_forall. split.
      + intros q Hq. apply Forall_forall. intros r Hr. apply (S kap); [lra|exact HKl|].
        exact (kaff_short q kap (Pc i pc q E1 Hq) HK _ _ _ (Kr c q Hin) (fun K HI => HKin c K Hin HI) r Hr).
      + intros q Hq. apply Forall_forall. intros r Hr. apply (S B); [lra|exact HBl|]. exact (aaff_short B q _ r ltac:(lra) (Pa i pa q E2 Hq) Hr).
    - apply (strips_light _ lam B s); [lra|lra|lia|exact FI|lia].
    - eapply Forall_impl; [|exact FI]. intros it (_ & _ & Gam & HS & _) u. apply HS.
    - intros tau x cv Hcv Hnz HN i c t Hc Hti. unfold near, rows in HN. rewrite crows_Forall in HN by lia.
      destruct (com_curve_inv _ _ _ _ Hfc Hcv) as (pi' & pts & Hs' & Epi' & _ & -> & _). rewrite Epi in Epi'. injection Epi' as <-.
      apply com_shape_pts in Hs'. pose proof (proj2 (sym_pts x pi pts Hs') Hnz) as Hpts. destruct Hti as [Hi Hti].
      assert (Hin : In c (contacts pData)) by (eapply nth_error_In; eauto).
      destruct (nth_error lc i) as [pc|] eqn:E1; [|apply nth_error_None in E1; lia].
      destruct (nth_error la i) as [pa|] eqn:E2; [|apply nth_error_None in E2; lia].
      destruct (nth_error lw i) as [pw|] eqn:E3; [|apply nth_error_None in E3; lia].
      specialize (HN i c pc pa pw Hc E1 E2 E3). unfold phase_rows in HN. cbn [app] in HN. rewrite Forall_app, !Forall_flat_map, !Forall_forall in HN. destruct HN as (S1 & S3).
      split.
      + intros j K k HKj Hkj. pose proof (hull _ _ _ _ _ _ (fun p => vdot K (ev_aff p x)) (k + tau) t (Plc i pc E1) (lin_aff K x) Hti) as H.
        unfold nd_val in H. cbn [nd_pts nd_min nd_max] in H. rewrite (T_fac _ _ HT), map_map in H.
        unfold cv_fun, curve; cbn [bc_pts bc_T]. rewrite vdot_bez3, <- Hpts, map_map. apply H. intros q Hq.
        exact (kaff_near q x tau _ _ _ (Kr c q Hin) (S1 q Hq) j K k HKj Hkj).
      + unfold acc_bound_near. apply (acc_piece scaled pi (BCurve pts (total Ts)) x (total Ts) ddc pa _ _ t _ HT ltac:(lia) eq_refl Hpts Edd (Pla i pa E2) Hti).
        intros q Hq. apply aaff_near. exact (S3 q Hq).
  Qed.
End FP.

(** * The wrench of the plan *)
Section Wrench.
  Variables (pData : problem) (Ts : list R).
  Hypothesis WP : well_posed pData Ts.
  Variables (ws : list wp6) (lw : list (ndc wp6)).
  Hypothesis HT : 0 < total Ts.
  Hypothesis Lws : (2 <= length ws)%nat.
  Hypothesis Llw : length lw = length Ts.
  Hypothesis Plw : forall i p, nth_error lw i = Some p -> is_piece w6_add w6_scal (NDC ws 0 (total Ts) 1) (phase_start Ts i) (phase_end Ts i) p.

  Lemma items_all (Q : contact -> v6 -> Prop) x :
    (forall c, In c (contacts pData) -> Forall (fun it => snd it = php c -> Q c (item_w it x)) (fitems 0 lw (contacts pData))) ->
    forall i c pw j w, nth_error (contacts pData) i = Some c -> nth_error lw i = Some pw -> nth_error (nd_pts pw) j = Some w ->
      (j = 0%nat -> ~ left_to_prev (contacts pData) i) -> (S j = length ws -> ~ left_to_next (contacts pData) i) ->
      Q c (item_w (w, php c) x).
  Proof.
    intros H i c pw j w Hc Hp Hj A B'. pose proof WP as (_ & _ & _ & _ & HLc & _).
    specialize (H c (nth_error_In _ _ Hc)). rewrite fitems_in in H by lia.
    destruct (Plw i pw Hp) as ((_ & L & _) & _). cbn [nd_pts] in L.
    apply (H i c pw j w Hc Hp Hj); [| |reflexivity].
    - intros C D. subst j. apply (A eq_refl). apply (prev_lt_left pData Ts WP i c Hc), C.
    - intros C D. rewrite L in D. apply (B' D). apply (next_le_left pData Ts WP i c Hc), C.
  Qed.

  Lemma near_at g x cv c i p t acc e : nth_error (contacts pData) i = Some c ->
    same_gravity pData g -> In (flag_of pData) exact_w_flags ->
    com_curve pData (total Ts) x = Ok cv -> computeWwaypoints pData (total Ts) = Ok ws ->
    nth_error lw i = Some p -> in_phase Ts i t ->
    (forall w, In w (nd_pts p) -> near_cone e (gens c) (item_w (w, php c) x)) ->
    is_deriv_n 2 (cv_fun cv) t acc ->
    near_cone e (gens c) (giw (cp_mass (php c)) (cp_gravity (php c)) (cv_fun cv t) acc).
  Proof.
    intros Hc SG HF Hcv Ews Ep [Hi Ht] Hq Hacc. destruct (Plw i p Ep) as (HP & Ha & Hb & _).
    rewrite (giw_ctrl pData Ts WP g ws x cv c p t acc HT (wf_nth pData Ts WP i c Hc) SG (nth_error_In _ _ Hc) HF Hcv Ews HP Hacc).
    pose proof HP as (HP0 & _). pose proof HP as ((Hn & Hmm) & _). apply near_curve6.
    - destruct (nd_pts p); [congruence|discriminate].
    - apply u_range; [exact HP0|lra].
    - intros q Hin. apply in_map_iff in Hin. destruct Hin as (w & <- & Hw). apply Hq, Hw.
  Qed.

  Lemma near_nested g x e : long_phases Ts -> same_gravity pData g -> 0 <= e -> cones_nested (contacts pData) ->
    (forall i c pw j w, nth_error (contacts pData) i = Some c -> nth_error lw i = Some pw -> nth_error (nd_pts pw) j = Some w ->
        (j = 0%nat -> ~ left_to_prev (contacts pData) i) -> (S j = length ws -> ~ left_to_next (contacts pData) i) ->
        near_cone (e * cp_mass (php c)) (gens c) (item_w (w, php c) x)) ->
    forall i c pw w, nth_error (contacts pData) i = Some c -> nth_error lw i = Some pw -> In w (nd_pts pw) ->
      near_cone (e * cp_mass (php c)) (gens c) (item_w (w, php c) x).
  Proof.
    intros HL SG He CN H.
    assert (Len : forall i pw, nth_error lw i = Some pw -> length (nd_pts pw) = length ws).
    { intros i pw E. destruct (Plw i pw E) as ((_ & L & _) & _). exact L. }
    pose proof WP as (_ & _ & _ & _ & HLc & _).
    (* shared control point: same wrench up to the masses *)
    assert (Shared : forall i c c' p p' w w', nth_error (contacts pData) i = Some c -> nth_error (contacts pData) (S i) = Some c' ->
      nth_error lw i = Some p -> nth_error lw (S i) = Some p' ->
      nth_error (nd_pts p) (length ws - 1) = Some w -> nth_error (nd_pts p') 0 = Some w' ->
      item_w (w, php c) x = v6_scal (cp_mass (php c) / cp_mass (php c')) (item_w (w', php c') x)).
    { intros i c c' p p' w w' Hc Hc' Hp Hp' Hw Hw'.
      assert (Hi : (S i < length Ts)%nat) by (rewrite <- HLc; apply nth_error_Some; congruence).
      destruct (exact_piece _ _ (NDC ws 0 (total Ts) 1) Ts i p HL ltac:(lia) eq_refl eq_refl (Plw i p Hp)) as (P1 & P2 & P3).
      destruct (exact_piece _ _ (NDC ws 0 (total Ts) 1) Ts (S i) p' HL ltac:(lia) eq_refl eq_refl (Plw (S i) p' Hp')) as (Q1 & Q2 & Q3).
      pose proof (php_some c (wf_nth pData Ts WP _ _ Hc)) as [Ec Mc]. pose proof (php_some c' (wf_nth pData Ts WP _ _ Hc')) as [Ec' Mc'].
      pose proof (SG c _ (nth_error_In _ _ Hc) Ec) as G1. pose proof (SG c' _ (nth_error_In _ _ Hc') Ec') as G2.
      assert (EV : ev_w6 w x = ev_w6 w' x).
      { pose proof (piece_w6 ws (total Ts) p x (phase_end Ts i) HT P1) as V1.
        pose proof (piece_w6 ws (total Ts) p' x (phase_end Ts i) HT Q1) as V2. rewrite <- V2 in V1. clear V2.
        apply v6_ext. intros u. apply (f_equal (dot6 u)) in V1. rewrite !dot6_curve6, !map_map in V1.
        pose proof P1 as ((Hn & Hm) & _). pose proof Q1 as ((Hn' & Hm') & _).
        replace ((phase_end Ts i - nd_min p) / (nd_max p - nd_min p)) with 1 in V1 by (rewrite P3; field; lra).
        replace ((phase_end Ts i - nd_min p') / (nd_max p' - nd_min p')) with 0 in V1 by (rewrite Q2, phase_end_start; field; lra).
        rewrite bezl_at_1, bezl_at_0 in V1.
        assert (L1 : last (map (fun q => dot6 u (ev_w6 q x)) (nd_pts p)) 0 = dot6 u (ev_w6 w x)).
        { clear - Hw Len Hp Lws. specialize (Len i p Hp). rewrite <- Len in Hw. revert Hw.
          induction (nd_pts p) as [|a l IH] using rev_ind; [cbn; discriminate|].
          rewrite app_length, map_app. cbn [length map]. rewrite last_last.
          replace (length l + 1 - 1)%nat with (length l) by lia. rewrite nth_error_app2, Nat.sub_diag by lia. cbn. congruence. }
        rewrite L1 in V1. destruct (nd_pts p') as [|q' l']; [discriminate|]. cbn in Hw', V1. injection Hw' as ->. exact V1. }
      unfold item_w; cbn [fst snd]. rewrite EV, G1, G2. unfold v6_scal, v6sub; cbn [fst snd].
      f_equal; apply v3_eq; unfold vscal, vsub; cbn; field; lra. }
    assert (Pos : forall i c, nth_error (contacts pData) i = Some c -> 0 < cp_mass (php c)).
    { intros i c Hc. apply (php_some c (wf_nth pData Ts WP _ _ Hc)). }
    intros i c pw w Hc Hp Hw. destruct (In_nth_error _ _ Hw) as [j Hj].
    assert (Hi : (i < length Ts)%nat) by (rewrite <- HLc; apply nth_error_Some; congruence).
    assert (Hjl : (j < length ws)%nat) by (rewrite <- (Len i pw Hp); apply nth_error_Some; congruence).
    (* first control point, when left to the previous phase *)
    destruct (Nat.eq_dec j 0) as [->|Nj].
    - assert (Dec : left_to_prev (contacts pData) i \/ ~ left_to_prev (contacts pData) i).
      { rewrite <- (prev_lt_left pData Ts WP i c Hc). destruct (prev_lt (prev_count 0 (contacts pData) i) c); auto. }
      destruct Dec as [(i0 & c0 & c1 & -> & E0 & E1 & Hlt)|NP]; [|apply (H i c pw 0%nat w Hc Hp Hj); [auto|intros; lia]].
      rewrite Hc in E1. injection E1 as <-.
      destruct (nth_error lw i0) as [p0|] eqn:Ep0; [|apply nth_error_None in Ep0; lia].
      destruct (nth_error (nd_pts p0) (length ws - 1)) as [w0|] eqn:Ew0; [|apply nth_error_None in Ew0; rewrite (Len i0 p0 Ep0) in Ew0; lia].
      pose proof (Shared i0 c0 c p0 pw w0 w E0 Hc Ep0 Hp Ew0 Hj) as ES.
      destruct (CN i0 c0 c E0 Hc) as [_ CI].
      assert (In0 : near_cone (e * cp_mass (php c0)) (gens c0) (item_w (w0, php c0) x)).
      { apply (H i0 c0 p0 (length ws - 1)%nat w0 E0 Ep0 Ew0); [intros; lia|]. intros _ (a & b & Ha & Hb & Hab).
        rewrite E0 in Ha. rewrite Hc in Hb. injection Ha as <-. injection Hb as <-. lia. }
      pose proof (Pos _ _ E0). pose proof (Pos _ _ Hc).
      replace (item_w (w, php c) x) with (v6_scal (cp_mass (php c) / cp_mass (php c0)) (item_w (w0, php c0) x)).
      + replace (e * cp_mass (php c)) with (cp_mass (php c) / cp_mass (php c0) * (e * cp_mass (php c0))) by (field; lra).
        apply near_scal; [apply Rlt_le, Rdiv_lt_0_compat; assumption|]. destruct In0 as (v & Hv & N). exists v. split; [apply CI; [exact Hlt|exact Hv]|exact N].
      + rewrite ES. unfold v6_scal; cbn [fst snd]. destruct (item_w (w, php c) x) as [a b]. cbn. f_equal; apply v3_eq; unfold vscal; cbn; field; lra.
    - destruct (Nat.eq_dec (S j) (length ws)) as [Ej|Nej]; [|apply (H i c pw j w Hc Hp Hj); intros; lia].
      assert (Dec : left_to_next (contacts pData) i \/ ~ left_to_next (contacts pData) i).
      { rewrite <- (next_le_left pData Ts WP i c Hc). destruct (match nth_error (contacts pData) (S i) with Some c' => Nat.leb (ncols c') (ncols c) | None => false end); auto. }
      destruct Dec as [(c0 & c1 & E0 & E1 & Hle)|NN]; [|apply (H i c pw j w Hc Hp Hj); [intros; lia|auto]].
      rewrite Hc in E0. injection E0 as <-.
      assert (Hi1 : (S i < length Ts)%nat) by (rewrite <- HLc; apply nth_error_Some; congruence).
      destruct (nth_error lw (S i)) as [p1|] eqn:Ep1; [|apply nth_error_None in Ep1; lia].
      destruct (nth_error (nd_pts p1) 0) as [w1|] eqn:Ew1; [|apply nth_error_None in Ew1; rewrite (Len (S i) p1 Ep1) in Ew1; lia].
      replace j with (length ws - 1)%nat in Hj by lia.
      pose proof (Shared i c c1 pw p1 w w1 Hc E1 Hp Ep1 Hj Ew1) as ES. rewrite ES.
      pose proof (Pos _ _ E1). pose proof (Pos _ _ Hc).
      replace (e * cp_mass (php c)) with (cp_mass (php c) / cp_mass (php c1) * (e * cp_mass (php c1))) by (field; lra).
      apply near_scal; [apply Rlt_le, Rdiv_lt_0_compat; assumption|].
      destruct (CN i c c1 Hc E1) as [CI _].
      assert (In1 : near_cone (e * cp_mass (php c1)) (gens c1) (item_w (w1, php c1) x)); [|destruct In1 as (v & Hv & N); exists v; split; [apply CI; [exact Hle|exact Hv]|exact N]].
      apply (H (S i) c1 p1 0%nat w1 E1 Ep1 Ew1); [|intros; lia].
      intros _ (j0 & a & b & Hj0 & Ha & Hb & Hab). injection Hj0 as <-. rewrite Hc in Ha. rewrite E1 in Hb. injection Ha as <-. injection Hb as <-. lia.
  Qed.
End Wrench.
