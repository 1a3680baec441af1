(** Meaning of the discretised constraints (continued). *)
From Verif Require Import Vec SpecBezier SpecTime ModelData ModelDispatch ModelUtils ModelRows ModelCom
  SpecCom SpecCtr ProofBezier ProofCurve ProofWaypoints ProofWaypoints2 ProofWaypointsErr
  ProofTime ProofTime2 ProofRows ProofEmit ProofCom.
Open Scope R_scope.

(** The inequality the code writes for contact [c] at time [t]. *)
Definition enf (pData : problem) (ws : list wp6) (T : R) (g : vec3) (c : contact) (t : R) (x : vec3) : Prop :=
  Forall (fun Hh => dot6 (fst Hh) (v6_scal (cp_mass (php c)) (v6sub (g, vzero) (curve6 (map (fun w => ev_w6 w x) ws) T t)))
                    <= cp_mass (php c) * norm6 (fst Hh) * (snd Hh - margin pData)) (cp_poly (php c)).

Lemma ws_ex pData T g : In (flag_of pData) com_flags -> (flag_of pData = F_capture -> dc1 pData = vzero) -> 0 < T ->
  front_gravity pData = Ok g -> exists ws, computeWwaypoints pData T = Ok ws.
Proof.
  intros Hf Hc HT Hg. destruct (com_curve_total pData T vzero Hf Hc HT) as [cv Hcv].
  assert (Hd : In (flag_of pData) exact_w_flags \/ In (flag_of pData) dec_w_flags) by (simpl in *; tauto).
  destruct Hd as [Hd|Hd].
  - destruct (c05_ok _ _ _ _ _ Hd Hcv Hg) as (ws & Hw & _). eauto.
  - assert (HM : exists M, Forall (within M) (bc_pts cv)).
    { generalize (bc_pts cv). clear. intros l. induction l as [|v l [M IH]]; [exists 0; constructor|].
      exists (Rmax M (Rabs (vx v) + Rabs (vy v) + Rabs (vz v))). constructor.
      - pose proof (Rabs_pos (vx v)). pose proof (Rabs_pos (vy v)). pose proof (Rabs_pos (vz v)).
        apply (within_weaken (Rabs (vx v) + Rabs (vy v) + Rabs (vz v))); [apply Rmax_r|]. unfold within; lra.
      - eapply Forall_impl; [|exact IH]. intros a. apply within_weaken, Rmax_l. }
    destruct HM as [M HM].
    destruct (c06_ok _ _ _ _ g M (Rabs (vx g) + Rabs (vy g) + Rabs (vz g)) Hd Hcv Hg HM) as (ws & Hw & _); [|eauto].
    pose proof (Rabs_pos (vx g)). pose proof (Rabs_pos (vy g)). pose proof (Rabs_pos (vz g)). unfold within; lra.
Qed.

Section Meaning.
  Variable pData : problem.
  Variable Ts : list R.
  Variable bs : list (list R).
  Hypothesis WP : well_posed pData Ts.
  Let T := total Ts.
  Hypothesis HLbs : length bs = length Ts.
  Hypothesis HNe : Forall (fun b => b <> []) bs.
  Hypothesis HTm : forall b t, In b bs -> In t b -> 0 <= t <= T.

  Lemma front_ok : exists g0, front_gravity pData = Ok g0.
  Proof.
    destruct WP as (_ & _ & Hne & _ & HL & HF). unfold front_gravity.
    destruct (contacts pData) as [|c l]; [destruct Ts; [congruence|discriminate]|].
    cbn. inversion HF as [|? ? (ph & E & _) _]; subst. rewrite E. eexists; reflexivity.
  Qed.

  Lemma enf_srows ws g c t x : In c (contacts pData) -> 0 <= t <= T ->
    (sat (srows g (mh pData c) (wf_t Ts ws t)) x <-> enf pData ws T g c t x).
  Proof.
    intros Hin Ht. rewrite srows_sat. pose proof (wf_in pData Ts WP c Hin) as Hwf.
    unfold mh. rewrite (updateH_ok pData c Hwf). cbn [okd]. rewrite Forall_map.
    rewrite (wf_t_ev pData Ts WP ws t x Ht).
    destruct Hwf as (ph & Eph & Hm & Hrows & _).
    assert (Ep : php c = ph) by (unfold php; rewrite Eph; reflexivity).
    unfold enf. rewrite Ep. rewrite !Forall_forall. rewrite Forall_forall in Hrows.
    split; intros H Hh Hi; apply urow_ok; auto.
  Qed.

  Lemma meaning g0 ws : front_gravity pData = Ok g0 -> computeWwaypoints pData T = Ok ws -> exists n rows,
    (sw <- stepIdPerPhase (tagged bs) ;; computeNumIneq pData Ts sw) = Ok (Z.of_nat n) /\
    length rows = n /\
    n = (count_rows (fun c => (length (cp_poly (php c)) + length (cd_kin c))%nat) true (contacts pData) bs + n_acc pData bs)%nat /\
    constraintsOneStep_raw pData Ts T (tagged bs) = Ok (n, map some_row rows) /\
    computeConstraintsOneStep pData Ts T (tagged bs) = Ok rows /\
    forall x cv, com_curve pData T x = Ok cv ->
      (sat rows x <->
       (forall i c b t, nth_error (contacts pData) i = Some c -> nth_error bs i = Some b -> In t b ->
          kin_ok c (cv_fun cv t) /\ enf pData ws T g0 c t x) /\
       (forall i c b b' t, nth_error (contacts pData) (S i) = Some c -> nth_error bs i = Some b -> b = b' ++ [t] ->
          kin_ok c (cv_fun cv t) /\ enf pData ws T (cp_gravity (php c)) c t x) /\
       (forall b t, In b bs -> In t b -> accel_ok pData (cv_fun cv) t)).
  Proof.
    intros Eg Ews. destruct (curve_T pData Ts WP vzero) as (pi & _ & Epi & _).
    destruct (filled pData Ts bs WP HLbs HNe HTm ws pi g0 Ews Epi Eg) as (n & H1 & H2 & H3 & H4 & H5).
    exists n, (all_stab pData Ts bs ws g0 ++ all_kin pData Ts bs pi ++ all_acc pData Ts bs pi).
    split; [exact H1|]. split; [rewrite !app_length; lia|]. split; [exact H3|]. split; [exact H4|]. split; [exact H5|].
    intros x cv Hcv. rewrite !sat_app.
    pose proof (HLc pData Ts bs WP HLbs) as HL.
    assert (S1 : sat (all_stab pData Ts bs ws g0) x <->
      (forall i c b t, nth_error (contacts pData) i = Some c -> nth_error bs i = Some b -> In t b -> enf pData ws T g0 c t x) /\
      (forall i c b b' t, nth_error (contacts pData) (S i) = Some c -> nth_error bs i = Some b -> b = b' ++ [t] ->
          enf pData ws T (cp_gravity (php c)) c t x)).
    { unfold all_stab. rewrite (rows_of_sat _ _ x _ _ HL).
      split; intros [A B]; (split; [intros i c b t Hc Hb Ht|intros i c b b' t Hc Hb Ht]).
      - apply enf_srows; [eapply nth_error_In; eauto|eapply HTm; eauto using nth_error_In|]. eapply A; eauto.
      - assert (In t b) by (subst b; apply in_or_app; right; left; reflexivity).
        apply enf_srows; [eapply nth_error_In; eauto|eapply HTm; eauto using nth_error_In|]. eapply B; eauto.
      - apply enf_srows; [eapply nth_error_In; eauto|eapply HTm; eauto using nth_error_In|]. eapply A; eauto.
      - assert (In t b) by (subst b; apply in_or_app; right; left; reflexivity).
        apply enf_srows; [eapply nth_error_In; eauto|eapply HTm; eauto using nth_error_In|]. eapply B; eauto. }
    assert (S2 : sat (all_kin pData Ts bs pi) x <->
      (forall i c b t, nth_error (contacts pData) i = Some c -> nth_error bs i = Some b -> In t b -> kin_ok c (cv_fun cv t)) /\
      (forall i c b b' t, nth_error (contacts pData) (S i) = Some c -> nth_error bs i = Some b -> b = b' ++ [t] ->
          kin_ok c (cv_fun cv t))).
    { unfold all_kin. rewrite (rows_of_sat _ _ x _ _ HL).
      split; intros [A B]; (split; [intros i c b t Hc Hb Ht; specialize (A i c b t Hc Hb Ht)
                                  |intros i c b b' t Hc Hb Ht; specialize (B i c b b' t Hc Hb Ht)]).
      - rewrite (krows_sat pData Ts WP) in A by (eapply nth_error_In; eauto).
        rewrite (cof_ev pData Ts WP pi cv t x Epi Hcv) in A. exact A.
      - rewrite (krows_sat pData Ts WP) in B by (eapply nth_error_In; eauto).
        rewrite (cof_ev pData Ts WP pi cv t x Epi Hcv) in B. exact B.
      - rewrite (krows_sat pData Ts WP) by (eapply nth_error_In; eauto).
        rewrite (cof_ev pData Ts WP pi cv t x Epi Hcv). exact A.
      - rewrite (krows_sat pData Ts WP) by (eapply nth_error_In; eauto).
        rewrite (cof_ev pData Ts WP pi cv t x Epi Hcv). exact B. }
    assert (S3 : sat (all_acc pData Ts bs pi) x <-> (forall b t, In b bs -> In t b -> accel_ok pData (cv_fun cv) t)).
    { unfold all_acc, accel_ok. destruct (k_constraintAcceleration (constr pData)).
      - rewrite sat_flat_map. split.
        + intros A b t Hb Ht _. exists (ev_coefs (aof pData Ts pi t) x). split; [apply (aof_ev pData Ts WP pi cv t x Epi Hcv)|].
          apply acc_rows_sat. destruct (aof pData Ts pi t) as [a v] eqn:E. cbn [fst snd].
          specialize (A t). rewrite E in A. apply A. apply in_concat. eauto.
        + intros A t Ht. apply in_concat in Ht. destruct Ht as (b & Hb & Ht). destruct (A b t Hb Ht eq_refl) as (acc & Ha & Hw).
          destruct (aof pData Ts pi t) as [a v] eqn:E. cbn [fst snd]. apply acc_rows_sat. rewrite <- E.
          replace (ev_coefs (aof pData Ts pi t) x) with acc; [exact Hw|].
          eapply (is_deriv_n_unique 2 _ _ t _ _ (fun _ => eq_refl)); [exact Ha|]. apply (aof_ev pData Ts WP pi cv t x Epi Hcv).
      - split; [intros _ b t _ _ H; discriminate|intros _; constructor]. }
    rewrite S1, S2, S3. clear. split.
    - intros ((A1 & A2) & (B1 & B2) & C). split; [|split; [|exact C]].
      + intros i c b t H1 H2 H3. split; [exact (B1 i c b t H1 H2 H3)|exact (A1 i c b t H1 H2 H3)].
      + intros i c b b' t H1 H2 H3. split; [exact (B2 i c b b' t H1 H2 H3)|exact (A2 i c b b' t H1 H2 H3)].
    - intros (A & B & C). split; [split|split; [split|exact C]].
      + intros i c b t H1 H2 H3. apply (A i c b t H1 H2 H3).
      + intros i c b b' t H1 H2 H3. apply (B i c b b' t H1 H2 H3).
      + intros i c b t H1 H2 H3. apply (A i c b t H1 H2 H3).
      + intros i c b b' t H1 H2 H3. apply (B i c b b' t H1 H2 H3).
  Qed.
End Meaning.

(** From the written inequality to the wrench. *)
Lemma wrench_giw2 m g g0 c acc : v6_scal m (v6sub (g, vzero) (wrench g0 c acc)) = giw2 m g g0 c acc.
Proof.
  unfold v6_scal, v6sub, wrench, giw2; cbn [fst snd]. f_equal. apply v3_eq; unfold vscal, vsub, vadd, vcross, vzero; cbn; ring.
Qed.
Lemma giw2_same m g c acc : giw2 m g g c acc = giw m g c acc.
Proof. reflexivity. Qed.

Lemma com_acc cv t : exists acc, is_deriv_n 2 (cv_fun cv) t acc.
Proof. eexists. apply curve_is_deriv_n. Qed.

Lemma enf_exact pData T g g0 ws x cv c t acc :
  In (flag_of pData) exact_w_flags -> com_curve pData T x = Ok cv -> front_gravity pData = Ok g0 ->
  computeWwaypoints pData T = Ok ws -> is_deriv_n 2 (cv_fun cv) t acc ->
  (enf pData ws T g c t x <-> cone_ok (margin pData) 0 (php c) (giw2 (cp_mass (php c)) g g0 (cv_fun cv t) acc)).
Proof.
  intros Hf Hcv Hg Hws Hacc. destruct (c05_ok _ _ _ _ _ Hf Hcv Hg) as (ws' & Hw' & Hall).
  rewrite Hws in Hw'. injection Hw' as <-. unfold enf, cone_ok. rewrite (Hall t acc Hacc), wrench_giw2.
  rewrite !Forall_forall. split; intros H Hh Hi; specialize (H Hh Hi);
    [replace (snd Hh - margin pData + 0) with (snd Hh - margin pData) by ring
    |replace (snd Hh - margin pData + 0) with (snd Hh - margin pData) in H by ring]; exact H.
Qed.

Lemma abs_dot_le u d e : within e d -> Rabs (vdot u d) <= (Rabs (vx u) + Rabs (vy u) + Rabs (vz u)) * e.
Proof.
  intros (H1 & H2 & H3). unfold vdot.
  eapply Rle_trans; [apply Rabs_triang|]. eapply Rle_trans; [apply Rplus_le_compat_r, Rabs_triang|].
  rewrite !Rabs_mult. pose proof (Rabs_pos (vx u)). pose proof (Rabs_pos (vy u)). pose proof (Rabs_pos (vz u)).
  assert (Rabs (vx u) * Rabs (vx d) <= Rabs (vx u) * e) by (apply Rmult_le_compat_l; assumption).
  assert (Rabs (vy u) * Rabs (vy d) <= Rabs (vy u) * e) by (apply Rmult_le_compat_l; assumption).
  assert (Rabs (vz u) * Rabs (vz d) <= Rabs (vz u) * e) by (apply Rmult_le_compat_l; assumption).
  lra.
Qed.
Lemma comp_le_norm6 (u : v6) a : In a [vx (fst u); vy (fst u); vz (fst u); vx (snd u); vy (snd u); vz (snd u)] ->
  Rabs a <= norm6 u.
Proof.
  intros Hin. unfold norm6. rewrite <- sqrt_Rsqr_abs. apply sqrt_le_1_alt. unfold Rsqr, dot6, vdot.
  destruct u as [[a1 a2 a3] [b1 b2 b3]]. cbn in *. decompose [or] Hin; subst; try tauto; nra.
Qed.
Lemma dot6_err (u d : v6) ef em : within ef (fst d) -> within em (snd d) ->
  Rabs (dot6 u d) <= norm6 u * (3 * (ef + em)).
Proof.
  intros Hf Hm. pose proof (within_nonneg _ _ Hf). pose proof (within_nonneg _ _ Hm).
  unfold dot6. eapply Rle_trans; [apply Rabs_triang|].
  eapply Rle_trans; [apply Rplus_le_compat; apply abs_dot_le; eassumption|].
  assert (C : forall a, In a [vx (fst u); vy (fst u); vz (fst u); vx (snd u); vy (snd u); vz (snd u)] -> Rabs a <= norm6 u)
    by apply comp_le_norm6.
  pose proof (C (vx (fst u)) ltac:(simpl; tauto)). pose proof (C (vy (fst u)) ltac:(simpl; tauto)).
  pose proof (C (vz (fst u)) ltac:(simpl; tauto)). pose proof (C (vx (snd u)) ltac:(simpl; tauto)).
  pose proof (C (vy (snd u)) ltac:(simpl; tauto)). pose proof (C (vz (snd u)) ltac:(simpl; tauto)).
  assert ((Rabs (vx (fst u)) + Rabs (vy (fst u)) + Rabs (vz (fst u))) * ef <= (3 * norm6 u) * ef) by (apply Rmult_le_compat_r; lra).
  assert ((Rabs (vx (snd u)) + Rabs (vy (snd u)) + Rabs (vz (snd u))) * em <= (3 * norm6 u) * em) by (apply Rmult_le_compat_r; lra).
  lra.
Qed.

Definition slack (G M T : R) : R := 3 * (err_force M T + err_moment G M T).

Lemma enf_dec pData T g g0 ws x cv c t acc M G :
  In (flag_of pData) dec_w_flags -> com_curve pData T x = Ok cv -> front_gravity pData = Ok g0 ->
  Forall (within M) (bc_pts cv) -> within G g0 -> 0 < cp_mass (php c) -> 0 <= t <= T ->
  computeWwaypoints pData T = Ok ws -> is_deriv_n 2 (cv_fun cv) t acc ->
  let w := giw2 (cp_mass (php c)) g g0 (cv_fun cv t) acc in
  (enf pData ws T g c t x -> cone_ok (margin pData) (slack G M T) (php c) w) /\
  (cone_ok (margin pData) (- slack G M T) (php c) w -> enf pData ws T g c t x).
Proof.
  intros Hf Hcv Hg HM HG Hmass Ht Hws Hacc w. destruct (c06_ok _ _ _ _ _ _ _ Hf Hcv Hg HM HG) as (ws' & Hw' & Hall).
  rewrite Hws in Hw'. injection Hw' as <-. specialize (Hall t acc Ht Hacc). cbv zeta in Hall. destruct Hall as [Ef Em].
  set (W := curve6 _ _ _) in *. set (d := v6sub W (wrench g0 (cv_fun cv t) acc)) in *.
  assert (Key : forall H : v6, dot6 H (v6_scal (cp_mass (php c)) (v6sub (g, vzero) W)) = dot6 H w - cp_mass (php c) * dot6 H d).
  { intros H. unfold w, d. rewrite <- wrench_giw2. destruct (wrench g0 (cv_fun cv t) acc) as [w1 w2]. destruct W as [W1 W2].
    unfold dot6, v6_scal, v6sub, vscal, vsub, vdot, vzero; cbn. ring. }
  assert (Bd : forall H : v6, Rabs (cp_mass (php c) * dot6 H d) <= cp_mass (php c) * norm6 H * slack G M T).
  { intros H. rewrite Rabs_mult, (Rabs_right (cp_mass (php c))) by lra. rewrite Rmult_assoc.
    apply Rmult_le_compat_l; [lra|]. unfold slack. apply dot6_err; assumption. }
  unfold enf, cone_ok. fold W. rewrite !Forall_forall.
  split; intros H Hh Hi; specialize (H Hh Hi); specialize (Bd (fst Hh)); apply Rabs_le_inv in Bd;
    rewrite Key in *; lra.
Qed.

(** The sampled times of the two discretisations as blocks. *)
Lemma total_prefix : forall Ts i, Forall (Rlt 0) Ts -> 0 <= phase_start Ts i <= total Ts /\
  0 <= phase_end Ts i <= total Ts.
Proof.
  assert (P : forall Ts i, Forall (Rlt 0) Ts -> 0 <= total (firstn i Ts) <= total Ts).
  { induction Ts as [|d Ts IH]; intros [|i] HF; cbn; try lra.
    - inversion HF; subst. specialize (IH 0%nat H2). cbn in IH. lra.
    - inversion HF; subst. specialize (IH i H2). lra. }
  intros Ts i HF. split; apply P, HF.
Qed.
Lemma phase_mono Ts i d : Forall (Rlt 0) Ts -> nth_error Ts i = Some d -> 0 < d /\ phase_end Ts i = phase_start Ts i + d.
Proof.
  intros HF H. split; [|apply phase_end_nth, H]. rewrite Forall_forall in HF. apply HF. eapply nth_error_In; eauto.
Qed.

Lemma fixed_bs_nth Ts p i d : nth_error Ts i = Some d ->
  nth_error (fixed_bs Ts p) i = Some ((if Nat.eqb i 0 then [0] else []) ++ frac_samples (phase_start Ts i) d p).
Proof.
  intros H. pose proof (fixed_blocks_nth Ts p 0 i d H) as HN. rewrite Rplus_0_l in HN. unfold fixed_bs.
  destruct (fixed_blocks Ts p 0) as [|b bs]; [destruct i; discriminate|].
  destruct i as [|i]; cbn in *; [|exact HN]. injection HN as ->. reflexivity.
Qed.

Lemma frac_in t s d p : In t (frac_samples s d p) <-> exists j, (1 <= j <= p)%nat /\ t = s + INR j / INR p * d.
Proof.
  unfold frac_samples. rewrite in_map_iff. split.
  - intros (j & <- & Hj). apply in_seq in Hj. exists j. split; [lia|reflexivity].
  - intros (j & Hj & ->). exists j. split; [reflexivity|]. apply in_seq. lia.
Qed.

Lemma frac_bounds p j d : (j <= p)%nat -> (1 <= p)%nat -> 0 < d -> 0 <= INR j / INR p * d <= d.
Proof.
  intros Hj Hp Hd. assert (0 < INR p) by (apply lt_0_INR; lia). assert (INR j <= INR p) by (apply le_INR; lia).
  pose proof (pos_INR j). assert (0 <= INR j / INR p <= 1).
  { split; [apply Rmult_le_pos; [lra|apply Rlt_le, Rinv_0_lt_compat; lra]|].
    apply (Rmult_le_reg_r (INR p)); [lra|]. unfold Rdiv. rewrite Rmult_assoc, Rinv_l by lra. lra. }
  nra.
Qed.

Lemma nth_ex {A B} (l : list A) (m : list B) i a : length l = length m -> nth_error l i = Some a -> exists b, nth_error m i = Some b.
Proof.
  intros HL H. destruct (nth_error m i) eqn:E; [eauto|]. apply nth_error_None in E.
  assert (i < length l)%nat by (apply nth_error_Some; congruence). lia.
Qed.

Lemma fixed_times Ts p : (1 <= p)%nat -> Forall (Rlt 0) Ts -> forall b t, In b (fixed_bs Ts p) -> In t b -> 0 <= t <= total Ts.
Proof.
  intros Hp HF b t Hb Ht. apply In_nth_error in Hb. destruct Hb as [i Hi].
  destruct (nth_ex _ Ts i b (fixed_bs_len Ts p) Hi) as [d Hd]. rewrite (fixed_bs_nth _ _ _ _ Hd) in Hi. injection Hi as <-.
  destruct (phase_mono Ts i d HF Hd) as [Hd0 He]. destruct (total_prefix Ts i HF) as [A B].
  apply in_app_or in Ht. destruct Ht as [Ht|Ht].
  - destruct (Nat.eqb i 0); [|contradiction]. destruct Ht as [<-|[]]. lra.
  - apply frac_in in Ht. destruct Ht as (j & Hj & ->). pose proof (frac_bounds p j d ltac:(lia) Hp Hd0). lra.
Qed.

(** sampled = in the block, or last time of the previous block *)
Definition in_block (bs : list (list R)) (i : nat) (t : R) : Prop := exists b, nth_error bs i = Some b /\ In t b.
Definition at_switch (bs : list (list R)) (i : nat) (t : R) : Prop :=
  exists i' b b', i = S i' /\ nth_error bs i' = Some b /\ b = b' ++ [t].

Lemma last_unique {A} (l l' : list A) a a' : l ++ [a] = l' ++ [a'] -> a = a'.
Proof. intros H. apply app_inj_tail in H. tauto. Qed.
Lemma frac_samples_end s d p : (1 <= p)%nat -> exists l, frac_samples s d p = l ++ [s + d].
Proof.
  intros Hp. unfold frac_samples. destruct p as [|p]; [lia|]. rewrite seq_S, map_app. cbn [map].
  eexists. f_equal. f_equal. replace (1 + p)%nat with (S p) by lia. field. apply not_0_INR. lia.
Qed.

Lemma fixed_sampled Ts p i t : (1 <= p)%nat -> (i < length Ts)%nat ->
  (sampled_fixed Ts p i t <-> in_block (fixed_bs Ts p) i t \/ at_switch (fixed_bs Ts p) i t).
Proof.
  intros Hp Hi. destruct (nth_error Ts i) as [d|] eqn:Ed; [|apply nth_error_None in Ed; lia].
  pose proof (fixed_bs_nth Ts p i d Ed) as Hb. split.
  - intros (j & d' & Hj & Hd & ->). rewrite Ed in Hd. injection Hd as <-.
    destruct j as [|j].
    + replace (phase_start Ts i + INR 0 / INR p * d) with (phase_start Ts i) by (cbn; lra).
      destruct i as [|i].
      * left. eexists. split; [exact Hb|]. cbn. left. reflexivity.
      * right. destruct (nth_error Ts i) as [d'|] eqn:Ed'; [|apply nth_error_None in Ed'; lia].
        destruct (frac_samples_end (phase_start Ts i) d' p Hp) as [l El].
        eexists i, _, _. split; [reflexivity|]. split; [apply (fixed_bs_nth Ts p i d' Ed')|].
        rewrite El, app_assoc. rewrite phase_start_S, (phase_end_nth _ _ _ Ed'). reflexivity.
    + left. eexists. split; [exact Hb|]. apply in_or_app. right. apply frac_in. exists (S j). split; [lia|reflexivity].
  - intros [(b & Hb' & Ht)|(i' & b & b' & -> & Hb' & E)].
    + rewrite Hb in Hb'. injection Hb' as <-. apply in_app_or in Ht. destruct Ht as [Ht|Ht].
      * destruct i as [|i]; [|contradiction]. destruct Ht as [<-|[]]. exists 0%nat, d. split; [lia|]. split; [exact Ed|].
        unfold phase_start; cbn. lra.
      * apply frac_in in Ht. destruct Ht as (j & Hj & ->). exists j, d. split; [lia|]. split; [exact Ed|reflexivity].
    + destruct (nth_error Ts i') as [d'|] eqn:Ed'; [|apply nth_error_None in Ed'; lia].
      rewrite (fixed_bs_nth Ts p i' d' Ed') in Hb'. destruct (frac_samples_end (phase_start Ts i') d' p Hp) as [l El].
      rewrite El, app_assoc in Hb'. injection Hb' as Hb'. rewrite E in Hb'. apply last_unique in Hb'. subst t.
      exists 0%nat, d. split; [lia|]. split; [exact Ed|]. rewrite phase_start_S, (phase_end_nth _ _ _ Ed'). cbn. lra.
Qed.

Definition step_bs_spec (Ts : list R) (dt : R) (bs : list (list R)) : Prop :=
  forall i b, nth_error bs i = Some b -> exists n,
     steps_to (phase_start Ts i) (phase_end Ts i) dt n /\ b = step_samples (phase_start Ts i) (phase_end Ts i) dt n.

Lemma step_in t s e dt n : 0 < dt -> steps_to s e dt n ->
  (In t (step_samples s e dt n) <-> t = e \/ exists k, t = s + INR k * dt /\ t < e).
Proof.
  intros Hdt [H1 H2]. unfold step_samples. rewrite in_app_iff, in_map_iff. split.
  - intros [(k & <- & Hk)|[<-|[]]]; [right|left; reflexivity]. exists k. split; [reflexivity|]. apply H2. apply in_seq in Hk. lia.
  - intros [->|(k & -> & Hk)]; [right; left; reflexivity|left]. exists k. split; [reflexivity|]. apply in_seq.
    split; [lia|]. cbn. destruct (Nat.lt_ge_cases k n) as [H|H]; [exact H|]. apply le_INR in H. exfalso.
    assert (INR n * dt <= INR k * dt) by (apply Rmult_le_compat_r; lra). lra.
Qed.

Lemma step_times Ts dt bs : 0 < dt -> Forall (Rlt 0) Ts -> length bs = length Ts -> step_bs_spec Ts dt bs ->
  forall b t, In b bs -> In t b -> 0 <= t <= total Ts.
Proof.
  intros Hdt HF HL HS b t Hb Ht. apply In_nth_error in Hb. destruct Hb as [i Hi].
  destruct (nth_ex _ Ts i b HL Hi) as [d Hd]. destruct (phase_mono Ts i d HF Hd) as [Hd0 He].
  destruct (total_prefix Ts i HF) as [A B]. destruct (HS i b Hi) as (n & Hn & ->).
  assert (Hse : phase_start Ts i < phase_end Ts i) by lra.
  pose proof (step_samples_inside _ _ _ _ _ Hdt Hse Hn Ht). lra.
Qed.
Lemma step_sampled Ts dt bs i t : 0 < dt -> Forall (Rlt 0) Ts -> length bs = length Ts -> step_bs_spec Ts dt bs -> (i < length Ts)%nat ->
  (sampled_step Ts dt i t <-> in_block bs i t \/ at_switch bs i t).
Proof.
  intros Hdt HF HL HS Hi. destruct (nth_error bs i) as [b|] eqn:Eb; [|apply nth_error_None in Eb; lia].
  destruct (nth_error Ts i) as [d|] eqn:Ed; [|apply nth_error_None in Ed; lia].
  destruct (phase_mono Ts i d HF Ed) as [Hd0 He].
  destruct (HS i b Eb) as (n & Hn & Eb'). pose proof (step_in t _ _ _ _ Hdt Hn) as HI. rewrite <- Eb' in HI. split.
  - intros (_ & Ht). left. exists b. split; [exact Eb|]. apply HI, Ht.
  - intros [(b' & Hb' & Ht)|(i' & b' & b'' & -> & Hb' & E)].
    + split; [exact Hi|]. rewrite Eb in Hb'. injection Hb' as <-. apply HI, Ht.
    + split; [exact Hi|]. destruct (HS i' b' Hb') as (n' & Hn' & E'). rewrite E in E'. unfold step_samples in E'.
      apply last_unique in E'. subst t. right. exists 0%nat. rewrite phase_start_S in *. split; [cbn; lra|lra].
Qed.

(** C14-C15 for blocks *)
Section Blocks.
  Variable pData : problem.
  Variable Ts : list R.
  Variable bs : list (list R).
  Hypothesis WP : well_posed pData Ts.
  Hypothesis HLbs : length bs = length Ts.
  Hypothesis HNe : Forall (fun b => b <> []) bs.
  Hypothesis HTm : forall b t, In b bs -> In t b -> 0 <= t <= total Ts.
  Variable smp : nat -> R -> Prop.
  Hypothesis Hsmp : forall i t, (i < length Ts)%nat -> (smp i t <-> in_block bs i t \/ at_switch bs i t).

  Definition all_ok (sl : R) (f : R -> vec3) : Prop :=
    forall i c t, nth_error (contacts pData) i = Some c -> smp i t ->
      contact_ok pData sl c f t /\ accel_ok pData f t.

  Lemma HLct : length (contacts pData) = length Ts.
  Proof. destruct WP as (_ & _ & _ & _ & H & _). exact H. Qed.

  Lemma accel_all f : (forall b t, In b bs -> In t b -> accel_ok pData f t) <->
    (forall i c t, nth_error (contacts pData) i = Some c -> smp i t -> accel_ok pData f t).
  Proof.
    pose proof HLct as HL. split.
    - intros H i c t Hc Ht. assert (Hi : (i < length Ts)%nat) by (rewrite <- HL; apply nth_error_Some; congruence).
      apply Hsmp in Ht; [|exact Hi]. destruct Ht as [(b & Hb & Ht)|(i' & b & b' & _ & Hb & E)].
      + eapply H; eauto using nth_error_In.
      + apply (H b t); [eapply nth_error_In; eauto|]. subst b. apply in_or_app; right; left; reflexivity.
    - intros H b t Hb Ht. apply In_nth_error in Hb. destruct Hb as [i Hi].
      assert (Hi' : (i < length Ts)%nat) by (rewrite <- HLbs; apply nth_error_Some; congruence).
      destruct (nth_error (contacts pData) i) as [c|] eqn:Ec; [|apply nth_error_None in Ec; lia].
      apply (H i c t Ec). apply Hsmp; [exact Hi'|]. left. exists b. auto.
  Qed.

  (** generic gravity: force part front gravity, or own gravity at a switch *)
  Definition all_ok2 (g0 : vec3) (f : R -> vec3) : Prop :=
    forall i c ph t, nth_error (contacts pData) i = Some c -> cd_phase c = Some ph ->
      (smp i t -> kin_ok c (f t) /\ accel_ok pData f t) /\
      (in_block bs i t -> exists acc, is_deriv_n 2 f t acc /\
         cone_ok (margin pData) 0 ph (giw2 (cp_mass ph) g0 g0 (f t) acc)) /\
      (at_switch bs i t -> exists acc, is_deriv_n 2 f t acc /\
         cone_ok (margin pData) 0 ph (giw2 (cp_mass ph) (cp_gravity ph) g0 (f t) acc)).

  Lemma meaning2 g0 : front_gravity pData = Ok g0 -> In (flag_of pData) exact_w_flags -> exists rows,
    computeConstraintsOneStep pData Ts (total Ts) (tagged bs) = Ok rows /\
    forall x cv, com_curve pData (total Ts) x = Ok cv -> (sat rows x <-> all_ok2 g0 (cv_fun cv)).
  Proof.
    intros Eg Hf. pose proof WP as (Hfc & Hcap & _).
    destruct (ws_ex pData (total Ts) g0 Hfc Hcap (T_pos pData Ts WP) Eg) as [ws Ews].
    destruct (meaning pData Ts bs WP HLbs HNe HTm g0 ws Eg Ews) as (n & rows & _ & _ & _ & _ & Hrows & Hm).
    exists rows. split; [exact Hrows|]. intros x cv Hcv. rewrite (Hm x cv Hcv), accel_all. pose proof HLct as HL.
    split.
    - intros (A & B & C) i c ph t Hc Hph.
      assert (Hi : (i < length Ts)%nat) by (rewrite <- HL; apply nth_error_Some; congruence).
      assert (Ep : php c = ph) by (unfold php; rewrite Hph; reflexivity).
      split; [|split].
      + intros Ht. split; [|exact (C i c t Hc Ht)]. apply Hsmp in Ht; [|exact Hi]. destruct Ht as [(b & Hb & Ht)|(i' & b & b' & -> & Hb & E)].
        * apply (A i c b t Hc Hb Ht). * apply (B i' c b b' t Hc Hb E).
      + intros (b & Hb & Ht). destruct (com_acc cv t) as [acc Hacc]. exists acc. split; [exact Hacc|].
        rewrite <- Ep. apply (enf_exact pData (total Ts) g0 g0 ws x cv c t acc Hf Hcv Eg Ews Hacc). apply (A i c b t Hc Hb Ht).
      + intros (i' & b & b' & -> & Hb & E). destruct (com_acc cv t) as [acc Hacc]. exists acc. split; [exact Hacc|].
        rewrite <- Ep. apply (enf_exact pData (total Ts) (cp_gravity (php c)) g0 ws x cv c t acc Hf Hcv Eg Ews Hacc). apply (B i' c b b' t Hc Hb E).
    - intros H. split; [|split].
      + intros i c b t Hc Hb Ht. assert (Hi : (i < length Ts)%nat) by (rewrite <- HL; apply nth_error_Some; congruence).
        pose proof (php_eq pData Ts WP c (nth_error_In _ _ Hc)) as Hph. destruct (H i c _ t Hc Hph) as (H1 & H2 & _).
        assert (Hib : in_block bs i t) by (exists b; auto). split.
        * apply H1. apply Hsmp; [exact Hi|left; exact Hib].
        * destruct (H2 Hib) as (acc & Hacc & Hcone).
          apply (enf_exact pData (total Ts) g0 g0 ws x cv c t acc Hf Hcv Eg Ews Hacc). exact Hcone.
      + intros i c b b' t Hc Hb E. assert (Hi : (S i < length Ts)%nat) by (rewrite <- HL; apply nth_error_Some; congruence).
        pose proof (php_eq pData Ts WP c (nth_error_In _ _ Hc)) as Hph. destruct (H (S i) c _ t Hc Hph) as (H1 & _ & H2).
        assert (Hib : at_switch bs (S i) t) by (exists i, b, b'; auto). split.
        * apply H1. apply Hsmp; [exact Hi|right; exact Hib].
        * destruct (H2 Hib) as (acc & Hacc & Hcone).
          apply (enf_exact pData (total Ts) (cp_gravity (php c)) g0 ws x cv c t acc Hf Hcv Eg Ews Hacc). exact Hcone.
      + intros i c t Hc Ht. pose proof (php_eq pData Ts WP c (nth_error_In _ _ Hc)) as Hph.
        destruct (H i c _ t Hc Hph) as (H1 & _). apply H1, Ht.
  Qed.

  Lemma front_same g : same_gravity pData g -> front_gravity pData = Ok g.
  Proof.
    intros Hs. pose proof WP as (_ & _ & Hne & _ & HL & HF). unfold front_gravity.
    destruct (contacts pData) as [|c l] eqn:Ec; [destruct Ts; [congruence|discriminate]|].
    cbn. inversion HF as [|? ? (ph & E & _) _]; subst. rewrite E. cbn. f_equal. apply (Hs c ph); [rewrite Ec; left; reflexivity|exact E].
  Qed.

  Lemma block_exact g : same_gravity pData g -> In (flag_of pData) exact_w_flags -> exists rows,
    computeConstraintsOneStep pData Ts (total Ts) (tagged bs) = Ok rows /\
    forall x cv, com_curve pData (total Ts) x = Ok cv -> (sat rows x <-> all_ok 0 (cv_fun cv)).
  Proof.
    intros Hs Hf. destruct (meaning2 g (front_same g Hs) Hf) as (rows & Hr & Hm). exists rows. split; [exact Hr|].
    intros x cv Hcv. rewrite (Hm x cv Hcv). pose proof HLct as HL. split.
    - intros H i c t Hc Ht. assert (Hi : (i < length Ts)%nat) by (rewrite <- HL; apply nth_error_Some; congruence).
      pose proof (php_eq pData Ts WP c (nth_error_In _ _ Hc)) as Hph. destruct (H i c _ t Hc Hph) as (H1 & H2 & H3).
      destruct (H1 Ht) as [Hk Ha]. split; [|exact Ha]. split; [exact Hk|]. apply Hsmp in Ht; [|exact Hi].
      assert (Hgr : cp_gravity (php c) = g) by (apply (Hs c _ (nth_error_In _ _ Hc) Hph)).
      destruct Ht as [Ht|Ht]; [destruct (H2 Ht) as (acc & Hacc & Hcone)|destruct (H3 Ht) as (acc & Hacc & Hcone)];
        exists (php c), acc; (split; [exact Hph|split; [exact Hacc|]]); rewrite Hgr in *; exact Hcone.
    - intros H i c ph t Hc Hph. assert (Hi : (i < length Ts)%nat) by (rewrite <- HL; apply nth_error_Some; congruence).
      assert (Hgr : cp_gravity ph = g) by (apply (Hs c _ (nth_error_In _ _ Hc) Hph)). split; [|split].
      + intros Ht. destruct (H i c t Hc Ht) as [[Hk _] Ha]. auto.
      + intros Ht. destruct (H i c t Hc (proj2 (Hsmp i t Hi) (or_introl Ht))) as [[_ (ph' & acc & E & Hacc & Hcone)] _].
        rewrite Hph in E. injection E as <-. exists acc. split; [exact Hacc|]. rewrite <- Hgr. exact Hcone.
      + intros Ht. destruct (H i c t Hc (proj2 (Hsmp i t Hi) (or_intror Ht))) as [[_ (ph' & acc & E & Hacc & Hcone)] _].
        rewrite Hph in E. injection E as <-. exists acc. split; [exact Hacc|]. rewrite <- Hgr. exact Hcone.
  Qed.

  Lemma block_dec g G : same_gravity pData g -> within G g -> In (flag_of pData) dec_w_flags -> exists rows,
    computeConstraintsOneStep pData Ts (total Ts) (tagged bs) = Ok rows /\
    forall x cv M, com_curve pData (total Ts) x = Ok cv -> Forall (within M) (bc_pts cv) ->
      (sat rows x -> all_ok (slack G M (total Ts)) (cv_fun cv)) /\
      (all_ok (- slack G M (total Ts)) (cv_fun cv) -> sat rows x).
  Proof.
    intros Hs HG Hf. pose proof (front_same g Hs) as Eg. pose proof WP as (Hfc & Hcap & _).
    destruct (ws_ex pData (total Ts) g Hfc Hcap (T_pos pData Ts WP) Eg) as [ws Ews].
    destruct (meaning pData Ts bs WP HLbs HNe HTm g ws Eg Ews) as (n & rows & _ & _ & _ & _ & Hrows & Hm).
    exists rows. split; [exact Hrows|]. intros x cv M Hcv HM. rewrite (Hm x cv Hcv), accel_all. pose proof HLct as HL.
    assert (Hgr : forall c, In c (contacts pData) -> cp_gravity (php c) = g).
    { intros c Hin. apply (Hs c _ Hin). apply (php_eq pData Ts WP c Hin). }
    assert (Hms : forall c, In c (contacts pData) -> 0 < cp_mass (php c)).
    { intros c Hin. destruct (wf_in pData Ts WP c Hin) as (ph & E & Hmass & _).
      rewrite (php_eq pData Ts WP c Hin) in E. injection E as <-. exact Hmass. }
    assert (Tb : forall i t, (i < length Ts)%nat -> smp i t -> 0 <= t <= total Ts).
    { intros i t Hi Ht. apply Hsmp in Ht; [|exact Hi]. destruct Ht as [(b & Hb & Ht)|(i' & b & b' & _ & Hb & E)].
      - eapply HTm; eauto using nth_error_In.
      - apply (HTm b t); [eapply nth_error_In; eauto|]. subst b. apply in_or_app; right; left; reflexivity. }
    split.
    - intros (A & B & C) i c t Hc Ht. split; [|exact (C i c t Hc Ht)].
      assert (Hi : (i < length Ts)%nat) by (rewrite <- HL; apply nth_error_Some; congruence).
      pose proof (nth_error_In _ _ Hc) as Hin. destruct (com_acc cv t) as [acc Hacc].
      destruct (enf_dec pData (total Ts) g g ws x cv c t acc M G Hf Hcv Eg HM HG (Hms c Hin) (Tb i t Hi Ht) Ews Hacc) as [E1 _].
      apply Hsmp in Ht; [|exact Hi].
      assert (K : kin_ok c (cv_fun cv t) /\ enf pData ws (total Ts) g c t x).
      { destruct Ht as [(b & Hb & Ht)|(i' & b & b' & -> & Hb & E)].
        - apply (A i c b t Hc Hb Ht). - pose proof (B i' c b b' t Hc Hb E) as B'. rewrite (Hgr c Hin) in B'. exact B'. }
      destruct K as [K1 K2]. split; [exact K1|]. exists (php c), acc. split; [apply (php_eq pData Ts WP c Hin)|].
      split; [exact Hacc|]. rewrite (Hgr c Hin). apply E1, K2.
    - intros H.
      assert (K : forall i c t, nth_error (contacts pData) i = Some c -> smp i t ->
                kin_ok c (cv_fun cv t) /\ enf pData ws (total Ts) g c t x).
      { intros i c t Hc Ht. assert (Hi : (i < length Ts)%nat) by (rewrite <- HL; apply nth_error_Some; congruence).
        pose proof (nth_error_In _ _ Hc) as Hin. destruct (H i c t Hc Ht) as [[K1 (ph & acc & Hph & Hacc & Hcone)] _].
        rewrite (php_eq pData Ts WP c Hin) in Hph. injection Hph as <-. split; [exact K1|].
        destruct (enf_dec pData (total Ts) g g ws x cv c t acc M G Hf Hcv Eg HM HG (Hms c Hin) (Tb i t Hi Ht) Ews Hacc) as [_ E2].
        apply E2. rewrite (Hgr c Hin) in Hcone. exact Hcone. }
      split; [|split].
      + intros i c b t Hc Hb Ht. assert (Hi : (i < length Ts)%nat) by (rewrite <- HL; apply nth_error_Some; congruence).
        apply (K i c t Hc). apply Hsmp; [exact Hi|]. left. exists b. auto.
      + intros i c b b' t Hc Hb E. assert (Hi : (S i < length Ts)%nat) by (rewrite <- HL; apply nth_error_Some; congruence).
        rewrite (Hgr c (nth_error_In _ _ Hc)). apply (K (S i) c t Hc). apply Hsmp; [exact Hi|]. right. exists i, b, b'. auto.
      + intros i c t Hc Ht. apply (H i c t Hc Ht).
  Qed.
End Blocks.
