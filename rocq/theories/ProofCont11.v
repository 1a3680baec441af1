(** Continuous formulation: further counterexamples, pieces of curves. *)
From Verif Require Import Vec SpecBezier SpecTime ModelData ModelDispatch ModelUtils ModelRows ModelCom ModelNd ModelCont
  SpecCom SpecWp SpecCtr SpecCont ProofBezier ProofCurve ProofWaypoints ProofWaypoints2 ProofTime ProofTime2 ProofEmit ProofCom ProofCom2 ProofCom3 ProofNd
  ProofWaypointsErr ProofCont ProofCont2 ProofCont3 ProofCont4 ProofCont5 ProofCont6 ProofCont7 ProofCont8 ProofCont9 ProofCont10.
Open Scope R_scope.

(** * Acceleration bound with unscaled derivative points *)
Definition un_c : contact := Contact (Some (CPhase [] 1 wf_g [])) [] [] [] [].
Definition un_pb : problem :=
  Problem [un_c] (V3 1 0 0) vzero vzero vzero (V3 (11/8) 0 0) vzero vzero vzero vzero false
    (Constraints F_c1 true 1 0) ACCELERATION DOUBLE_DESCRIPTION.
Definition un_x : vec3 := V3 (9/8) 0 0.
Definition un_cv : bcurve := BCurve [V3 1 0 0; V3 1 0 0; un_x; V3 (11/8) 0 0] (1/2).
Lemma un_total : total [1/2] = 1/2.
Proof. cbn; ring. Qed.
Lemma un_curve : com_curve un_pb (total [1/2]) un_x = Ok un_cv.
Proof.
  rewrite un_total. cbv [com_curve]. cbn. unfold mk_bezier. destruct (Rle_dec (1/2) 0); [lra|].
  unfold un_cv. repeat f_equal; apply v3_eq; cbn; field.
Qed.
Lemma un_acc t acc : is_deriv_n 2 (cv_fun un_cv) t acc -> acc = V3 3 0 0.
Proof.
  intros H. pose proof (curve_is_deriv_n 2 (bc_pts un_cv) (1/2) t) as Hd.
  rewrite (is_deriv_n_unique 2 _ _ t _ _ (fun _ => eq_refl) H Hd).
  cbn [bc_pts un_cv un_x]. apply v3_eq; cbv [un_x hodo_n hodo vdiffs length pred map curve bez3 bezl bez sumf bern binom nth vx vy vz vscal vsub Nat.add Nat.sub INR pow]; field.
Qed.
Lemma un_nz : no_zero_point un_cv un_x.
Proof.
  intros p Hp Hz. apply isZero_small in Hz. unfold isZero_prec in Hz. apply Rabs_le_inv in Hz.
  destruct Hp as [<-|[<-|[<-|[<-|[]]]]]; cbn in Hz; lra.
Qed.
Lemma c17_unscaled_refuted : exists pData Ts out x cv t,
  well_posed pData Ts /\ long_phases Ts /\ k_constraintAcceleration (constr pData) = true /\
  computeConstraintsContinuous false pData Ts = Ok out /\ com_curve pData (total Ts) x = Ok cv /\ no_zero_point cv x /\
  satX (co_A out) (l3 x) /\ in_phase Ts 0 t /\ ~ accel_within (k_maxAcceleration (constr pData)) (cv_fun cv) t.
Proof.
  assert (WP : well_posed un_pb [1/2]).
  { split; [cbn; tauto|]. split; [reflexivity|]. split; [discriminate|].
    split; [repeat constructor; lra|]. split; [reflexivity|].
    repeat constructor; eexists; (split; [reflexivity|]; split; [cbn; lra|]; split; [|cbn; lia]); constructor. }
  assert (HL : long_phases [1/2]) by (unfold long_phases; constructor; [lra|constructor]).
  assert (SG : same_gravity un_pb wf_g) by (intros c ph [<-|[]] H; injection H as <-; reflexivity).
  assert (HF : In (flag_of un_pb) exact_w_flags) by (cbn; tauto).
  destruct (c17_exact false un_pb [1/2] WP wf_g HL SG HF) as (out & ws & Eout & _ & H17).
  destruct (H17 un_x un_cv un_curve un_nz) as (Pc & Pa & Pw & Hc & HA).
  exists un_pb, [1/2], out, un_x, un_cv, 0. split; [exact WP|]. split; [exact HL|]. split; [reflexivity|]. split; [exact Eout|].
  split; [exact un_curve|]. split; [exact un_nz|]. split.
  - rewrite <- (app_nil_r (l3 un_x)). apply HA. intros i c ph Hci Hph.
    destruct i as [|i]; [|destruct i; discriminate]. cbn in Hci. injection Hci as <-. cbn in Hph. injection Hph as <-.
    destruct (Hc 0%nat _ _ eq_refl eq_refl) as (_ & (L2 & C2) & _).
    assert (E2 : Pa 0%nat = [V3 3 0 0; V3 3 0 0]).
    { eapply ctrl_acc_uniq; [| |exact C2|]; [unfold phase_start, phase_end; cbn; lra|rewrite L2; reflexivity|].
      intros t acc Ha. rewrite (un_acc t acc Ha). unfold phase_start, phase_end; cbn [firstn total]. apply v3_eq; cbn [vx vy vz]; curve_calc. }
    split; [|split].
    + apply Forall_forall. intros p _ j K k HK. destruct j; discriminate.
    + rewrite E2. unfold acc_bound. rewrite un_total. cbn.
      assert (W : within (1 / (1 / 2 * (1 / 2))) (V3 3 0 0)) by (unfold within; cbn; rewrite Rabs_R0, Rabs_right by lra; lra).
      constructor; [exact W|]. constructor; [exact W|]. constructor.
    + intros _. apply Forall_forall. intros w _. constructor.
  - split; [split; [cbn; lia|unfold phase_start, phase_end; cbn; lra]|].
    intros (acc & Ha & W1 & _). rewrite (un_acc _ _ Ha) in W1. cbn in W1. rewrite Rabs_right in W1; lra.
Qed.

(** * Symbolic waypoints: a zero waypoint *)
Lemma c21_refuted : exists pData T x cv ws, well_posed pData [T] /\
  com_curve pData T x = Ok cv /\ computeConstantWaypointsSymbolic pData T = Ok ws /\
  hd vzero (bc_pts cv) = c0 pData /\ hd vzero (map (fun w => ev_sym w x) ws) = x /\ x <> c0 pData.
Proof.
  set (pb := Problem [un_c] vzero (V3 1 0 0) vzero vzero (V3 1 0 0) vzero vzero vzero vzero false
    (Constraints F_c1 true 1 0) ACCELERATION DOUBLE_DESCRIPTION).
  exists pb, 1, (V3 2 0 0), (BCurve [vzero; V3 (1/3) 0 0; V3 2 0 0; V3 1 0 0] 1). 
  assert (C : com_curve pb 1 (V3 2 0 0) = Ok (BCurve [vzero; V3 (1/3) 0 0; V3 2 0 0; V3 1 0 0] 1)).
  { cbv [com_curve]. cbn. unfold mk_bezier. destruct (Rle_dec 1 0); [lra|]. repeat f_equal; apply v3_eq; cbn; field. }
  assert (HF : In (flag_of pb) com_flags) by (cbn; tauto).
  destruct (c21_ok _ _ _ _ HF C) as (ws & E & _). exists ws. split.
  { split; [exact HF|]. split; [reflexivity|]. split; [discriminate|].
    split; [repeat constructor; lra|]. split; [reflexivity|].
    repeat constructor; eexists; (split; [reflexivity|]; split; [cbn; lra|]; split; [|cbn; lia]); constructor. }
  split; [exact C|]. split; [exact E|]. split; [reflexivity|].
  split; [|cbn; intros X; injection X; lra].
  unfold computeConstantWaypointsSymbolic in E. cbn in E. injection E as <-. cbn [map hd c0].
  rewrite isZero_vzero. cbn. apply v3_eq; cbn; unfold vdot; cbn; ring.
Qed.

(** * A last phase shorter than the margin *)
Lemma loop_extracts pData useDD c ddc w : forall Ts cs s s', cont_loop pData useDD c ddc w Ts cs s = Ok s' ->
  forall i d, nth_error Ts i = Some d -> exists p, ex_c c (cs_t s + phase_start Ts i) (d + (cs_t s + phase_start Ts i)) = Ok p.
Proof.
  induction Ts as [|d0 Ts IH]; intros cs s s' H i d Hd; [destruct i; discriminate|]. cbn [cont_loop] in H.
  destruct (ex_c c (cs_t s) (d0 + cs_t s)) as [pc| |] eqn:E1; try discriminate. cbn [bind] in H.
  destruct (ex_c ddc _ _) as [pa| |]; try discriminate. cbn [bind] in H.
  destruct (ex_w w _ _) as [pw| |]; try discriminate. cbn [bind] in H.
  destruct cs as [|ph cs]; [discriminate|].
  destruct (cont_kin ph (nd_pts pc) (cs_rows s)) as [st| |]; try discriminate. cbn [bind] in H.
  match goal with H : (r <- ?m ;; _) = _ |- _ => destruct m as [[[st1 f] cS]| |]; try discriminate H end. cbn [bind] in H.
  match goal with H : (r <- ?m ;; _) = _ |- _ => destruct m as [st2| |]; try discriminate H end. cbn [bind] in H.
  destruct i as [|i].
  - injection Hd as <-. exists pc. unfold phase_start; cbn. rewrite Rplus_0_r. exact E1.
  - destruct (IH _ _ _ H i d Hd) as [p Ep]. cbn [cs_t] in Ep. exists p. unfold phase_start in *. cbn [firstn total].
    rewrite <- Rplus_assoc. exact Ep.
Qed.
Lemma c17_short scaled pData Ts d : well_posed pData (Ts ++ [d]) -> 1 / 1000 <= total Ts -> d < 1 / 1000 ->
  forall out, computeConstraintsContinuous scaled pData (Ts ++ [d]) <> Ok out.
Proof.
  intros WP H1 H2 out H. unfold computeConstraintsContinuous in H.
  destruct (cont_raw scaled pData (Ts ++ [d])) as [r| |] eqn:E; try discriminate. clear H.
  unfold cont_raw in E. rewrite total_sumR in E.
  assert (TT : total (Ts ++ [d]) = total Ts + d) by (clear; induction Ts as [|a Ts IH]; cbn; [ring|rewrite IH; ring]).
  assert (Hd : 0 < d).
  { destruct WP as (_ & _ & _ & HP & _). rewrite Forall_app in HP. destruct HP as [_ HP]. inversion HP; assumption. }
  repeat match type of E with (x <- ?m ;; _) = _ => destruct m as [?| |] eqn:?; try discriminate E; cbn [bind] in E end.
  repeat match type of E with (if ?b then _ else _) = _ => destruct b; try discriminate E end.
  match type of E with (s <- cont_loop _ _ ?c ?dd ?w _ _ ?s0 ;; _) = _ =>
    destruct (cont_loop pData (Z.eqb (representation pData) DOUBLE_DESCRIPTION) c dd w (Ts ++ [d]) (contacts pData) s0) as [s'| |] eqn:El; try discriminate E end.
  pose proof (loop_extracts _ _ _ _ _ _ _ _ _ El (length Ts) d) as X.
  rewrite nth_error_app2, Nat.sub_diag in X by lia. specialize (X eq_refl). destruct X as [p Ep]. cbn [cs_t] in Ep.
  unfold phase_start in Ep. rewrite firstn_app, Nat.sub_diag, firstn_all in Ep. cbn [firstn] in Ep. rewrite app_nil_r, Rplus_0_l in Ep.
  match goal with H : nd_make aff _ 0 _ 1 = Ok ?c |- _ => apply nd_make_inv in H; destruct H as (Hc & _ & _) end.
  unfold ex_c, nd_extract in Ep. rewrite Hc in Ep. cbn [nd_min nd_max] in Ep. rewrite TT in Ep.
  destruct (Rlt_dec (total Ts) 0); [lra|]. destruct (Rlt_dec (total Ts + d) (total Ts)); [lra|].
  destruct (Rlt_dec (d + total Ts) 0); [lra|]. destruct (Rlt_dec (total Ts + d) (d + total Ts)); [lra|].
  assert (C1 : close (total Ts) 0 = false).
  { unfold close, MARGIN. destruct (Rlt_dec _ _) as [L|]; [|reflexivity]. rewrite Rabs_right in L; lra. }
  rewrite C1 in Ep. unfold nd_split in Ep. cbn [nd_min nd_max] in Ep.
  assert (C2 : close (total Ts) (total Ts + d) = true).
  { apply close_spec. unfold MARGIN. rewrite Rabs_left; lra. }
  rewrite C2 in Ep. discriminate.
Qed.

(** * Pieces *)
Lemma bern_weights P s : P <> [] -> 0 <= s <= 1 -> convex_comb P (bez3 P s).
Proof.
  intros HP Hs. set (n := pred (length P)). exists (map (fun i => bern n i s) (seq 0 (S n))).
  assert (HL : length P = S n) by (unfold n; destruct P; [congruence|reflexivity]).
  assert (SF : forall m (f : nat -> R) a, fold_right Rplus 0 (map f (seq a m)) = sumf m (fun i => f (a + i)%nat)).
  { induction m as [|m IH]; intros f a; [reflexivity|]. rewrite seq_S, map_app, fold_right_app. cbn [map fold_right sumf].
    rewrite <- IH. generalize (map f (seq a m)). intros l. rewrite Rplus_0_r. induction l as [|x l IHl]; cbn; [ring|]. rewrite IHl. ring. }
  split; [rewrite map_length, seq_length; auto|]. split.
  { rewrite Forall_map. apply Forall_forall. intros i _. apply bern_nonneg, Hs. }
  split.
  { rewrite SF. apply (bern_sum n s). }
  assert (Comp : forall (f : vec3 -> R), (forall a b, f (vadd a b) = f a + f b) -> (forall k a, f (vscal k a) = k * f a) -> f vzero = 0 ->
    f (fold_right vadd vzero (map (fun wp => vscal (fst wp) (snd wp)) (combine (map (fun i => bern n i s) (seq 0 (S n))) P))) = bezl (map f P) s).
  { intros f Fa Fs F0. unfold bezl. rewrite map_length. fold n. unfold bez. 
    rewrite <- (Nat.add_0_l 0) at 1.
    assert (G : forall Q a, length Q = (S n - a)%nat -> (forall i, (i < length Q)%nat -> nth i Q vzero = nth (a + i) P vzero) -> (a <= S n)%nat ->
      f (fold_right vadd vzero (map (fun wp => vscal (fst wp) (snd wp)) (combine (map (fun i => bern n i s) (seq a (S n - a))) Q))) =
      fold_right Rplus 0 (map (fun i => bern n i s * nth i (map f P) 0) (seq a (S n - a)))).
    { induction Q as [|q Q IH]; intros a LQ HQ Ha.
      - cbn [length] in LQ. replace (S n - a)%nat with 0%nat by lia. cbn [seq map combine fold_right]. exact F0.
      - cbn [length] in LQ. replace (S n - a)%nat with (S (S n - S a)) by lia. cbn [seq map combine fold_right fst snd].
        rewrite Fa, Fs. rewrite IH; [|lia| |lia].
        + f_equal. f_equal. specialize (HQ 0%nat ltac:(cbn; lia)). cbn in HQ. rewrite Nat.add_0_r in HQ.
          rewrite (nth_indep _ 0 (f vzero)) by (rewrite map_length; lia). rewrite map_nth, <- HQ. reflexivity.
        + intros i Hi. specialize (HQ (S i) ltac:(cbn; lia)). cbn [nth] in HQ. rewrite HQ. f_equal. lia. }
    specialize (G P 0%nat ltac:(lia) ltac:(intros; reflexivity) ltac:(lia)). rewrite Nat.sub_0_r in G. cbn [Nat.add]. rewrite G.
    rewrite SF. reflexivity. }
  unfold bez3. apply v3_eq; cbn [vx vy vz]; symmetry; apply (Comp vx) || apply (Comp vy) || apply (Comp vz); intros; cbn; try reflexivity; ring.
Qed.

Lemma lin_vec u : linear vec3 vadd vscal (vdot u).
Proof. split; intros; unfold vdot, vadd, vscal; cbn; ring. Qed.

Lemma c50_plain (cv : ndc vec3) t1 t2 : nd_pts cv <> [] -> nd_min cv <= t1 -> t1 < t2 -> t2 <= nd_max cv ->
  (t1 - nd_min cv < 1 / 1000 \/ 1 / 1000 <= nd_max cv - t1) ->
  exists cv', nd_extract vec3 vadd vscal cv t1 t2 = Ok cv' /\
    length (nd_pts cv') = length (nd_pts cv) /\ nd_mult cv' = nd_mult cv /\ nd_min cv' <= t1 /\ t2 <= nd_max cv' /\
    (t1 = nd_min cv \/ 1 / 1000 <= t1 - nd_min cv -> nd_min cv' = t1) /\
    (t2 = nd_max cv \/ 1 / 1000 <= nd_max cv - t2 -> nd_max cv' = t2) /\
    forall t, curve (nd_pts cv') (nd_max cv' - nd_min cv') (t - nd_min cv') = curve (nd_pts cv) (nd_max cv - nd_min cv) (t - nd_min cv) /\
      (t1 <= t <= t2 -> convex_comb (nd_pts cv') (curve (nd_pts cv) (nd_max cv - nd_min cv) (t - nd_min cv))).
Proof.
  intros Hne H1 H2 H3 H4. assert (Hok : nd_ok vec3 cv) by (split; [exact Hne|lra]).
  destruct (extract_total vec3 vadd vscal cv t1 t2 Hok H1 H2 H3 H4) as [cv' E]. exists cv'. split; [exact E|].
  destruct (extract_ok _ _ _ _ _ _ _ Hok E) as ((Hok' & L & Mu & A1 & A2 & V) & B1 & B2 & B3 & B4).
  split; [exact L|]. split; [exact Mu|]. split; [exact B1|]. split; [exact B2|]. split; [exact B3|]. split; [exact B4|].
  assert (Ev : forall t, curve (nd_pts cv') (nd_max cv' - nd_min cv') (t - nd_min cv') = curve (nd_pts cv) (nd_max cv - nd_min cv) (t - nd_min cv)).
  { intros t. apply v3_ext. intros u. unfold curve. rewrite !vdot_bez3. exact (V (vdot u) t (lin_vec u)). }
  intros t. split; [apply Ev|]. intros Ht. rewrite <- Ev. apply bern_weights; [apply Hok'|]. apply u_range; [exact Hok'|lra].
Qed.
Lemma c50_affine (cv : ndc aff) t1 t2 : nd_pts cv <> [] -> nd_min cv <= t1 -> t1 < t2 -> t2 <= nd_max cv ->
  (t1 - nd_min cv < 1 / 1000 \/ 1 / 1000 <= nd_max cv - t1) ->
  exists cv', nd_extract aff aff_add aff_scal cv t1 t2 = Ok cv' /\
    length (nd_pts cv') = length (nd_pts cv) /\ nd_mult cv' = nd_mult cv /\ nd_min cv' <= t1 /\ t2 <= nd_max cv' /\
    (t1 = nd_min cv \/ 1 / 1000 <= t1 - nd_min cv -> nd_min cv' = t1) /\
    (t2 = nd_max cv \/ 1 / 1000 <= nd_max cv - t2 -> nd_max cv' = t2) /\
    forall x t, let at_x P := map (fun p => ev_aff p x) P in
      curve (at_x (nd_pts cv')) (nd_max cv' - nd_min cv') (t - nd_min cv') = curve (at_x (nd_pts cv)) (nd_max cv - nd_min cv) (t - nd_min cv) /\
      (t1 <= t <= t2 -> convex_comb (at_x (nd_pts cv')) (curve (at_x (nd_pts cv)) (nd_max cv - nd_min cv) (t - nd_min cv))).
Proof.
  intros Hne H1 H2 H3 H4. assert (Hok : nd_ok aff cv) by (split; [exact Hne|lra]).
  destruct (extract_total aff aff_add aff_scal cv t1 t2 Hok H1 H2 H3 H4) as [cv' E]. exists cv'. split; [exact E|].
  destruct (extract_ok _ _ _ _ _ _ _ Hok E) as ((Hok' & L & Mu & A1 & A2 & V) & B1 & B2 & B3 & B4).
  split; [exact L|]. split; [exact Mu|]. split; [exact B1|]. split; [exact B2|]. split; [exact B3|]. split; [exact B4|].
  intros x.
  assert (Ev : forall t, curve (map (fun p => ev_aff p x) (nd_pts cv')) (nd_max cv' - nd_min cv') (t - nd_min cv') = curve (map (fun p => ev_aff p x) (nd_pts cv)) (nd_max cv - nd_min cv) (t - nd_min cv)).
  { intros t. apply v3_ext. intros u. unfold curve. rewrite !vdot_bez3, !map_map. exact (V (fun p => vdot u (ev_aff p x)) t (lin_aff u x)). }
  intros t. cbv zeta. split; [apply Ev|]. intros Ht. rewrite <- Ev. apply bern_weights.
  - destruct Hok' as [Hn _]. destruct (nd_pts cv'); [congruence|discriminate].
  - apply u_range; [exact Hok'|lra].
Qed.
