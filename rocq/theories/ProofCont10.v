(** Continuous formulation: uniqueness of control points, counterexamples. *)
From Verif Require Import Vec SpecBezier SpecTime ModelData ModelDispatch ModelUtils ModelRows ModelCom ModelNd ModelCont
  SpecCom SpecWp SpecCtr SpecCont ProofBezier ProofCurve ProofWaypoints ProofWaypoints2 ProofTime ProofTime2 ProofEmit ProofCom ProofCom2 ProofCom3 ProofNd
  ProofWaypointsErr ProofCont ProofCont2 ProofCont3 ProofCont4 ProofCont5 ProofCont6 ProofCont7 ProofCont8 ProofCont9.
Open Scope R_scope.

Lemma map_dot6_inj : forall P Q, (forall u, map (dot6 u) P = map (dot6 u) Q) -> P = Q.
Proof.
  induction P as [|p P IH]; intros [|q Q] H; try reflexivity; try (specialize (H (vzero, vzero)); discriminate).
  f_equal.
  - apply v6_ext. intros u. specialize (H u). injection H; auto.
  - apply IH. intros u. specialize (H u). injection H; auto.
Qed.
Lemma map_vdot_inj : forall P Q, (forall u, map (vdot u) P = map (vdot u) Q) -> P = Q.
Proof.
  induction P as [|p P IH]; intros [|q Q] H; try reflexivity; try (specialize (H vzero); discriminate).
  f_equal.
  - apply v3_ext. intros u. specialize (H u). injection H; auto.
  - apply IH. intros u. specialize (H u). injection H; auto.
Qed.
Lemma curve6_uniq P Q a b : a < b -> length P = length Q -> (forall t, curve6 P (b - a) (t - a) = curve6 Q (b - a) (t - a)) -> P = Q.
Proof.
  intros Hab HL H. apply map_dot6_inj. intros u. apply (bezl_uniq (length P)); rewrite ?map_length; auto.
  intros s. specialize (H (a + s * (b - a))). apply (f_equal (dot6 u)) in H. rewrite !dot6_curve6 in H.
  replace ((a + s * (b - a) - a) / (b - a)) with s in H by (field; lra). exact H.
Qed.
Lemma curve_uniq P Q a b : a < b -> length P = length Q -> (forall t, curve P (b - a) (t - a) = curve Q (b - a) (t - a)) -> P = Q.
Proof.
  intros Hab HL H. apply map_vdot_inj. intros u. apply (bezl_uniq (length P)); rewrite ?map_length; auto.
  intros s. specialize (H (a + s * (b - a))). apply (f_equal (vdot u)) in H. unfold curve in H. rewrite !vdot_bez3 in H.
  replace ((a + s * (b - a) - a) / (b - a)) with s in H by (field; lra). exact H.
Qed.
Lemma ctrl_pos_uniq P Q a b f : a < b -> length P = length Q -> ctrl_pos P a b f -> ctrl_pos Q a b f -> P = Q.
Proof. intros Hab HL HP HQ. apply (curve_uniq P Q a b); auto. intros t. rewrite <- HP, <- HQ. reflexivity. Qed.
Lemma ctrl_acc_uniq P Q a b cv : a < b -> length P = length Q -> ctrl_acc P a b (cv_fun cv) -> ctrl_acc Q a b (cv_fun cv) -> P = Q.
Proof.
  intros Hab HL HP HQ. apply (curve_uniq P Q a b); auto. intros t. destruct (com_acc cv t) as [acc Ha].
  rewrite <- (HP t acc Ha), <- (HQ t acc Ha). reflexivity.
Qed.
Lemma ctrl_giw_uniq P Q a b ph cv : a < b -> length P = length Q -> ctrl_giw P a b ph (cv_fun cv) -> ctrl_giw Q a b ph (cv_fun cv) -> P = Q.
Proof.
  intros Hab HL HP HQ. apply (curve6_uniq P Q a b); auto. intros t. destruct (com_acc cv t) as [acc Ha].
  rewrite <- (HP t acc Ha), <- (HQ t acc Ha). reflexivity.
Qed.

(** * Force formulation without nested cones *)
Definition wf_g : vec3 := V3 0 0 (-10).
Definition wf_G0 : list v6 := [(V3 1 0 0, vzero); (V3 2 0 0, vzero); (V3 0 0 (-1), vzero); (vzero, V3 0 1 0); (vzero, V3 0 (-1) 0)].
Definition wf_G1 : list v6 := [(V3 1 0 0, vzero); (V3 (-1) 0 0, vzero); (V3 0 0 (-1), vzero); (vzero, V3 0 1 0); (vzero, V3 0 (-1) 0)].
Definition wf_c (G : list v6) : contact := Contact (Some (CPhase [] 1 wf_g G)) [V3 1 0 0] [5] [] [].
Definition wf_pb : problem :=
  Problem [wf_c wf_G0; wf_c wf_G1] (V3 1 0 0) vzero vzero vzero (V3 (-1) 0 0) vzero vzero vzero vzero false
    (Constraints F_c1 true 40 0) ACCELERATION FORCE.
Definition wf_x : vec3 := V3 (-7/3) 0 0.
Definition wf_cv : bcurve := BCurve [V3 1 0 0; V3 1 0 0; wf_x; V3 (-1) 0 0] 2.

Lemma wf_wp : well_posed wf_pb [1; 1].
Proof.
  split; [cbn; tauto|]. split; [reflexivity|]. split; [discriminate|].
  split; [repeat constructor; lra|]. split; [reflexivity|].
  repeat constructor; eexists; (split; [reflexivity|]; split; [cbn; lra|]; split; [|cbn; lia]); constructor.
Qed.
Lemma wf_long : long_phases [1; 1].
Proof. unfold long_phases. repeat (constructor; [lra|]). constructor. Qed.
Lemma wf_same : same_gravity wf_pb wf_g.
Proof. intros c ph [<-|[<-|[]]] H; injection H as <-; reflexivity. Qed.
Lemma wf_total : total [1; 1] = 2.
Proof. cbn; ring. Qed.
Lemma wf_curve : com_curve wf_pb (total [1; 1]) wf_x = Ok wf_cv.
Proof.
  rewrite wf_total. cbv [com_curve]. cbn. unfold mk_bezier. destruct (Rle_dec 2 0); [lra|].
  unfold wf_cv. repeat f_equal; apply v3_eq; cbn; field.
Qed.
Lemma wf_acc t acc : is_deriv_n 2 (cv_fun wf_cv) t acc -> acc = V3 (-5 + 6 * t) 0 0.
Proof.
  intros H. pose proof (curve_is_deriv_n 2 (bc_pts wf_cv) 2 t) as Hd.
  rewrite (is_deriv_n_unique 2 _ _ t _ _ (fun _ => eq_refl) H Hd).
  cbn [bc_pts wf_cv wf_x]. apply v3_eq; cbv [wf_x hodo_n hodo vdiffs length pred map curve bez3 bezl bez sumf bern binom nth vx vy vz vscal vsub Nat.add Nat.sub INR pow]; field.
Qed.
Lemma wf_pos t : cv_fun wf_cv t = V3 (1 - 5 / 2 * (t * t) + t * t * t) 0 0.
Proof. apply v3_eq; cbv [cv_fun bc_pts bc_T wf_cv wf_x length pred map curve bez3 bezl bez sumf bern binom nth vx vy vz Nat.add Nat.sub INR pow]; field. Qed.

Definition wf_w (a m : R) : v6 := (V3 a 0 (-10), V3 0 m 0).
Definition wf_Pw (i : nat) : list v6 :=
  match i with
  | O => [wf_w 5 10; wf_w 3 10; wf_w 1 (10/6); wf_w (-1) (-5)]
  | _ => [wf_w (-1) (-5); wf_w (-3) (-70/6); wf_w (-5) (-50/3); wf_w (-7) (-10)]
  end.
Definition wf_Pa (i : nat) : list vec3 := match i with O => [V3 (-5) 0 0; V3 1 0 0] | _ => [V3 1 0 0; V3 7 0 0] end.
Definition wf_Pc (i : nat) : list vec3 :=
  match i with
  | O => [V3 1 0 0; V3 1 0 0; V3 (1/6) 0 0; V3 (-1/2) 0 0]
  | _ => [V3 (-1/2) 0 0; V3 (-7/6) 0 0; V3 (-5/3) 0 0; V3 (-1) 0 0]
  end.

Ltac curve_calc := cbv [curve6 length pred map curve bez3 bezl bez sumf bern binom nth vx vy vz fst snd Nat.add Nat.sub INR pow]; field.

Lemma wf_ctrl_w i : (i < 2)%nat -> forall G, ctrl_giw (wf_Pw i) (phase_start [1; 1] i) (phase_end [1; 1] i) (CPhase [] 1 wf_g G) (cv_fun wf_cv).
Proof.
  intros Hi G t acc Ha. rewrite (wf_acc t acc Ha), wf_pos. destruct i as [|[|i]]; [| |lia];
    unfold phase_start, phase_end; cbn [firstn total wf_Pw]; unfold giw, wf_w, wf_g, curve6; cbn [cp_mass cp_gravity];
    f_equal; apply v3_eq; unfold vscal, vsub, vcross; cbn [vx vy vz]; curve_calc.
Qed.
Lemma wf_ctrl_a i : (i < 2)%nat -> ctrl_acc (wf_Pa i) (phase_start [1; 1] i) (phase_end [1; 1] i) (cv_fun wf_cv).
Proof.
  intros Hi t acc Ha. rewrite (wf_acc t acc Ha). destruct i as [|[|i]]; [| |lia];
    unfold phase_start, phase_end; cbn [firstn total wf_Pa]; apply v3_eq; cbn [vx vy vz]; curve_calc.
Qed.
Lemma wf_ctrl_c i : (i < 2)%nat -> ctrl_pos (wf_Pc i) (phase_start [1; 1] i) (phase_end [1; 1] i) (cv_fun wf_cv).
Proof.
  intros Hi t. rewrite wf_pos. destruct i as [|[|i]]; [| |lia];
    unfold phase_start, phase_end; cbn [firstn total wf_Pc]; apply v3_eq; cbn [vx vy vz]; curve_calc.
Qed.
Lemma isZero_small v : vec_isZero v = true -> Rabs (vx v) <= isZero_prec.
Proof.
  unfold vec_isZero, coeff_isZero. intros H. destruct (Rle_dec (Rabs (vx v)) isZero_prec); [assumption|]. cbn in H. discriminate.
Qed.
Lemma wf_nz : no_zero_point wf_cv wf_x.
Proof.
  intros p Hp Hz. apply isZero_small in Hz. unfold isZero_prec in Hz. apply Rabs_le_inv in Hz.
  destruct Hp as [<-|[<-|[<-|[<-|[]]]]]; cbn in Hz; lra.
Qed.
Lemma wf_cone0 a m : 0 <= a -> in_cone wf_G0 (wf_w a m).
Proof.
  intros Ha. exists [a; 0; 10; Rmax m 0; Rmax (- m) 0]. split; [reflexivity|]. split.
  - repeat (constructor; [first [lra|apply Rmax_r]|]); constructor.
  - unfold wf_G0, wf_w; cbn. unfold v6add, vadd, vscal; cbn. f_equal; f_equal; try ring.
    destruct (Rle_dec 0 m); [rewrite (Rmax_left m 0), (Rmax_right (- m) 0) by lra|rewrite (Rmax_right m 0), (Rmax_left (- m) 0) by lra]; ring.
Qed.
Lemma wf_cone1 a m : in_cone wf_G1 (wf_w a m).
Proof.
  exists [Rmax a 0; Rmax (- a) 0; 10; Rmax m 0; Rmax (- m) 0]. split; [reflexivity|]. split.
  - repeat (constructor; [first [lra|apply Rmax_r]|]); constructor.
  - unfold wf_G1, wf_w; cbn. unfold v6add, vadd, vscal; cbn. f_equal; f_equal; try ring.
    + destruct (Rle_dec 0 a); [rewrite (Rmax_left a 0), (Rmax_right (- a) 0) by lra|rewrite (Rmax_right a 0), (Rmax_left (- a) 0) by lra]; ring.
    + destruct (Rle_dec 0 m); [rewrite (Rmax_left m 0), (Rmax_right (- m) 0) by lra|rewrite (Rmax_right m 0), (Rmax_left (- m) 0) by lra]; ring.
Qed.
Lemma wf_not_cone0 a m : a < 0 -> ~ in_cone wf_G0 (wf_w a m).
Proof.
  intros Ha (b & L & Hb & E). destruct b as [|b0 [|b1 [|b2 [|b3 [|b4 [|]]]]]]; try discriminate.
  apply (f_equal (fun w : v6 => vx (fst w))) in E. cbn in E. inversion Hb as [|? ? B0 Hb']; subst. inversion Hb' as [|? ? B1 _]; subst. lra.
Qed.

Lemma phase_lt i : (i < 2)%nat -> phase_start [1; 1] i < phase_end [1; 1] i.
Proof. intros H. destruct i as [|[|i]]; unfold phase_start, phase_end; cbn; try lra. lia. Qed.
Lemma acc_flag_false_dd : FORCE <> DOUBLE_DESCRIPTION. Proof. discriminate. Qed.

Lemma c18_refuted scaled : exists pData Ts g out x cv beta i c ph t acc,
  well_posed pData Ts /\ long_phases Ts /\ same_gravity pData g /\ In (flag_of pData) exact_w_flags /\
  representation pData = FORCE /\
  computeConstraintsContinuous scaled pData Ts = Ok out /\ com_curve pData (total Ts) x = Ok cv /\ no_zero_point cv x /\
  satX (co_A out) (l3 x ++ beta) /\ geX (co_min out) (l3 x ++ beta) /\ eqX (co_D out) (l3 x ++ beta) /\
  nth_error (contacts pData) i = Some c /\ cd_phase c = Some ph /\ in_phase Ts i t /\ is_deriv_n 2 (cv_fun cv) t acc /\
  ~ in_cone (cp_G ph) (giw (cp_mass ph) (cp_gravity ph) (cv_fun cv t) acc).
Proof.
  assert (HF : In (flag_of wf_pb) exact_w_flags) by (cbn; tauto).
  assert (ND : representation wf_pb <> DOUBLE_DESCRIPTION) by discriminate.
  destruct (c18_exact scaled wf_pb [1; 1] wf_wp ND wf_g wf_long wf_same HF) as (out & ws & Eout & Ews & H18).
  destruct (c17_exact scaled wf_pb [1; 1] wf_wp wf_g wf_long wf_same HF) as (out' & ws' & Eout' & _ & H17).
  rewrite Eout in Eout'. injection Eout' as <-.
  assert (Lw : length ws = 4%nat) by (cbn in Ews; injection Ews as <-; reflexivity). clear Ews.
  destruct (H18 wf_x wf_cv wf_curve) as (Pw & Hw & HD).
  destruct (H17 wf_x wf_cv wf_curve wf_nz) as (Pc & Pa & Pw' & Hc & HA).
  assert (Cs : forall i c ph, nth_error (contacts wf_pb) i = Some c -> cd_phase c = Some ph ->
     (i < 2)%nat /\ exists G, c = wf_c G /\ ph = CPhase [] 1 wf_g G /\ G = match i with O => wf_G0 | _ => wf_G1 end).
  { intros i c ph H1 H2. destruct i as [|[|i]]; cbn in H1.
    - injection H1 as <-. injection H2 as <-. split; [lia|]. eexists; auto.
    - injection H1 as <-. injection H2 as <-. split; [lia|]. eexists; auto.
    - destruct i; discriminate. }
  assert (Hbeta : exists beta, geX (co_min out) (l3 wf_x ++ beta) /\ eqX (co_D out) (l3 wf_x ++ beta)).
  { apply HD. split; [cbn; lra|]. intros i c ph j q Hci Hph Hj NP NN.
    destruct (Cs i c ph Hci Hph) as (Hi & G & -> & -> & EG). destruct (Hw i _ _ Hci Hph) as [L Hct].
    assert (EP : Pw i = wf_Pw i).
    { eapply ctrl_giw_uniq; [apply (phase_lt i Hi)| |exact Hct|apply wf_ctrl_w, Hi]. rewrite L, Lw. destruct i; reflexivity. }
    rewrite EP in Hj. cbn [cp_G]. destruct i as [|[|i]]; [| |lia]; subst G.
    - rewrite Lw in NN. destruct j as [|[|[|[|j]]]]; cbn in Hj; try (injection Hj as <-; apply wf_cone0; lra).
      + exfalso. apply (NN eq_refl). exists (wf_c wf_G0), (wf_c wf_G1). auto.
      + destruct j; discriminate.
    - destruct j as [|[|[|[|j]]]]; cbn in Hj; try (injection Hj as <-; apply wf_cone1). destruct j; discriminate. }
  destruct Hbeta as (beta & Hg & He).
  exists wf_pb, [1; 1], wf_g, out, wf_x, wf_cv, beta, 0%nat, (wf_c wf_G0), (CPhase [] 1 wf_g wf_G0), 1, (V3 1 0 0).
  split; [exact wf_wp|]. split; [exact wf_long|]. split; [exact wf_same|]. split; [exact HF|]. split; [reflexivity|].
  split; [exact Eout|]. split; [exact wf_curve|]. split; [exact wf_nz|]. split.
  { apply HA. intros i c ph Hci Hph. destruct (Cs i c ph Hci Hph) as (Hi & G & -> & -> & EG).
    destruct (Hc i _ _ Hci Hph) as ((L1 & C1) & (L2 & C2) & _).
    assert (E1 : Pc i = wf_Pc i).
    { eapply ctrl_pos_uniq; [apply (phase_lt i Hi)| |exact C1|apply wf_ctrl_c, Hi]. rewrite L1. destruct i; reflexivity. }
    assert (E2 : Pa i = wf_Pa i).
    { eapply ctrl_acc_uniq; [apply (phase_lt i Hi)| |exact C2|apply wf_ctrl_a, Hi]. rewrite L2. destruct i; reflexivity. }
    rewrite E1, E2. split; [|split].
    - assert (K : forall v, vx v <= 5 -> kin_ok (wf_c G) v).
      { intros v Hv j K k HK Hk. destruct j as [|j]; [|destruct j; discriminate]. cbn in HK, Hk. injection HK as <-. injection Hk as <-. unfold vdot; cbn. lra. }
      destruct i as [|i]; repeat (constructor; [apply K; cbn; lra|]); constructor.
    - assert (B : 10 <= acc_bound scaled wf_pb [1; 1]) by (unfold acc_bound; rewrite wf_total; destruct scaled; cbn; lra).
      assert (W : forall a, Rabs a <= 10 -> within (acc_bound scaled wf_pb [1; 1]) (V3 a 0 0)).
      { intros a Ha. unfold within; cbn. rewrite Rabs_R0. lra. }
      destruct i as [|i]; repeat (constructor; [apply W, Rabs_le; lra|]); constructor.
    - intros X. discriminate X. }
  split; [exact Hg|]. split; [exact He|]. split; [reflexivity|]. split; [reflexivity|].
  assert (Ha : is_deriv_n 2 (cv_fun wf_cv) 1 (V3 1 0 0)).
  { destruct (com_acc wf_cv 1) as [acc Ha]. pose proof (wf_acc 1 acc Ha) as E. replace (V3 1 0 0) with acc; [exact Ha|].
    rewrite E. apply v3_eq; cbn; ring. }
  split; [split; [cbn; lia|unfold phase_start, phase_end; cbn; lra]|]. split; [exact Ha|].
  rewrite (wf_ctrl_w 0 ltac:(lia) wf_G0 1 _ Ha). cbn [cp_G].
  replace (curve6 (wf_Pw 0) (phase_end [1; 1] 0 - phase_start [1; 1] 0) (1 - phase_start [1; 1] 0)) with (wf_w (-1) (-5)); [apply wf_not_cone0; lra|].
  unfold phase_start, phase_end; cbn [firstn total wf_Pw]. unfold wf_w, curve6. f_equal; apply v3_eq; cbn [vx vy vz]; curve_calc.
Qed.
