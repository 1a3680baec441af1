(** The cheapest force plans are found (C74). *)
From Coq Require Import Lia Lra Psatz.
From Verif Require Import Vec SpecBezier SpecTime ModelData ModelWaypoints ModelDispatch ModelUtils ModelRows ModelCom ModelNd ModelCont ModelSolver ModelTraj ModelQp
  SpecCom SpecWp SpecCtr SpecCont SpecSolver SpecTraj SpecEnd SpecEnd2 SpecEnd3 SpecForce SpecForce2 ProofBezier ProofCurve ProofWaypoints ProofWaypoints2 ProofWaypointsErr ProofTime ProofTime2
  ProofRows ProofEmit ProofCom ProofCom2 ProofCom3 ProofNd ProofCont ProofCont2 ProofCont3 ProofCont4 ProofCont5 ProofCont6 ProofCont7 ProofCont8 ProofCont9
  ProofSolver ProofTraj ProofTraj2 ProofTraj3 ProofQp3 ProofQp14 ProofEnd ProofEnd2 ProofEnd3 ProofEnd4 ProofEnd5 ProofEnd6 ProofForce ProofForce2 ProofForce3 ProofForce4 ProofForce5 ProofCont10.
Import ListNotations.
Open Scope R_scope.

(** * The control points with forces *)
Lemma seq_pts {A} : forall (l : list A) a n, (a + n <= length l)%nat ->
  Forall2 (fun j w => nth_error l j = Some w) (seq a n) (firstn n (skipn a l)).
Proof.
  intros l a n. revert l a. induction n as [|n IH]; intros l a H; [constructor|]. cbn [seq].
  destruct (nth_error l a) as [w|] eqn:E; [|apply nth_error_None in E; lia].
  assert (ES : skipn a l = w :: skipn (S a) l).
  { clear - E. revert a E. induction l as [|b l IH]; intros [|a] E; try discriminate; cbn in *; [congruence|apply IH, E]. }
  rewrite ES. cbn [firstn]. constructor; [exact E|]. apply IH. lia.
Qed.
Lemma kept_firstn df dl ws : (2 <= length ws)%nat -> kept df dl ws =
  firstn (length ws - (if df then 1 else 0) - (if dl then 1 else 0)) (skipn (if df then 1 else 0) ws).
Proof.
  intros H. unfold kept. assert (RF : forall l : list wp6, removelast l = firstn (length l - 1) l) by (intros l; rewrite removelast_firstn_len; f_equal; lia).
  destruct df, dl; rewrite ?RF; destruct ws as [|a ws]; try (cbn in H; lia); cbn [length skipn tl Nat.sub].
  - destruct ws as [|b ws]; [cbn in H; lia|]. cbn [length Nat.sub firstn tl]. rewrite ?Nat.sub_0_r. reflexivity.
  - rewrite !Nat.sub_0_r, firstn_all. reflexivity.
  - rewrite ?Nat.sub_0_r. reflexivity.
  - rewrite ?Nat.sub_0_r. rewrite <- firstn_all at 1. reflexivity.
Qed.
Lemma places_items k (P : nat -> nat -> wp6 * cphase -> Prop) : (2 <= k)%nat -> forall cs lw prev i0, Forall contact_wf cs -> length lw = length cs ->
  Forall (fun p => length (nd_pts p) = k) lw ->
  (forall d c pw j w, nth_error cs d = Some c -> nth_error lw d = Some pw -> nth_error (nd_pts pw) j = Some w -> P (i0 + d)%nat j (w, php c)) ->
  Forall2 (fun ij it => P (fst ij) (snd ij) it) (force_places k prev i0 cs) (fitems prev lw cs).
Proof.
  intros Hk. induction cs as [|c cs IH]; intros [|p lw] prev i0 HW HL HF HP; try discriminate; [constructor|].
  inversion HW as [|? ? Hc HW']; inversion HF as [|? ? Hp HF']; subst.
  assert (Gc : forall c, contact_wf c -> gen_count c = ncols c) by (intros d Hd; unfold gen_count, ncols; rewrite (gens_php d Hd); reflexivity).
  cbn [fitems force_places]. apply Forall2_app.
  - assert (E1 : prev_lt prev c = (Nat.ltb 0 prev && Nat.ltb prev (gen_count c))%bool) by (unfold prev_lt; rewrite (Gc c Hc); reflexivity).
    assert (E2 : (if next_le c cs then 1 else 0)%nat = match cs with c2 :: _ => if Nat.leb (gen_count c2) (gen_count c) then 1%nat else 0%nat | [] => 0%nat end).
    { unfold next_le. destruct cs as [|c2 cs']; [reflexivity|]. inversion HW'; subst. rewrite !Gc by assumption. reflexivity. }
    rewrite <- E1, <- E2, kept_firstn by lia.
    set (a := if prev_lt prev c then 1%nat else 0%nat). set (n := (length (nd_pts p) - a - (if next_le c cs then 1 else 0))%nat).
    assert (Hn : (a + n <= length (nd_pts p))%nat) by (unfold n, a; destruct (prev_lt prev c), (next_le c cs); lia).
    pose proof (seq_pts (nd_pts p) a n Hn) as S. clear - S HP. induction S as [|j w l m Hj _ IHS]; cbn [map]; constructor; [|exact IHS].
    cbn [fst snd]. specialize (HP 0%nat c p j w eq_refl eq_refl Hj). rewrite Nat.add_0_r in HP. exact HP.
  - rewrite <- (Gc c Hc). apply IH; [exact HW'|cbn in HL; lia|exact HF'|].
    intros d c' pw j w E1 E2 E3. specialize (HP (S d) c' pw j w E1 E2 E3). replace (S i0 + d)%nat with (i0 + S d)%nat by lia. exact HP.
Qed.

(** * Forces of the items *)
Definition item_forces (x : vec3) (it : wp6 * cphase) (b : list R) : Prop := length b = length (cp_G (snd it)) /\ comb (cp_G (snd it)) b = item_w it x.
Lemma forces_eq x : forall items Bl, Forall2 (item_forces x) items Bl -> forall o b0, length b0 = o ->
  eqX (combine (strips o items) (rhss items)) (l3 x ++ b0 ++ concat Bl) /\ length (concat Bl) = sumcols items.
Proof.
  induction 1 as [|[w ph] b items Bl [Lb Eb] HB IH]; intros o b0 H0; cbn [strips rhss flat_map concat]; [split; [constructor|reflexivity]|].
  cbn [snd] in Lb, Eb. destruct (IH (o + length (cp_G ph))%nat (b0 ++ b)) as [I1 I2]; [rewrite app_length; lia|]. split.
  - rewrite combine_app by reflexivity. unfold eqX. apply Forall_app. split.
    + apply (strip_eq o (sumcols items) w ph x b0 b (concat Bl) H0 Lb). exact Eb.
    + rewrite <- app_assoc in I1. exact I1.
  - rewrite app_length, Lb, I2. reflexivity.
Qed.
Lemma eq_forces x : forall items o b0 b, length b0 = o -> length b = sumcols items ->
  eqX (combine (strips o items) (rhss items)) (l3 x ++ b0 ++ b) -> exists Bl, concat Bl = b /\ Forall2 (item_forces x) items Bl.
Proof.
  induction items as [|[w ph] items IH]; intros o b0 b H0 Hl HE.
  - exists []. split; [|constructor]. destruct b; [reflexivity|discriminate].
  - cbn [strips rhss flat_map] in HE. rewrite combine_app in HE by reflexivity. unfold eqX in HE. apply Forall_app in HE. destruct HE as [E1 E2].
    change (sumcols ((w, ph) :: items)) with (length (cp_G ph) + sumcols items)%nat in Hl.
    assert (La : length (firstn (length (cp_G ph)) b) = length (cp_G ph)) by (rewrite firstn_length; lia).
    rewrite <- (firstn_skipn (length (cp_G ph)) b) in Hl, E1, E2 |- *.
    set (ba := firstn _ b) in *. set (bb := skipn _ b) in *. rewrite app_length in Hl.
    destruct (IH (o + length (cp_G ph))%nat (b0 ++ ba) bb) as (Bl & EB & FB); [rewrite app_length; lia|lia|rewrite <- app_assoc; exact E2|].
    exists (ba :: Bl). split; [cbn; rewrite EB; reflexivity|]. constructor; [|exact FB]. split; [exact La|]. cbn [snd].
    apply (strip_eq o (sumcols items) w ph x b0 ba bb H0 La). exact E1.
Qed.
Lemma concat_sq Bl : rdot (concat Bl) (concat Bl) = force_sq Bl.
Proof.
  unfold force_sq, sum_list. induction Bl as [|b Bl IH]; [reflexivity|]. cbn [concat map fold_right]. rewrite ProofCont3.rdot_app by reflexivity. rewrite IH. f_equal.
  clear. induction b as [|x b IH]; [reflexivity|]. cbn. rewrite IH. reflexivity.
Qed.

Section Best.
  Variables (scaled wg : bool) (mem : qst) (glpk : lp -> outcome (Z * R * list R)).
  Variables (pData : problem) (Ts : list R) (dt : R) (g : vec3) (lam B kap s : R) (ws : list wp6).
  Hypothesis WP : well_posed pData Ts.
  Hypothesis HL : long_phases Ts.
  Hypothesis Hdt : dt <= 0.
  Hypothesis SG : same_gravity pData g.
  Hypothesis NDD : representation pData <> DOUBLE_DESCRIPTION.
  Hypothesis Hf : In (flag_of pData) exact_w_flags.
  Hypothesis Ews : computeWwaypoints pData (total Ts) = Ok ws.
  Hypothesis CW : cost_weight pData Ts (computeDiscretizedTimeFixed Ts 7) lam.
  Hypothesis OS : force_scale pData lam B kap s.
  Hypothesis HA : acc_ctrl_rate scaled Ts <= B.
  Hypothesis WR : wrench_ctrl_rate pData (total Ts) g (length ws) B.
  Let SP := long_split _ HL.

  Section Items.
    Variable lw : list (ndc wp6).
    Hypothesis HT : 0 < total Ts.
    Hypothesis Lws : (2 <= length ws)%nat.
    Hypothesis Llw : length lw = length Ts.
    Hypothesis Plw : forall i p, nth_error lw i = Some p -> is_piece w6_add w6_scal (NDC ws 0 (total Ts) 1) (phase_start Ts i) (phase_end Ts i) p.
    Let items := fitems 0 lw (contacts pData).

    Lemma balances_items x cv Bl : com_curve pData (total Ts) x = Ok cv ->
      (balances pData Ts (length ws) (cv_fun cv) Bl <-> Forall2 (item_forces x) items Bl).
    Proof.
      intros Hcv. pose proof WP as (_ & _ & _ & _ & HLc & HW).
      assert (Len : Forall (fun p => length (nd_pts p) = length ws) lw).
      { apply Forall_forall. intros p Hp. apply In_nth_error in Hp. destruct Hp as [i Hp]. destruct (Plw i p Hp) as ((_ & L & _) & _). exact L. }
      set (P := fun (i j : nat) (it : wp6 * cphase) => forall b,
        (exists c ph Pw w, nth_error (contacts pData) i = Some c /\ cd_phase c = Some ph /\
           length Pw = length ws /\ ctrl_giw Pw (phase_start Ts i) (phase_end Ts i) ph (cv_fun cv) /\
           nth_error Pw j = Some w /\ length b = length (cp_G ph) /\ comb (cp_G ph) b = w) <-> item_forces x it b).
      assert (A : Forall2 (fun ij it => P (fst ij) (snd ij) it) (force_places (length ws) 0 0 (contacts pData)) items).
      { apply places_items; [exact Lws|exact HW|lia|exact Len|]. intros i c p j w Hc Hp Hj. cbn [Nat.add].
        destruct (php_some c (wf_nth pData Ts WP i c Hc)) as [Ep _].
        assert (Hi : (i < length Ts)%nat) by (rewrite <- HLc; apply nth_error_Some; congruence).
        destruct (exact_piece _ _ (NDC ws 0 (total Ts) 1) Ts i p HL Hi eq_refl eq_refl (Plw i p Hp)) as (W1 & W2 & W3).
        set (Pw0 := map (fun q => item_w (q, php c) x) (nd_pts p)).
        assert (C0 : ctrl_giw Pw0 (phase_start Ts i) (phase_end Ts i) (php c) (cv_fun cv)).
        { intros t acc Hacc. rewrite <- W2, <- W3. apply (giw_ctrl pData Ts WP g ws x cv c p t acc HT (wf_nth pData Ts WP i c Hc) SG (nth_error_In _ _ Hc) Hf Hcv Ews W1 Hacc). }
        assert (L0 : length Pw0 = length ws) by (unfold Pw0; rewrite map_length; destruct W1 as (_ & L & _); exact L).
        assert (N0 : nth_error Pw0 j = Some (item_w (w, php c) x)) by (unfold Pw0; rewrite (map_nth_error _ _ _ Hj); reflexivity).
        intros b. unfold item_forces. cbn [snd]. split.
        - intros (c' & ph & Pw & w' & E1 & E2 & E3 & E4 & E5 & E6 & E7). rewrite Hc in E1. injection E1 as <-. rewrite Ep in E2. injection E2 as <-.
          assert (EP : Pw = Pw0).
          { eapply ctrl_giw_uniq; [|rewrite E3, L0; reflexivity|exact E4|exact C0]. pose proof W1 as ((_ & Hm) & _). rewrite <- W2, <- W3. exact Hm. }
          rewrite EP, N0 in E5. injection E5 as <-. auto.
        - intros [E1 E2]. exists c, (php c), Pw0, (item_w (w, php c) x). auto 10. }
      unfold balances. clear - A. revert Bl. induction A as [|ij it l m H A IH]; intros Bl.
      - split; intros X; inversion X; subst; constructor.
      - split; intros X; inversion X; subst; constructor; try (apply H; assumption); apply IH; assumption.
    Qed.
  End Items.

  Lemma c74_best x cv Bl : com_curve pData (total Ts) x = Ok cv -> no_zero_point cv x -> ctrl_moves scaled pData Ts cv ->
    (-100000 <= vx x /\ -100000 <= vy x /\ -100000 <= vz x) ->
    balances pData Ts (length ws) (cv_fun cv) Bl -> no_pull Bl ->
    (forall y cvy By sx sy, com_curve pData (total Ts) y = Ok cvy -> balances pData Ts (length ws) (cv_fun cvy) By ->
       plan_cost pData (computeDiscretizedTimeFixed Ts 7) x (cv_fun cv) sx -> plan_cost pData (computeDiscretizedTimeFixed Ts 7) y (cv_fun cvy) sy ->
       sx + force_weight * force_sq Bl <= sy + force_weight * force_sq By) ->
    exists r, computeCOMTraj scaled wg (solve_quadprog mem) glpk pData Ts dt SOLVER_QUADPROG = Ok r /\
      rc_success r = true /\ rc_x r = l3 x /\ rc_c r = cv.
  Proof.
    intros Hcv Hnz HM Hx HB HP Hmin.
    pose proof OS as (HB1 & HK & Hl & HBl & HKl & Hs & HKin & HG).
    pose proof (front_same _ _ _ WP SG) as Eg.
    assert (Hne : ws <> []).
    { destruct (cont_main scaled pData Ts WP SP) as (? & ws' & ? & ? & ? & ? & M). cbv zeta in M. destruct M as (_ & E & _ & L & _). rewrite Ews in E. injection E as <-.
      intros ->. cbn in L. lia. }
    pose proof (ws_opb6 pData Ts g ws B WP Hf Eg Hne Ews WR) as Fw.
    destruct (force_built scaled pData Ts WP NDD lam B kap s ws SP OS HA Ews Fw) as (pi & rows & lw & M). cbv zeta in M.
    set (F := force_vars (force_counts (length ws) 0 (contacts pData))) in *.
    destruct M as (Epi & HT & Lws & Llw & Plw & EF & EO & Lr & HR & HLi & HSp & _).
    set (items := fitems 0 lw (contacts pData)) in *.
    pose proof (fixed_times_of Ts 7 ltac:(lia) (wp_ne _ _ WP) (wp_pos _ _ WP)) as HTa.
    destruct (gencost_force pData Ts _ lam WP HTa CW) as (v & EC).
    destruct (gencost_form pData Ts _ lam WP HTa CW) as (H3 & v3 & K & EC3 & _ & HE & HC).
    assert (Ev : v3 = v).
    { pose proof (EC 0%nat) as E0. cbn [Nat.add] in E0. rewrite EC3 in E0.
      apply (f_equal (fun o => match o with Ok (_, l) => l | _ => [] end)) in E0. cbn in E0. injection E0 as A1 A2 A3. apply v3_eq; assumption. }
    subst v3.
    assert (BI : forall y cvy By, com_curve pData (total Ts) y = Ok cvy -> (balances pData Ts (length ws) (cv_fun cvy) By <-> Forall2 (item_forces y) items By))
      by (intros; apply balances_items; assumption).
    pose proof (proj1 (BI x cv Bl Hcv) HB) as FB.
    destruct (forces_eq x items Bl FB 0%nat [] eq_refl) as [EQ LB]. cbn [app] in EQ. rewrite EF in LB.
    destruct (HE x cv Hcv) as [sx Sx].
    assert (SR : sat rows x).
    { destruct (c17_exact scaled pData Ts WP g HL SG Hf) as (out & ws' & Eout & _ & HX).
      rewrite EO in Eout. injection Eout as <-. destruct (HX x cv Hcv Hnz) as (Pc & Pa & Pw & H1 & H2). cbn [co_A] in H2.
      apply (satX_pad F rows x []), H2. intros i c ph Hc Hph. destruct (H1 i c ph Hc Hph) as ((L1 & C1) & (L2 & C2) & _).
      destruct (HM i c (Pc i) (Pa i) Hc L1 C1 L2 C2) as [M1 M2]. split; [exact M1|]. split; [exact M2|]. intros X. contradiction. }
    destruct (fq_direct F lam v rows items EF Hl HR HLi s HSp Hs mem (repeat 0 (3 + F)) x (concat Bl) LB SR Hx) as (obj & ES); [|exact EQ| |].
    - clear - HP. induction HP as [|b Bl Hb _ IH]; [constructor|]. cbn. apply Forall_app. auto.
    - intros y b' Lb' Eb'. rewrite <- EF in Lb'. destruct (eq_forces y items 0%nat [] b' eq_refl Lb' Eb') as (By & <- & FBy).
      destruct (curve_T pData Ts WP y) as (? & cvy & _ & _ & Hy & _). destruct (HE y cvy Hy) as [sy Sy].
      pose proof (Hmin y cvy By sx sy Hy (proj2 (BI y cvy By Hy) FBy) Sx Sy) as Hle.
      rewrite (HC x cv sx Hcv Sx), (HC y cvy sy Hy Sy) in Hle. rewrite !concat_sq. lra.
    - set (res := ResultData true obj (l3 x ++ concat Bl)).
      assert (E0 : computeCOMTraj scaled wg (solve_quadprog mem) glpk pData Ts dt SOLVER_QUADPROG = genTraj scaled res pData (total Ts)).
      { unfold computeCOMTraj. rewrite (wp_len pData Ts WP), total_sumR. destruct (Rlt_dec 0 dt); [lra|].
        rewrite EO. cbn [bind co_cols co_A co_D co_min mx_cols]. rewrite EC. cbn [bind fst snd].
        rewrite map_fst_combine, map_snd_combine by (rewrite rhss_len, strips_len; reflexivity).
        unfold solve. rewrite Z.eqb_refl. unfold addBoundaryConstraintsQuadProg. rewrite addMin_ok.
        - cbn [bind addConstraintMaxBoundQuadProg fst snd mx_rows mx_cols]. unfold fqp in ES. rewrite ES. cbn [bind]. reflexivity.
        - unfold mx_wf; cbn [mx_rows mx_cols]. rewrite !Forall_map. apply Forall_forall. intros r _. unfold padr; cbn [fst]. rewrite app_length, repeat_length. reflexivity.
        - discriminate.
        - cbn [mx_cols]. rewrite app_length, !repeat_length. reflexivity. }
      destruct (genTraj_ok scaled res pData Ts x (concat Bl) WP eq_refl eq_refl) as (r & EG & Es & _ & Ex & Hcv' & _).
      exists r. rewrite E0. split; [exact EG|]. split; [exact Es|]. split; [exact Ex|]. rewrite Hcv in Hcv'. injection Hcv' as ->. reflexivity.
  Qed.
End Best.
