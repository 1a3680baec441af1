(** Continuous plans with the two flags whose wrench formulas use decimals, made with
    the bundled QP solver (C62, C63 decimal). *)
From Verif Require Import Vec SpecBezier SpecTime ModelData ModelWaypoints ModelDispatch ModelUtils ModelRows ModelCom ModelNd ModelCont ModelSolver ModelTraj ModelQp
  SpecCom SpecWp SpecCtr SpecCont SpecSolver SpecTraj SpecEnd SpecEnd2 SpecDec SpecDec2 ProofBezier ProofCurve ProofWaypoints ProofWaypoints2 ProofWaypointsDec ProofWaypointsErr ProofTime ProofTime2
  ProofRows ProofEmit ProofCom ProofCom2 ProofCom3 ProofNd ProofCont ProofCont2 ProofCont3 ProofCont4 ProofCont5 ProofCont6 ProofCont7 ProofCont8 ProofCont10
  ProofSolver ProofTraj ProofTraj2 ProofTraj3 ProofQp3 ProofQp14 ProofEnd ProofEnd2 ProofEnd3 ProofEnd4 ProofEnd5 ProofEnd6 ProofEnd7 ProofEnd13 SpecQp.
Open Scope R_scope.

Definition close6 (ef em : R) (a b : v6) : Prop := within ef (fst (v6sub a b)) /\ within em (snd (v6sub a b)).

(** the control points of the exact wrench, and how far the computed ones are off *)
Lemma dec_exact_pts pData T x cv g M G ws :
  In (flag_of pData) dec_w_flags -> com_curve pData T x = Ok cv -> front_gravity pData = Ok g ->
  Forall (within M) (bc_pts cv) -> within G g -> computeWwaypoints pData T = Ok ws ->
  exists E, length E = length ws /\ E <> [] /\ (forall t acc, is_deriv_n 2 (cv_fun cv) t acc -> curve6 E T t = wrench g (cv_fun cv t) acc) /\
    Forall2 (close6 (err_force M T) (err_moment G M T)) (map (fun w => ev_w6 w x) ws) E.
Proof.
  intros Hin H Hg HP HG Ews.
  destruct (com_curve_inv _ _ _ _ (dec_in_com _ Hin) H) as (pi & pts & Hs & Hpi & HT & -> & _).
  assert (HT0 : T <> 0) by lra. cbn [bc_pts] in HP.
  assert (HG0 : 0 <= G) by exact (within_nonneg _ _ HG).
  assert (HM0 : 0 <= M).
  { destruct pts as [|p l]; [inversion Hs|]. inversion HP as [|? ? Hp Hl]; subst. exact (within_nonneg _ _ Hp). }
  assert (K : exists ws tab tab', computeWwaypoints pData T = Ok ws /\
     map (fun w => ev_w6 w x) ws = map (row_val T g pts) tab /\ tab <> [] /\
     Forall2 row_close tab tab' /\
     forall t, curve6 (map (row_val T g pts) tab') T t = wrench g (curve pts T t) (curve (hodo_n 2 T pts) T t)).
  { shape_cases Hs;
      try (exfalso; rewrite E in Hin; simpl in Hin;
        repeat (destruct Hin as [Hin|Hin]; [discriminate Hin|]); exact Hin).
    - destruct (d5_rows _ _ x _ _ _ _ _ _ _ g HT0 E Hc Ep Hg) as (ws0 & H1 & H2).
      exists ws0, tab_d5_dec, tab_d5_ex. split; [exact H1|]. split; [exact H2|].
      split; [discriminate|]. split; [exact d5_close|]. intros t. apply d5_exact; assumption.
    - destruct (d6_rows _ _ x _ _ _ _ _ _ _ _ g HT0 E Hc Ep Hg) as (ws0 & H1 & H2).
      exists ws0, tab_d6_dec, tab_d6_ex. split; [exact H1|]. split; [exact H2|].
      split; [discriminate|]. split; [exact d6_close|]. intros t. apply d6_exact; assumption. }
  destruct K as (ws' & tab & tab' & Hw & Hm & Hne & Hcl & Hex). rewrite Ews in Hw. injection Hw as <-.
  assert (HL : length tab = length tab') by (clear - Hcl; induction Hcl; simpl; auto).
  exists (map (row_val T g pts) tab'). split; [|split; [|split]].
  - rewrite map_length, <- HL. apply (f_equal (@length v6)) in Hm. rewrite !map_length in Hm. auto.
  - intros E. apply map_eq_nil in E. subst tab'. destruct tab; [congruence|discriminate].
  - intros t acc Hacc. unfold cv_fun in *. cbn [bc_pts bc_T] in *. rewrite (curve_deriv_n_eq _ _ _ _ _ Hacc). apply Hex.
  - rewrite Hm. clear - Hcl HT HM0 HG0 HP HG. induction Hcl as [|r r' tab tab' Hr Hcl IH]; cbn [map]; constructor; [|exact IH].
    apply (row_diff T g pts M G r r'); assumption.
Qed.

Definition cst (p : v6) : wp6 := W6 mzero mzero (fst p) (snd p).
Lemma ev_cst p x : ev_w6 (cst p) x = p.
Proof. destruct p as [[? ? ?] [? ? ?]]. unfold ev_w6, cst, mzero, mvmul, vadd, vdot, vzero; cbn. f_equal; apply v3_eq; cbn; ring. Qed.
Lemma map_cst P x : map (fun q => ev_w6 q x) (map cst P) = P.
Proof. rewrite map_map. rewrite <- (map_id P) at 2. apply map_ext. intros. apply ev_cst. Qed.
Definition it6 (ph : cphase) (p : v6) : v6 := v6_scal (cp_mass ph) (v6sub (cp_gravity ph, vzero) p).
Lemma it6_curve ph P T t : P <> [] -> curve6 (map (it6 ph) P) T t = it6 ph (curve6 P T t).
Proof.
  intros HP. pose proof (items_curve ph vzero (map cst P) T t) as H. rewrite map_cst in H. unfold it6 at 2. rewrite <- H.
  - rewrite map_map. f_equal. apply map_ext. intros p. unfold item_w, it6; cbn [fst snd]. rewrite ev_cst. reflexivity.
  - intros E. apply map_eq_nil in E. contradiction.
Qed.

(** control points on a part of the interval *)
Lemma sub_pts (Q : list v6) T a b : Q <> [] -> 0 <= a -> a < b -> b <= T ->
  exists P, length P = length Q /\ forall t, curve6 P (b - a) (t - a) = curve6 Q T t.
Proof.
  intros HQ Ha Hab HbT. set (add := fun p q : v6 => (vadd (fst p) (fst q), vadd (snd p) (snd q))). set (n := length Q).
  exists (nd_backs v6 add v6_scal n (a / b) (nd_fronts v6 add v6_scal n (b / T) Q)).
  assert (LF : length (nd_fronts v6 add v6_scal n (b / T) Q) = n) by (apply fronts_len; reflexivity).
  split; [apply backs_len; exact LF|].
  intros t. apply v6_ext. intros u. rewrite !dot6_curve6.
  assert (Lu : linear v6 add v6_scal (dot6 u)) by (split; intros; unfold add, dot6, v6_scal, vadd, vscal, vdot; cbn; ring).
  rewrite (backs_phi _ _ _ _ (a / b) Lu), (fronts_phi _ _ _ _ (b / T) Lu).
  set (R0 := map (dot6 u) Q). assert (LR : length R0 = n) by apply map_length.
  assert (LF' : length (rfronts n (b / T) R0) = n) by (apply rfronts_len; exact LR).
  assert (NR : R0 <> []) by (intros E; unfold R0 in E; apply map_eq_nil in E; contradiction).
  assert (NF : rfronts n (b / T) R0 <> []) by (intros E; rewrite E in LF'; cbn in LF'; rewrite <- LF' in LR; destruct R0; [congruence|discriminate]).
  rewrite <- LF' at 1. rewrite rbacks_bez by exact NF. rewrite <- LR. rewrite rfronts_bez by exact NR. f_equal. field. lra.
Qed.

(** control points of close curves stay close *)
Definition zsub (A B : list R) : list R := map (fun i => nth i A 0 - nth i B 0) (seq 0 (length A)).
Lemma zsub_len A B : length (zsub A B) = length A. Proof. unfold zsub. rewrite map_length, seq_length. reflexivity. Qed.
Lemma zsub_nth A B i : (i < length A)%nat -> nth i (zsub A B) 0 = nth i A 0 - nth i B 0.
Proof.
  intros H. unfold zsub. rewrite (nth_indep _ 0 (nth 0 A 0 - nth 0 B 0)) by (rewrite map_length, seq_length; exact H).
  rewrite (map_nth (fun i => nth i A 0 - nth i B 0)). rewrite seq_nth by exact H. reflexivity.
Qed.
Lemma zsub_bezl A B s : A <> [] -> length A = length B -> bezl (zsub A B) s = bezl A s - bezl B s.
Proof.
  intros HA HL. unfold bezl. rewrite zsub_len, <- HL. set (n := pred (length A)).
  replace (bez n (fun i => nth i A 0) s - bez n (fun i => nth i B 0) s)
    with (bez n (fun i => 1 * nth i A 0 + (- 1) * nth i B 0) s) by (rewrite bez_lin; ring).
  apply bez_ext. intros i Hi. rewrite zsub_nth; [ring|]. destruct A; [congruence|cbn in *; lia].
Qed.
Lemma zsub_Forall e : forall A B, length A = length B -> (Forall (fun a => a <= e) (zsub A B) <-> Forall2 (fun a b => a - b <= e) A B).
Proof.
  intros A B HL. rewrite Forall_nth. split.
  - intros H. rewrite zsub_len in H. assert (H' : forall i, (i < length A)%nat -> nth i A 0 - nth i B 0 <= e).
    { intros i Hi. rewrite <- (zsub_nth A B i Hi). apply H, Hi. }
    clear H. revert B HL H'. induction A as [|a A IH]; intros [|b B] HL H; try discriminate; constructor.
    + apply (H 0%nat). cbn; lia.
    + apply IH; [cbn in HL; lia|]. intros i Hi. apply (H (S i)). cbn; lia.
  - intros H i d Hi. rewrite zsub_len in Hi. rewrite (nth_indep _ d 0) by (rewrite zsub_len; exact Hi). rewrite zsub_nth by exact Hi.
    clear HL d. revert i Hi. induction H as [|a b A B Hab H IH]; intros i Hi; [cbn in Hi; lia|].
    destruct i as [|i]; cbn [nth]; [exact Hab|]. apply IH. cbn in Hi. lia.
Qed.
Lemma sub_diff A B A' B' e al be : A <> [] -> length B = length A -> length A' = length A -> length B' = length A -> 0 <= al -> al < be -> be <= 1 ->
  (forall v, bezl A' v = bezl A (al + (be - al) * v)) -> (forall v, bezl B' v = bezl B (al + (be - al) * v)) ->
  Forall2 (fun a b => a - b <= e) A B -> Forall2 (fun a b => a - b <= e) A' B'.
Proof.
  intros HA LB LA' LB' H0 H1 H2 EA EB HF. apply zsub_Forall; [congruence|]. apply zsub_Forall in HF; [|congruence].
  assert (NA' : A' <> []) by (intros ->; destruct A; [congruence|discriminate]).
  apply (sub_le (zsub A B) _ e al be); [|rewrite !zsub_len; exact LA'|exact H0|exact H1|exact H2| |exact HF].
  - intros E. apply (f_equal (@length R)) in E. rewrite zsub_len in E. destruct A; [congruence|discriminate].
  - intros v. rewrite !zsub_bezl by congruence. rewrite EA, EB. reflexivity.
Qed.

Lemma opb6_unit C w : 0 <= C -> (forall d, vnorm d = 1 -> norm6 (v6sub (ev_w6 w d) (ev_w6 w vzero)) <= C) -> opb6 C w.
Proof.
  intros HC H d. destruct (Req_dec (vnorm d) 0) as [Z|NZ].
  - rewrite Z, Rmult_0_r. apply vnorm_0 in Z. subst d.
    replace (v6sub _ _) with ((vzero, vzero) : v6) by (destruct (ev_w6 w vzero) as [[? ? ?] [? ? ?]]; unfold v6sub, vsub, vzero; cbn; f_equal; f_equal; ring).
    rewrite norm6_v, vnorm_zero. lra.
  - pose proof (vnorm_ge d) as P. set (k := vnorm d) in *. set (e := vscal (/ k) d).
    assert (Ne : vnorm e = 1) by (unfold e; rewrite vnorm_scal, Rabs_inv, (Rabs_right k) by lra; fold k; field; exact NZ).
    pose proof (H e Ne) as N.
    replace (v6sub (ev_w6 w d) (ev_w6 w vzero)) with (v6_scal k (v6sub (ev_w6 w e) (ev_w6 w vzero))).
    + rewrite norm6_scal, (Rabs_right k) by lra. rewrite (Rmult_comm C). apply Rmult_le_compat_l; [exact P|exact N].
    + assert (D : d = vscal k e) by (unfold e; apply v3_eq; cbn; field; exact NZ). rewrite D. clearbody e k. clear.
      destruct w as [[[? ? ?] [? ? ?] [? ? ?]] [[? ? ?] [? ? ?] [? ? ?]] [? ? ?] [? ? ?]], e as [? ? ?].
      unfold v6_scal, v6sub, ev_w6, mvmul, vadd, vsub, vdot, vscal, vzero; cbn. f_equal; f_equal; ring.
Qed.

Lemma v6_sub3 (a b a' b' : v6) : v6sub a b = v6sub (v6sub (v6sub a a') (v6sub b b')) (v6sub b' a').
Proof.
  destruct a as [[? ? ?] [? ? ?]], b as [[? ? ?] [? ? ?]], a' as [[? ? ?] [? ? ?]], b' as [[? ? ?] [? ? ?]].
  unfold v6sub, vsub; cbn. f_equal; f_equal; ring.
Qed.
Lemma giw_it6 g c acc m : v6_scal m (v6sub (g, vzero) (wrench g c acc)) = giw m g c acc.
Proof. rewrite wrench_giw2, giw2_same. reflexivity. Qed.
Lemma ctrl_it6 E T ph cv : E <> [] -> (forall t acc, is_deriv_n 2 (cv_fun cv) t acc -> curve6 E T t = wrench (cp_gravity ph) (cv_fun cv t) acc) ->
  ctrl_giw (map (it6 ph) E) 0 T ph (cv_fun cv).
Proof. intros HE H t acc Ha. rewrite it6_curve by exact HE. rewrite !Rminus_0_r, (H t acc Ha). unfold it6. rewrite giw_it6. reflexivity. Qed.

Lemma ws_opb6_dec pData Ts g G M0 cv0 ws B : well_posed pData Ts -> In (flag_of pData) dec_w_flags -> front_gravity pData = Ok g -> within G g ->
  1 <= M0 -> com_curve pData (total Ts) vzero = Ok cv0 -> Forall (within M0) (bc_pts cv0) -> 0 <= B + 2 * dec_slack G M0 (total Ts) ->
  computeWwaypoints pData (total Ts) = Ok ws -> wrench_ctrl_rate pData (total Ts) g (length ws) B ->
  Forall (opb6 (B + 2 * dec_slack G M0 (total Ts))) ws.
Proof.
  intros WP Hf Eg HG H1 H0 HM0 HB Ews HR. set (T := total Ts) in *.
  assert (U : forall d, vnorm d = 1 -> Forall (fun w => norm6 (v6sub (ev_w6 w d) (ev_w6 w vzero)) <= B + 2 * dec_slack G M0 T) ws).
  { intros d Hd. destruct (curve_T pData Ts WP d) as (? & cvd & _ & _ & Hcd & _). fold T in Hcd.
    pose proof (dec_pts pData T cv0 M0 Hf H0 HM0 d cvd (unit_within d M0 Hd H1) Hcd) as HMd.
    destruct (dec_exact_pts _ _ _ _ _ _ _ _ Hf H0 Eg HM0 HG Ews) as (E0 & L0 & N0 & C0 & F0).
    destruct (dec_exact_pts _ _ _ _ _ _ _ _ Hf Hcd Eg HMd HG Ews) as (E1 & L1 & N1 & C1 & F1).
    set (up := CPhase [] 1 g []).
    pose proof (HR vzero d cv0 cvd (map (it6 up) E0) (map (it6 up) E1) H0 Hcd ltac:(rewrite map_length; exact L0) ltac:(rewrite map_length; exact L1)
      (ctrl_it6 E0 T up cv0 N0 C0) (ctrl_it6 E1 T up cvd N1 C1)) as F.
    replace (vnorm (vsub vzero d)) with (vnorm d) in F by (rewrite <- (vnorm_opp d); f_equal; apply v3_eq; cbn; ring). rewrite Hd, Rmult_1_r in F.
    clear - F0 F1 F. revert E0 E1 F0 F1 F. induction ws as [|w ws IH]; intros E0 E1 F0 F1 F; [constructor|].
    cbn [map] in F0, F1. inversion F0 as [|? e0 ? E0' [P0 Q0] F0' X0 Y0]; subst. inversion F1 as [|? e1 ? E1' [P1 Q1] F1' X1 Y1]; subst. cbn [map] in F.
    inversion F as [|? ? ? ? HN F']; subst. constructor; [|eapply IH; eassumption].
    pose proof (norm6_err _ _ _ P0 Q0) as K0. pose proof (norm6_err _ _ _ P1 Q1) as K1. rewrite (v6_sub3 _ _ e1 e0).
    eapply Rle_trans; [apply norm6_triang|]. pose proof (norm6_triang (v6sub (ev_w6 w d) e1) (v6sub (ev_w6 w vzero) e0)).
    replace (norm6 (v6sub e0 e1)) with (norm6 (v6sub (it6 up e0) (it6 up e1))).
    2:{ clear. unfold it6, up; cbn [cp_mass cp_gravity]. destruct e0 as [[? ? ?] [? ? ?]], e1 as [[? ? ?] [? ? ?]], g as [? ? ?].
        unfold norm6, dot6, v6_scal, v6sub, vsub, vscal, vdot, vzero; cbn. f_equal. ring. }
    unfold dec_slack. lra. }
  apply Forall_forall. intros w Hw. apply opb6_unit; [exact HB|]. intros d Hd. specialize (U d Hd). rewrite Forall_forall in U. apply U, Hw.
Qed.

(** error of the computed wrench along a unit direction *)
Lemma dec_dir pData Ts g G ws x cv M t acc u : well_posed pData Ts -> In (flag_of pData) dec_w_flags -> front_gravity pData = Ok g -> within G g ->
  computeWwaypoints pData (total Ts) = Ok ws -> com_curve pData (total Ts) x = Ok cv -> Forall (within M) (bc_pts cv) ->
  0 <= t <= total Ts -> is_deriv_n 2 (cv_fun cv) t acc -> norm6 u <= 1 ->
  dot6 u (wrench g (cv_fun cv t) acc) <= dot6 u (curve6 (map (fun q => ev_w6 q x) ws) (total Ts) t) + dec_slack G M (total Ts).
Proof.
  intros WP Hf Eg HG Ews Hcv HM Ht Ha Hu. destruct (c06_ok _ _ _ _ _ _ _ Hf Hcv Eg HM HG) as (ws' & E & Hall). rewrite Ews in E. injection E as <-.
  destruct (Hall t acc Ht Ha) as [P Q]. cbv zeta in P, Q. pose proof (norm6_err _ _ _ P Q) as N. fold (dec_slack G M (total Ts)) in N.
  set (W := curve6 _ _ _) in *. set (w := wrench _ _ _) in *.
  pose proof (cs6 (v6_scal (-1) u) (v6sub W w)) as C.
  assert (E : dot6 (v6_scal (-1) u) (v6sub W w) = dot6 u w - dot6 u W) by (destruct W as [[? ? ?] [? ? ?]], w as [[? ? ?] [? ? ?]], u as [[? ? ?] [? ? ?]]; unfold dot6, v6_scal, v6sub, vscal, vsub, vdot; cbn; ring).
  rewrite E, norm6_scal in C. replace (Rabs (-1)) with 1 in C by (rewrite Rabs_left; lra). rewrite Rmult_1_l in C.
  assert (norm6 u * norm6 (v6sub W w) <= 1 * dec_slack G M (total Ts)) by (apply Rmult_le_compat; [apply norm6_ge|apply norm6_ge|exact Hu|exact N]). lra.
Qed.

Section Plan.
  Variables (scaled wg : bool) (mem : qst) (glpk : lp -> outcome (Z * R * list R)).
  Variables (pData : problem) (Ts : list R) (dt : R) (g : vec3) (G : R) (ws : list wp6).
  Hypothesis WP : well_posed pData Ts.
  Hypothesis Hdt : dt <= 0.
  Hypothesis SG : same_gravity pData g.
  Hypothesis HG : within G g.
  Hypothesis HD : representation pData = DOUBLE_DESCRIPTION.
  Hypothesis Hf : In (flag_of pData) dec_w_flags.
  Hypothesis Ews : computeWwaypoints pData (total Ts) = Ok ws.

  Lemma c62_continuous_dec M0 cv0 lam B kap pi : splittable Ts ->
    1 <= M0 -> com_curve pData (total Ts) vzero = Ok cv0 -> Forall (within M0) (bc_pts cv0) ->
    computeConstantWaypoints pData (total Ts) = Ok pi ->
    cost_weight pData Ts (computeDiscretizedTimeFixed Ts 7) lam ->
    let B' := B + 2 * dec_slack G M0 (total Ts) in on_scale pData lam B' kap -> acc_ctrl_rate scaled Ts <= B' ->
    wrench_ctrl_rate pData (total Ts) g (length ws) B ->
    let tau := plan_tol (cont_rows_needed true (length pi) (length ws) (contacts pData)) lam in
    exists r, computeCOMTraj scaled wg (solve_quadprog mem) glpk pData Ts dt SOLVER_QUADPROG = Ok r /\
      (rc_success r = true -> plan_curve pData Ts r /\
       (plan_no_zero_point r -> forall M, Forall (within M) (bc_pts (rc_c r)) ->
        forall i c t, nth_error (contacts pData) i = Some c -> in_phase Ts i t ->
          contact_near pData tau (tau * B' + dec_slack G M (total Ts)) c (cv_fun (rc_c r)) t /\
          accel_within (acc_bound_near scaled pData Ts tau) (cv_fun (rc_c r)) t)).
  Proof.
    intros SP H1 H0 HM0 Epi CW B' OS HA WR tau. pose proof (front_same _ _ _ WP SG) as Eg.
    pose proof (fixed_times_of Ts 7 ltac:(lia) (wp_ne _ _ WP) (wp_pos _ _ WP)) as HT.
    assert (Fw : Forall (opb6 B') ws) by (destruct OS as (HB & _); apply (ws_opb6_dec pData Ts g G M0 cv0 ws B); try assumption; fold B'; lra).
    destruct (cont_rows_err scaled pData Ts WP g lam B' kap ws SG HD SP OS HA Ews Fw) as (pi' & rows & Epi' & EO & Lr & HR & HN).
    rewrite Epi in Epi'. injection Epi' as <-. destruct (gencost_id pData Ts _ lam WP HT CW) as (H & v & EC & HH). pose proof OS as (_ & _ & Hl & _).
    destruct (plan_answer scaled wg mem glpk pData Ts rows lam H v (MX 3 []) [] WP eq_refl eq_refl HH Hl HR) as (res & r & ES & EG & HO).
    exists r. rewrite (traj_cont scaled wg _ _ _ _ dt rows WP Hdt EO), EC. cbn [bind fst snd]. rewrite ES. cbn [bind]. split; [exact EG|].
    intros Hs. destruct (HO Hs) as (x & Hx & Hcv & Hpl & Ex). split; [exact Hpl|]. intros Hnz M HM. rewrite Lr in Hx. fold tau in Hx.
    apply (HN tau x (rc_c r)); [apply plan_tol_nonneg; pose proof eps_pos; lra|exact Hcv| |exact Hx|].
    - intros p Hp Hz. specialize (Hnz p Hp Hz). rewrite Ex in Hnz. unfold l3 in Hnz. injection Hnz as E1 E2 E3. apply v3_eq; assumption.
    - intros t acc u Ht Ha Hu. apply (dec_dir pData Ts g G ws x (rc_c r) M t acc u); assumption.
  Qed.

  (** a motion with the error in reserve meets the computed rows *)
  Lemma ctrl_sat_dec rows : long_phases Ts ->
    computeConstraintsContinuous scaled pData Ts = Ok (CO (map (padr 0) rows) [] [] 3) ->
    forall x cv, com_curve pData (total Ts) x = Ok cv ->
    (exists M, no_zero_point cv x /\ Forall (within M) (bc_pts cv) /\ ctrl_feasible_by scaled pData Ts (length ws) (- dec_slack G M (total Ts)) cv) -> sat rows x.
  Proof.
    intros HL EO x cv Hcv (M & Hnz & HM & HC). destruct (c17_pieces scaled pData Ts WP HL) as (out & ws' & EO' & Ews' & HT & HE).
    rewrite EO in EO'. injection EO' as <-. rewrite Ews in Ews'. injection Ews' as <-. cbn [co_A] in HE. pose proof (front_same _ _ _ WP SG) as Eg.
    destruct (HE x cv Hcv Hnz) as (Pc & Pa & Pw & HP & HI). apply (satX_pad 0 rows x []). apply HI. intros i c ph Hc Eph.
    destruct (HP i c ph Hc Eph) as ((L1 & C1) & (L2 & C2) & (W1 & W2 & W3)). assert (Hin : In c (contacts pData)) by (eapply nth_error_In; eauto).
    destruct (dec_exact_pts _ _ _ _ _ _ _ _ Hf Hcv Eg HM HG Ews) as (E & LE & NE & CE & FE).
    assert (Hi : (i < length Ts)%nat) by (destruct WP as (_ & _ & _ & _ & HLc & _); rewrite <- HLc; apply nth_error_Some; congruence).
    pose proof W1 as ((_ & Wlt) & Wlen & _ & Wmin & Wmax & Wv). cbn [nd_min nd_max nd_pts] in Wmin, Wmax, Wlen.
    destruct (sub_pts E (total Ts) (nd_min (Pw i)) (nd_max (Pw i)) NE Wmin Wlt Wmax) as (P & LP & CP).
    pose proof (SG c ph Hin Eph) as Hg.
    assert (CP' : ctrl_giw (map (it6 ph) P) (phase_start Ts i) (phase_end Ts i) ph (cv_fun cv)).
    { intros t acc Ha. rewrite it6_curve by (intros Z; rewrite Z in LP; destruct E; [congruence|discriminate]). rewrite <- W2, <- W3, CP, (CE t acc Ha).
      unfold it6. rewrite Hg, giw_it6. reflexivity. }
    destruct (HC i c ph (Pc i) (Pa i) (map (it6 ph) P) Hc Eph L1 C1 L2 C2 ltac:(rewrite map_length, LP; exact LE) CP') as (F1 & F2 & F3).
    split; [exact F1|]. split; [exact F2|]. intros _.
    destruct (wf_in pData Ts WP c Hin) as (ph' & Eph' & Hm & Hrows & _). rewrite Eph in Eph'. injection Eph' as <-. rewrite Forall_forall in Hrows.
    rewrite Forall_map, Forall_forall. intros q Hq. unfold cone_ok. apply Forall_forall. intros Hh HI'.
    set (u := fst (urow ph Hh (margin pData))). set (e := dec_slack G M (total Ts)) in *.
    assert (Epp : php c = ph) by (unfold php; rewrite Eph; reflexivity).
    assert (Hu : norm6 u = 1) by (unfold u; rewrite <- Epp; apply (urow_norm pData Ts WP c Hh Hin); rewrite Epp; exact HI').
    assert (D : Forall2 (fun a b => a - b <= e) (map (fun q => dot6 u (ev_w6 q x)) (nd_pts (Pw i))) (map (dot6 u) P)).
    { set (T := total Ts) in *. set (al := nd_min (Pw i) / T). set (be := nd_max (Pw i) / T).
      apply (sub_diff (map (fun q => dot6 u (ev_w6 q x)) ws) (map (dot6 u) E) _ _ e al be).
      - intros Z. apply map_eq_nil in Z. rewrite Z in LE. destruct E; [congruence|discriminate].
      - rewrite !map_length. exact LE.
      - rewrite !map_length. exact Wlen.
      - rewrite !map_length. congruence.
      - apply Rmult_le_pos; [exact Wmin|apply Rlt_le, Rinv_0_lt_compat, HT].
      - apply Rmult_lt_compat_r; [apply Rinv_0_lt_compat, HT|exact Wlt].
      - apply Rmult_le_reg_r with T; [exact HT|]. unfold be, Rdiv. rewrite Rmult_assoc, Rinv_l by lra. lra.
      - intros v. specialize (Wv (fun q => dot6 u (ev_w6 q x)) (nd_min (Pw i) + v * (nd_max (Pw i) - nd_min (Pw i))) (lin_w6 u x)).
        unfold nd_val in Wv. cbn [nd_pts nd_min nd_max] in Wv. rewrite (T_fac _ _ HT) in Wv.
        replace ((nd_min (Pw i) + v * (nd_max (Pw i) - nd_min (Pw i)) - nd_min (Pw i)) / (nd_max (Pw i) - nd_min (Pw i))) with v in Wv by (field; lra).
        rewrite Wv. f_equal. unfold al, be. field. lra.
      - intros v. specialize (CP (nd_min (Pw i) + v * (nd_max (Pw i) - nd_min (Pw i)))). apply (f_equal (dot6 u)) in CP. rewrite !dot6_curve6 in CP.
        replace ((nd_min (Pw i) + v * (nd_max (Pw i) - nd_min (Pw i)) - nd_min (Pw i)) / (nd_max (Pw i) - nd_min (Pw i))) with v in CP by (field; lra).
        rewrite CP. f_equal. unfold al, be. field. lra.
      - clear - FE Hu. revert E FE. induction ws as [|w ws0 IH]; intros E FE; cbn [map] in FE; inversion FE as [|? e0 ? E0 [P0 Q0] FE0]; subst; cbn [map]; constructor; [|apply IH; exact FE0].
        pose proof (norm6_err _ _ _ P0 Q0) as N. pose proof (cs6 u (v6sub (ev_w6 w x) e0)) as C. rewrite Hu, Rmult_1_l in C.
        assert (X : dot6 u (v6sub (ev_w6 w x) e0) = dot6 u (ev_w6 w x) - dot6 u e0) by (unfold dot6, v6sub, vsub, vdot; cbn; ring).
        unfold e, dec_slack, T. rewrite X in C. unfold T in N. lra. }
    assert (X : exists p, In p P /\ dot6 u (ev_w6 q x) - dot6 u p <= e).
    { clear - D Hq. revert P D. induction (nd_pts (Pw i)) as [|q0 l IH]; intros P D; [destruct Hq|]. cbn [map] in D.
      destruct P as [|p P]; inversion D as [|? ? ? ? D1 D2]; subst. destruct Hq as [-> |Hq]; [exists p; split; [left; reflexivity|exact D1]|].
      destruct (IH Hq P D2) as (p' & Hp & Hd). exists p'. split; [right; exact Hp|exact Hd]. }
    destruct X as (p & Hp & Hd).
    rewrite Forall_map, Forall_forall in F3. specialize (F3 p Hp). unfold cone_ok in F3. rewrite Forall_forall in F3. specialize (F3 Hh HI').
    unfold it6 in F3. replace (snd Hh - margin pData + - e) with (snd Hh - (margin pData + e)) in F3 by ring.
    apply (urow_ok ph Hh (margin pData + e) p (cp_gravity ph) Hm (Hrows Hh HI')) in F3. change (fst (urow ph Hh (margin pData + e))) with u in F3.
    replace (snd Hh - margin pData + 0) with (snd Hh - margin pData) by ring. unfold item_w; cbn [fst snd].
    apply (urow_ok ph Hh (margin pData) (ev_w6 q x) (cp_gravity ph) Hm (Hrows Hh HI')). fold u.
    assert (S6 : forall v gg, dot6 u (v6sub v (gg, vzero)) = dot6 u v - dot6 u (gg, vzero)) by (intros; unfold dot6, v6sub, vsub, vdot; cbn; ring).
    rewrite S6 in *. unfold urow in F3 |- *. cbn [snd] in *. lra.
  Qed.

  Lemma c63_best_dec lam x cv M : long_phases Ts -> cost_weight pData Ts (computeDiscretizedTimeFixed Ts 7) lam -> 0 < lam ->
    com_curve pData (total Ts) x = Ok cv -> no_zero_point cv x -> Forall (within M) (bc_pts cv) ->
    ctrl_feasible_by scaled pData Ts (length ws) (- dec_slack G M (total Ts)) cv ->
    cheapest pData Ts (computeDiscretizedTimeFixed Ts 7) x (cv_fun cv) ->
    exists r, computeCOMTraj scaled wg (solve_quadprog mem) glpk pData Ts dt SOLVER_QUADPROG = Ok r /\
      rc_success r = true /\ rc_x r = l3 x /\ rc_c r = cv.
  Proof.
    intros HL CW L0 Hcv Hnz HM HC CH. pose proof (fixed_times_of Ts 7 ltac:(lia) (wp_ne _ _ WP) (wp_pos _ _ WP)) as HT.
    destruct (cont_dd scaled pData Ts WP (long_split _ HL) HD) as [rows EO].
    destruct (best_go scaled wg mem glpk pData Ts lam _ WP HT CW rows _ (ctrl_sat_dec rows HL EO) x cv L0 Hcv (ex_intro _ M (conj Hnz (conj HM HC))) CH) as (H & gg & r & EC & ER & R1).
    exists r. rewrite (traj_cont scaled wg _ _ _ _ dt rows WP Hdt EO), EC. cbn [bind fst snd]. split; [exact ER|exact R1].
  Qed.
  Lemma c63_optimal_dec M0 cv0 lam B kap : long_phases Ts ->
    1 <= M0 -> com_curve pData (total Ts) vzero = Ok cv0 -> Forall (within M0) (bc_pts cv0) ->
    let ta := computeDiscretizedTimeFixed Ts 7 in cost_weight pData Ts ta lam ->
    let B' := B + 2 * dec_slack G M0 (total Ts) in on_scale pData lam B' kap -> acc_ctrl_rate scaled Ts <= B' ->
    wrench_ctrl_rate pData (total Ts) g (length ws) B ->
    exists rows H gg r, computeConstraintsContinuous scaled pData Ts = Ok (CO (map (fun r => (l3 (fst r), snd r)) rows) [] [] 3) /\
      genCostFunction pData Ts (total Ts) ta 3 = Ok (H, gg) /\
      computeCOMTraj scaled wg (solve_quadprog mem) glpk pData Ts dt SOLVER_QUADPROG = Ok r /\
      (well_scaled (eqp_of (plan_qp H gg rows)) ->
       forall y cvy M, com_curve pData (total Ts) y = Ok cvy -> no_zero_point cvy y -> Forall (within M) (bc_pts cvy) ->
       ctrl_feasible_by scaled pData Ts (length ws) (- dec_slack G M (total Ts)) cvy ->
       (rc_success r = true /\ exists x s s', rc_x r = l3 x /\ com_curve pData (total Ts) x = Ok (rc_c r) /\
          plan_cost pData ta x (cv_fun (rc_c r)) s /\ plan_cost pData ta y (cv_fun cvy) s' /\ s <= s') \/
       (rc_success r = false /\ (1000 <= subsets (length rows) 3)%nat /\ exists st, returns (eqp_of (plan_qp H gg rows)) mem st_MAX_ITER st)).
  Proof.
    intros HL H1 H0 HM0 ta CW B' OS HA WR. pose proof (fixed_times_of Ts 7 ltac:(lia) (wp_ne _ _ WP) (wp_pos _ _ WP)) as HT. pose proof (front_same _ _ _ WP SG) as Eg.
    assert (Fw : Forall (opb6 B') ws) by (destruct OS as (HB & _); apply (ws_opb6_dec pData Ts g G M0 cv0 ws B); try assumption; fold B'; lra).
    destruct (cont_rows_err scaled pData Ts WP g lam B' kap ws SG HD (long_split _ HL) OS HA Ews Fw) as (pi & rows & _ & EO & _ & HR & _).
    pose proof OS as (_ & _ & Hl & _).
    destruct (opt_go scaled wg mem glpk pData Ts lam ta WP HT CW rows _ (ctrl_sat_dec rows HL EO) Hl HR) as (H & gg & r & EC & ER & R1).
    exists rows, H, gg, r. rewrite (traj_cont scaled wg _ _ _ _ dt rows WP Hdt EO). rewrite padr0 in EO. split; [exact EO|]. split; [exact EC|].
    fold ta. rewrite EC. cbn [bind fst snd]. split; [exact ER|]. intros HW y cvy M Hy Hnz HM HC. exact (R1 HW y cvy Hy (ex_intro _ M (conj Hnz (conj HM HC)))).
  Qed.
End Plan.
