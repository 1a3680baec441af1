(** Continuous plans: a rate of the control points of the wrench (C62). *)
From Verif Require Import Vec SpecBezier SpecTime ModelData ModelWaypoints ModelDispatch ModelUtils ModelRows ModelCom ModelNd ModelCont ModelSolver ModelTraj ModelQp
  SpecCom SpecWp SpecCtr SpecCont SpecSolver SpecTraj SpecEnd SpecEnd2 ProofBezier ProofCurve ProofWaypoints ProofWaypoints2 ProofTime ProofTime2
  ProofRows ProofEmit ProofCom ProofCom2 ProofCom3 ProofNd ProofCont ProofCont2 ProofCont3 ProofCont4 ProofCont5 ProofCont6 ProofCont7 ProofCont8 ProofCont10
  ProofSolver ProofTraj ProofTraj2 ProofEnd ProofEnd2 ProofEnd3 ProofEnd5 ProofEnd6.
Open Scope R_scope.

(** matrices of cross products *)
Definition xb (M : mat3) (b : R) : Prop := exists q, (forall d, mvmul M d = vcross q d) /\ vnorm q <= b.
Lemma xb_skew p b : vnorm p <= b -> xb (skew p) b.
Proof. intros H. exists p. split; [|exact H]. intros d. apply v3_eq; unfold mvmul, vdot; cbn; ring. Qed.
Lemma xb_scal k M b : xb M b -> xb (mscal k M) (Rabs k * b).
Proof.
  intros (q & H & L). exists (vscal k q). split.
  - intros d. replace (mvmul (mscal k M) d) with (vscal k (mvmul M d)) by (apply v3_eq; unfold mvmul, vdot; cbn; ring). rewrite H. apply v3_eq; cbn; ring.
  - rewrite vnorm_scal. apply Rmult_le_compat_l; [apply Rabs_pos|exact L].
Qed.
Lemma xb_add M N a b : xb M a -> xb N b -> xb (madd M N) (a + b).
Proof.
  intros (q & H & L) (q' & H' & L'). exists (vadd q q'). split.
  - intros d. replace (mvmul (madd M N) d) with (vadd (mvmul M d) (mvmul N d)) by (apply v3_eq; unfold mvmul, vdot; cbn; ring). rewrite H, H'. apply v3_eq; cbn; ring.
  - pose proof (vnorm_triang q q'). lra.
Qed.
Lemma xb_sub M N a b : xb M a -> xb N b -> xb (msub M N) (a + b).
Proof.
  intros (q & H & L) (q' & H' & L'). exists (vsub q q'). split.
  - intros d. replace (mvmul (msub M N) d) with (vsub (mvmul M d) (mvmul N d)) by (apply v3_eq; unfold mvmul, vdot; cbn; ring). rewrite H, H'. apply v3_eq; cbn; ring.
  - pose proof (vnorm_sub q q'). lra.
Qed.
Lemma xb_zero : xb mzero 0.
Proof. exists vzero. split; [|rewrite vnorm_zero; lra]. intros d. apply v3_eq; unfold mvmul, vdot; cbn; ring. Qed.
Lemma vb_scal k v b : vnorm v <= b -> vnorm (vscal k v) <= Rabs k * b.
Proof. intros H. rewrite vnorm_scal. apply Rmult_le_compat_l; [apply Rabs_pos|exact H]. Qed.
Lemma vb_add u v a b : vnorm u <= a -> vnorm v <= b -> vnorm (vadd u v) <= a + b.
Proof. intros. pose proof (vnorm_triang u v). lra. Qed.
Lemma vb_sub u v a b : vnorm u <= a -> vnorm v <= b -> vnorm (vsub u v) <= a + b.
Proof. intros. pose proof (vnorm_sub u v). lra. Qed.

Lemma opb6_x h M a b ch cx C : xb M cx -> Rabs h <= ch -> ch + cx <= C -> opb6 C (W6 (mscal h mid) M a b).
Proof.
  intros (q & H & L) Hh HC d.
  replace (v6sub _ _) with (vscal h d, vcross q d).
  - eapply Rle_trans; [apply norm6_split|]. rewrite vnorm_scal. pose proof (vnorm_cross q d). pose proof (vnorm_ge d). pose proof (vnorm_ge q).
    apply Rle_trans with (ch * vnorm d + cx * vnorm d); [|rewrite <- Rmult_plus_distr_r; apply Rmult_le_compat_r; assumption].
    apply Rplus_le_compat; [apply Rmult_le_compat_r; assumption|]. eapply Rle_trans; [eassumption|]. apply Rmult_le_compat_r; assumption.
  - unfold ev_w6, v6sub; cbn [w_top w_bot w_head w_tail fst snd]. rewrite <- H. f_equal; apply v3_eq; unfold mvmul, vdot; cbn; ring.
Qed.
Lemma opb6_0 M a b cx C : xb M cx -> cx <= C -> opb6 C (W6 mzero M a b).
Proof.
  intros HM HC. replace mzero with (mscal 0 mid) by (unfold mscal, mid, mzero, vscal, vzero; cbn; f_equal; f_equal; ring).
  apply (opb6_x 0 M a b 0 cx); [exact HM|rewrite Rabs_R0; lra|lra].
Qed.

Ltac xbt := repeat (lazymatch goal with
  | |- xb (skew _) _ => apply xb_skew
  | |- xb (mscal _ _) _ => apply xb_scal
  | |- xb (madd _ _) _ => apply xb_add
  | |- xb (msub _ _) _ => apply xb_sub
  | |- xb mzero _ => apply xb_zero
  | |- vnorm (vscal _ _) <= _ => apply vb_scal
  | |- vnorm (vadd _ _) <= _ => apply vb_add
  | |- vnorm (vsub _ _) <= _ => apply vb_sub
  | |- vnorm _ <= _ => eassumption
  end).
Ltac rabs := repeat match goal with |- context [Rabs ?a] => first [is_var a; rewrite (Rabs_right a) by (apply Rle_ge, Rlt_le; assumption)|rewrite (Rabs_right a) by (clear; lra)|rewrite (Rabs_left1 a) by (clear; lra)] end.

Ltac rate_end AP AG AM M0 G1 := repeat (apply Forall_cons; [|]); try apply Forall_nil;
  lazymatch goal with |- opb6 _ (W6 mzero _ _ _) => eapply opb6_0; [xbt|] | |- _ => eapply opb6_x; [xbt|apply Rle_refl|] end; rewrite ?Rabs_mult; rabs; clear - AP AG AM M0 G1; lra.
Lemma ws_rate pData T g G M cv0 ws : In (flag_of pData) exact_w_flags -> com_curve pData T vzero = Ok cv0 ->
  Forall (fun p => vnorm p <= M) (bc_pts cv0) -> front_gravity pData = Ok g -> vnorm g <= G ->
  computeWwaypoints pData T = Ok ws -> Forall (opb6 (24 * (1 + M) / (T * T) + G)) ws.
Proof.
  intros Hf H0 HM Eg HG Ews.
  assert (Hc : In (flag_of pData) com_flags) by (clear - Hf; cbn in *; tauto).
  destruct (com_curve_inv pData T vzero cv0 Hc H0) as (pi & pts & Hs & Epi & HT & -> & _). cbn [bc_pts] in HM.
  assert (M0 : 0 <= M).
  { destruct pts as [|p pts]; [inversion Hs|]. inversion HM as [|? ? Hp _]; subst. pose proof (vnorm_ge p). lra. }
  pose proof (vnorm_ge g) as G0. assert (AP : 0 < 1 / (T * T)) by (apply Rdiv_lt_0_compat; [lra|nra]).
  assert (AT : 1 / (T * T) * (T * T) = 1) by (field; lra). assert (T20 : 0 < T * T) by nra.
  assert (AM : 0 <= 1 / (T * T) * M) by (apply Rmult_le_pos; lra).
  replace (24 * (1 + M) / (T * T)) with (24 * (1 / (T * T)) + 24 * (1 / (T * T) * M)) by (unfold Rdiv; ring).
  unfold computeWwaypoints in Ews. unfold computeConstantWaypoints in Epi.
  inversion Hs as [? E _ a b c d Ep|? E _ a b c d Ep|? E _ a b c d e Ep|? E _ a b c d Ep|? E _ a b c d e Ep|? E _ a b c d e f Ep|? E _ a b c d e f h Ep]; subst;
    rewrite E in *.
  6-7: exfalso; clear - Hf; cbn in Hf; intuition discriminate.
  all: repeat match goal with H : Forall _ (_ :: _) |- _ => inversion H; clear H; subst end.
  all: set (al := 1 / (T * T)) in *; set (T2 := T * T) in *.
  all: assert (G1 : 0 <= G) by lra.
  all: assert (AG : al * T2 * G = G) by (rewrite AT; ring).
  - match type of Epi with _ = Ok ?l => change (c0_dc0_c1_computeConstantWaypoints pData T = Ok l) in Epi end. change (c0_dc0_c1_computeWwaypoints pData T = Ok ws) in Ews.
    unfold c0_dc0_c1_computeWwaypoints in Ews. rewrite Epi, Eg in Ews. cbn [bind get nth_error map] in Ews. fold T2 in Ews. fold al in Ews. clearbody al T2. injection Ews as <-. rate_end AP AG AM M0 G1.
  - match type of Epi with _ = Ok ?l => change (c0_dc0_dc1_computeConstantWaypoints pData T = Ok l) in Epi end. change (c0_dc0_dc1_computeWwaypoints pData T = Ok ws) in Ews.
    unfold c0_dc0_dc1_computeWwaypoints in Ews. rewrite Epi, Eg in Ews. cbn [bind get nth_error map] in Ews. fold T2 in Ews. fold al in Ews. clearbody al T2. injection Ews as <-. rate_end AP AG AM M0 G1.
  - match type of Epi with _ = Ok ?l => change (c0_dc0_dc1_c1_computeConstantWaypoints pData T = Ok l) in Epi end. change (c0_dc0_dc1_c1_computeWwaypoints pData T = Ok ws) in Ews.
    unfold c0_dc0_dc1_c1_computeWwaypoints in Ews. rewrite Epi, Eg in Ews. cbn [bind get nth_error map] in Ews. fold T2 in Ews. fold al in Ews. clearbody al T2. injection Ews as <-. rate_end AP AG AM M0 G1.
  - match type of Epi with _ = Ok ?l => change (c0_dc0_ddc0_computeConstantWaypoints pData T = Ok l) in Epi end. change (c0_dc0_ddc0_computeWwaypoints pData T = Ok ws) in Ews.
    unfold c0_dc0_ddc0_computeWwaypoints in Ews. rewrite Epi, Eg in Ews. cbn [bind get nth_error map] in Ews. fold T2 in Ews. fold al in Ews. clearbody al T2. injection Ews as <-. rate_end AP AG AM M0 G1.
  - match type of Epi with _ = Ok ?l => change (c0_dc0_ddc0_c1_computeConstantWaypoints pData T = Ok l) in Epi end. change (c0_dc0_ddc0_c1_computeWwaypoints pData T = Ok ws) in Ews.
    unfold c0_dc0_ddc0_c1_computeWwaypoints in Ews. rewrite Epi, Eg in Ews. cbn [bind get nth_error map] in Ews. fold T2 in Ews. fold al in Ews. clearbody al T2. injection Ews as <-. rate_end AP AG AM M0 G1.
Qed.

Lemma c62_rate pData T g G M cv0 ws B : In (flag_of pData) exact_w_flags -> front_gravity pData = Ok g -> com_curve pData T vzero = Ok cv0 ->
  Forall (fun p => vnorm p <= M) (bc_pts cv0) -> vnorm g <= G -> computeWwaypoints pData T = Ok ws ->
  24 * (1 + M) / (T * T) + G <= B -> wrench_ctrl_rate pData T g (length ws) B.
Proof.
  intros Hf Eg H0 HM HG Ews HB x y cvx cvy P Q Hx Hy LP LQ CP CQ.
  assert (Hc : In (flag_of pData) com_flags) by (clear - Hf; cbn in *; tauto).
  destruct (com_curve_inv pData T vzero cv0 Hc H0) as (_ & _ & _ & _ & HT & _ & _).
  pose proof (ws_rate pData T g G M cv0 ws Hf H0 HM Eg HG Ews) as F.
  assert (Hne : ws = [] \/ ws <> []) by (destruct ws; [left|right]; congruence).
  destruct Hne as [->|Hne].
  { destruct P; [|discriminate]. destruct Q; [|discriminate]. constructor. }
  assert (EP : P = map (fun w => item_w (w, CPhase [] 1 g []) x) ws)
    by (apply (ctrl_giw_uniq P _ 0 T (CPhase [] 1 g []) cvx HT); [rewrite map_length; exact LP|exact CP|apply (ws_ctrl pData T g ws x cvx); assumption]).
  assert (EQ : Q = map (fun w => item_w (w, CPhase [] 1 g []) y) ws)
    by (apply (ctrl_giw_uniq Q _ 0 T (CPhase [] 1 g []) cvy HT); [rewrite map_length; exact LQ|exact CQ|apply (ws_ctrl pData T g ws y cvy); assumption]).
  subst P Q. clear - F HB. induction F as [|w ws Hw _ IH]; cbn [map]; constructor; [|exact IH].
  specialize (Hw (vsub y x)).
  replace (v6sub (item_w (w, CPhase [] 1 g []) x) (item_w (w, CPhase [] 1 g []) y)) with (v6sub (ev_w6 w (vsub y x)) (ev_w6 w vzero)).
  - replace (vnorm (vsub x y)) with (vnorm (vsub y x)) by (rewrite <- (vnorm_opp (vsub x y)); f_equal; apply v3_eq; cbn; ring).
    eapply Rle_trans; [exact Hw|]. apply Rmult_le_compat_r; [apply vnorm_ge|exact HB].
  - unfold item_w, ev_w6, v6_scal, v6sub; cbn [fst snd cp_mass cp_gravity]. f_equal; apply v3_eq; unfold mvmul, vdot; cbn; ring.
Qed.
