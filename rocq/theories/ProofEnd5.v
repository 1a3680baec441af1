(** Continuous plans with the bundled QP solver: how long the rows are (C62). *)
From Verif Require Import Vec SpecBezier SpecTime ModelData ModelWaypoints ModelDispatch ModelUtils ModelRows ModelCom ModelNd ModelCont ModelSolver ModelTraj ModelQp
  SpecCom SpecWp SpecCtr SpecCont SpecSolver SpecTraj SpecEnd SpecEnd2 ProofBezier ProofCurve ProofWaypoints ProofWaypoints2 ProofWaypointsErr ProofTime ProofTime2
  ProofRows ProofEmit ProofCom ProofCom2 ProofCom3 ProofNd ProofCont ProofCont2 ProofCont3 ProofCont4 ProofCont5 ProofCont6 ProofCont7 ProofCont8
  ProofEnd ProofEnd2.
Open Scope R_scope.

(** * The control points of a piece are in the hull of those of the curve *)
Lemma rred_le u b : 0 <= u <= 1 -> forall P, Forall (fun a => a <= b) P -> Forall (fun a => a <= b) (rred u P).
Proof.
  intros Hu. induction P as [|a P IH]; intros H; [constructor|]. destruct P as [|a' P]; [constructor|].
  change (rred u (a :: a' :: P)) with ((1 - u) * a + u * a' :: rred u (a' :: P)).
  inversion H as [|? ? Ha H']; subst. inversion H' as [|? ? Ha' _]; subst. constructor; [nra|apply IH, H'].
Qed.
Lemma rfronts_le u b : 0 <= u <= 1 -> forall n P, Forall (fun a => a <= b) P -> Forall (fun a => a <= b) (rfronts n u P).
Proof.
  intros Hu. induction n as [|n IH]; intros P H; [constructor|]. destruct P as [|a P]; [constructor|].
  change (rfronts (S n) u (a :: P)) with (a :: rfronts n u (rred u (a :: P))). constructor; [inversion H; assumption|].
  apply IH, rred_le; assumption.
Qed.
Lemma rbacks_le u b : 0 <= u <= 1 -> forall n P, Forall (fun a => a <= b) P -> Forall (fun a => a <= b) (rbacks n u P).
Proof.
  intros Hu. induction n as [|n IH]; intros P H; [constructor|]. destruct P as [|a P]; [constructor|].
  change (rbacks (S n) u (a :: P)) with (rbacks n u (rred u (a :: P)) ++ [last (a :: P) a]). apply Forall_app. split.
  - apply IH, rred_le; assumption.
  - constructor; [|constructor]. rewrite Forall_forall in H. apply H. rewrite last_nth_R by discriminate. apply nth_In. cbn; lia.
Qed.
Lemma sub_le P Q b al be : P <> [] -> length Q = length P -> 0 <= al -> al < be -> be <= 1 ->
  (forall v, bezl Q v = bezl P (al + (be - al) * v)) -> Forall (fun a => a <= b) P -> Forall (fun a => a <= b) Q.
Proof.
  intros HP HL H0 H1 H2 HE HF. set (u := al / be).
  assert (Hu : 0 <= u <= 1).
  { unfold u. split; [apply Rmult_le_pos; [exact H0|apply Rlt_le, Rinv_0_lt_compat; lra]|].
    apply Rmult_le_reg_r with be; [lra|]. unfold Rdiv. rewrite Rmult_assoc, Rinv_l by lra. lra. }
  assert (E : Q = rbacks (length P) u (rfronts (length P) be P)).
  { apply (bezl_uniq (length P)); [exact HL|apply rbacks_len, rfronts_len; reflexivity|]. intros v.
    assert (LF : length (rfronts (length P) be P) = length P) by (apply rfronts_len; reflexivity).
    rewrite HE. rewrite <- LF at 1. rewrite rbacks_bez by (intros E; rewrite E in LF; destruct P; [congruence|discriminate]).
    rewrite rfronts_bez by exact HP. f_equal. unfold u. field. lra. }
  rewrite E. apply rbacks_le; [exact Hu|]. apply rfronts_le; [lra|exact HF].
Qed.
Lemma piece_le {A} add scal (p cv : ndc A) phi b : nd_ok A cv -> piece A add scal p cv -> linear A add scal phi ->
  (forall q, In q (nd_pts cv) -> phi q <= b) -> forall q, In q (nd_pts p) -> phi q <= b.
Proof.
  intros (Hne & Hlt) ((Hnp & Hp) & HL & _ & Hm & HM & HV) Hl Hb q Hq. set (d := nd_max cv - nd_min cv). assert (Hd : 0 < d) by (unfold d; lra).
  assert (F : Forall (fun a => a <= b) (map phi (nd_pts p))).
  { apply (sub_le (map phi (nd_pts cv)) _ b ((nd_min p - nd_min cv) / d) ((nd_max p - nd_min cv) / d)).
    - intros E. apply map_eq_nil in E. contradiction.
    - rewrite !map_length. exact HL.
    - apply Rmult_le_pos; [lra|apply Rlt_le, Rinv_0_lt_compat, Hd].
    - apply Rmult_lt_compat_r; [apply Rinv_0_lt_compat, Hd|lra].
    - apply Rmult_le_reg_r with d; [exact Hd|]. unfold Rdiv. rewrite Rmult_assoc, Rinv_l by lra. unfold d. lra.
    - intros v. specialize (HV phi (nd_min p + v * (nd_max p - nd_min p)) Hl). unfold nd_val in HV. fold d in HV.
      replace ((nd_min p + v * (nd_max p - nd_min p) - nd_min p) / (nd_max p - nd_min p)) with v in HV by (field; lra).
      rewrite HV. f_equal. field. lra.
    - rewrite Forall_map. apply Forall_forall. exact Hb. }
  rewrite Forall_map, Forall_forall in F. apply F, Hq.
Qed.

(** * Maps that stretch at most by a factor *)
Definition opb (C : R) (p : aff) : Prop := forall d, vnorm (mvmul (fst p) d) <= C * vnorm d.
Definition opb6 (C : R) (w : wp6) : Prop := forall d, norm6 (v6sub (ev_w6 w d) (ev_w6 w vzero)) <= C * vnorm d.
Lemma norm_by (n c : R) : 0 <= n -> 0 <= c -> n * n <= n * c -> n <= c.
Proof. intros Hn Hc H. destruct (Rle_lt_or_eq_dec 0 n Hn) as [P|<-]; [|exact Hc]. apply Rmult_le_reg_l with n; assumption. Qed.
Lemma piece_opb C p cv : 0 <= C -> nd_ok aff cv -> piece aff aff_add aff_scal p cv -> Forall (opb C) (nd_pts cv) -> Forall (opb C) (nd_pts p).
Proof.
  intros HC Hok HP HF. rewrite Forall_forall in *. intros q Hq d. set (v := mvmul (fst q) d). pose proof (vnorm_ge v) as Hv. pose proof (vnorm_ge d) as Hd.
  apply norm_by; [exact Hv|apply Rmult_le_pos; assumption|]. rewrite vnorm_sq.
  change (vnorm2 v) with ((fun r : aff => vdot v (mvmul (fst r) d)) q). refine (piece_le aff_add aff_scal p cv _ _ Hok HP _ _ q Hq).
  - split; intros; unfold aff_add, aff_scal, madd, mscal, mvmul, vadd, vscal, vdot; cbn; ring.
  - intros r Hr. eapply Rle_trans; [apply cs3|]. apply Rmult_le_compat_l; [exact Hv|]. apply HF, Hr.
Qed.
Lemma piece_opb6 C p cv : 0 <= C -> nd_ok wp6 cv -> piece wp6 w6_add w6_scal p cv -> Forall (opb6 C) (nd_pts cv) -> Forall (opb6 C) (nd_pts p).
Proof.
  intros HC Hok HP HF. rewrite Forall_forall in *. intros q Hq d. set (v := v6sub (ev_w6 q d) (ev_w6 q vzero)). pose proof (norm6_ge v) as Hv. pose proof (vnorm_ge d) as Hd.
  apply norm_by; [exact Hv|apply Rmult_le_pos; assumption|]. rewrite norm6_sq.
  change (dot6 v v) with ((fun r : wp6 => dot6 v (v6sub (ev_w6 r d) (ev_w6 r vzero))) q). refine (piece_le w6_add w6_scal p cv _ _ Hok HP _ _ q Hq).
  - split; intros; unfold dot6, v6sub, ev_w6, w6_add, w6_scal, madd, mscal, mvmul, vadd, vsub, vscal, vdot; cbn; ring.
  - intros r Hr. eapply Rle_trans; [apply cs6|]. apply Rmult_le_compat_l; [exact Hv|]. apply HF, Hr.
Qed.
Lemma opb_row C p K : 0 <= C -> opb C p -> vnorm (vmmul K (fst p)) <= vnorm K * C.
Proof.
  intros HC H. set (r := vmmul K (fst p)). pose proof (vnorm_ge r) as Hr. pose proof (vnorm_ge K) as HK.
  apply norm_by; [exact Hr|apply Rmult_le_pos; assumption|]. rewrite vnorm_sq.
  assert (E : forall s, vdot (vmmul K (fst p)) s = vdot K (mvmul (fst p) s)) by (intros; unfold vmmul, mvmul, vadd, vscal, vdot; cbn; ring).
  change (vnorm2 r) with (vdot (vmmul K (fst p)) r). rewrite E.
  eapply Rle_trans; [apply cs3|]. replace (vnorm r * (vnorm K * C)) with (vnorm K * (C * vnorm r)) by ring. apply Rmult_le_compat_l; [exact HK|apply H].
Qed.

(** * Control points of the symbolic curve and of its second derivative *)
Lemma sym_opb p : opb 1 (sym_aff p).
Proof.
  intros d. pose proof (vnorm_ge d). unfold sym_aff. destruct (vec_isZero p); cbn [fst].
  - replace (mvmul mid d) with d; [lra|]. apply v3_eq; unfold mvmul, vdot; cbn; ring.
  - replace (mvmul mzero d) with vzero; [rewrite vnorm_zero; lra|]. apply v3_eq; unfold mvmul, vdot; cbn; ring.
Qed.
Lemma sub_opb C a b : opb C a -> opb C b -> opb (2 * C) (aff_sub b a).
Proof.
  intros Ha Hb d. replace (mvmul (fst (aff_sub b a)) d) with (vsub (mvmul (fst b) d) (mvmul (fst a) d)).
  - eapply Rle_trans; [apply vnorm_sub|]. specialize (Ha d). specialize (Hb d). lra.
  - apply v3_eq; unfold aff_sub, msub, mvmul, vsub, vdot; cbn; ring.
Qed.
Lemma diffs_opb C : forall P, Forall (opb C) P -> Forall (opb (2 * C)) (nd_diffs aff aff_sub P).
Proof.
  induction P as [|a P IH]; intros H; [constructor|]. destruct P as [|b P]; [constructor|].
  change (nd_diffs aff aff_sub (a :: b :: P)) with (aff_sub b a :: nd_diffs aff aff_sub (b :: P)).
  inversion H as [|? ? Ha H']; subst. inversion H' as [|? ? Hb _]; subst. constructor; [apply sub_opb; assumption|apply IH, H'].
Qed.
Lemma scal_opb k C D p : Rabs k * C <= D -> opb C p -> opb D (aff_scal k p).
Proof.
  intros Hk H d. replace (mvmul (fst (aff_scal k p)) d) with (vscal k (mvmul (fst p) d)).
  - rewrite vnorm_scal. pose proof (vnorm_ge d). pose proof (Rabs_pos k). eapply Rle_trans; [apply Rmult_le_compat_l; [assumption|apply H]|].
    rewrite <- Rmult_assoc. apply Rmult_le_compat_r; assumption.
  - apply v3_eq; unfold aff_scal, mscal, mvmul, vscal, vdot; cbn; ring.
Qed.
(** one derivative of a curve with at most n+1 points on an interval of length d *)
Definition dfac (scaled : bool) (n : nat) (d : R) : R := if scaled then INR n / d else INR n.
Lemma dfac_le scaled n m d : 0 < d -> (n <= m)%nat -> 0 <= dfac scaled n d <= dfac scaled m d.
Proof.
  intros Hd H. apply le_INR in H. pose proof (pos_INR n). unfold dfac. destruct scaled; [|lra].
  split; [apply Rmult_le_pos; [lra|apply Rlt_le, Rinv_0_lt_compat, Hd]|]. apply Rmult_le_compat_r; [apply Rlt_le, Rinv_0_lt_compat, Hd|lra].
Qed.
Lemma derivate1_opb scaled c c' C m : (2 <= length (nd_pts c))%nat -> (length (nd_pts c) <= S m)%nat -> nd_min c < nd_max c -> 0 <= C ->
  Forall (opb C) (nd_pts c) -> nd_derivate1 aff aff_sub aff_scal aff_zero scaled c = Ok c' ->
  Forall (opb (dfac scaled m (nd_max c - nd_min c) * (2 * C))) (nd_pts c').
Proof.
  intros H2 Hm Hlt HC HF E. unfold nd_derivate1 in E. set (k := if scaled then _ else _) in E.
  set (pts := map (aff_scal k) _) in E.
  assert (Hl : length pts = pred (length (nd_pts c))) by (unfold pts; rewrite map_length; apply diffs_len).
  assert (Hne : pts <> []) by (intros E0; rewrite E0 in Hl; cbn in Hl; lia).
  replace (match pts with [] => [aff_zero] | _ => pts end) with pts in E by (destruct pts; [congruence|reflexivity]).
  rewrite nd_make_ok in E by assumption. injection E as <-. cbn [nd_pts]. unfold pts. rewrite Forall_map.
  eapply Forall_impl; [|apply diffs_opb, HF]. intros p Hp. refine (scal_opb k _ _ p _ Hp).
  pose proof (dfac_le scaled (length (nd_pts c) - 1) m (nd_max c - nd_min c) ltac:(lra) ltac:(lia)) as K.
  change k with (dfac scaled (length (nd_pts c) - 1) (nd_max c - nd_min c)). rewrite Rabs_right by (apply Rle_ge, K). apply Rmult_le_compat_r; [lra|apply K].
Qed.
Lemma derivate2_opb scaled c c' : (3 <= length (nd_pts c) <= 7)%nat -> nd_min c < nd_max c ->
  Forall (opb 1) (nd_pts c) -> nd_derivate aff aff_sub aff_scal aff_zero scaled 2 c = Ok c' ->
  Forall (opb (if scaled then 120 / ((nd_max c - nd_min c) * (nd_max c - nd_min c)) else 120)) (nd_pts c').
Proof.
  intros HL Hlt HF E. cbn [nd_derivate] in E.
  destruct (derivate1_ok scaled c ltac:(lia) Hlt) as (c1 & E1 & O1 & m1 & M1 & L1 & _). rewrite E1 in E. cbn [bind] in E.
  destruct (nd_derivate1 aff aff_sub aff_scal aff_zero scaled c1) as [c2| |] eqn:E2; try discriminate. cbn [bind] in E. injection E as <-.
  pose proof (derivate1_opb scaled c c1 1 6 ltac:(lia) ltac:(lia) Hlt ltac:(lra) HF E1) as F1.
  pose proof (dfac_le scaled 0 6 (nd_max c - nd_min c) ltac:(lra) ltac:(lia)) as K.
  assert (K2 : 0 <= dfac scaled 6 (nd_max c - nd_min c) * (2 * 1)) by (clear - K; lra).
  assert (H1 : nd_min c1 < nd_max c1) by (rewrite m1, M1; exact Hlt).
  pose proof (derivate1_opb scaled c1 c2 _ 5 ltac:(lia) ltac:(lia) H1 K2 F1 E2) as F2.
  rewrite m1, M1 in F2. replace (if scaled then _ else _) with (dfac scaled 5 (nd_max c - nd_min c) * (2 * (dfac scaled 6 (nd_max c - nd_min c) * (2 * 1)))); [exact F2|].
  unfold dfac. replace (INR 5) with 5 by (cbn; lra). replace (INR 6) with 6 by (cbn; lra). destruct scaled; [field; lra|lra].
Qed.
Lemma pi_le pData T pi : In (flag_of pData) com_flags -> computeConstantWaypoints pData T = Ok pi -> (length pi <= 7)%nat.
Proof.
  intros Hf E. in_cases Hf; unfold computeConstantWaypoints in E; rewrite Hf in E; cbn [compConsWps find_flag bind] in E;
    cbv [c0_dc0_c1_computeConstantWaypoints c0_dc0_dc1_computeConstantWaypoints c0_dc0_dc1_c1_computeConstantWaypoints
       c0_dc0_ddc0_computeConstantWaypoints c0_dc0_ddc0_c1_computeConstantWaypoints c0_dc0_ddc0_dc1_c1_computeConstantWaypoints
       c0_dc0_ddc0_ddc1_dc1_c1_computeConstantWaypoints] in E; cbn in E;
    try (destruct (Req_EM_T _ 0); [|discriminate]); injection E as <-; cbn; lia.
Qed.
