(** Lengths of vectors, and how much a violated row costs (C53). *)
From Coq Require Import Permutation.
From Verif Require Import Vec SpecBezier ModelData ModelDispatch ModelUtils ModelRows ModelCom
  SpecCom SpecCtr SpecEnd ProofBezier ProofCurve ProofRows ProofCom.
Open Scope R_scope.

(** * Lengths *)
Lemma vnorm2_ge a : 0 <= vnorm2 a.
Proof. unfold vnorm2, vdot. nra. Qed.
Lemma vnorm_ge a : 0 <= vnorm a.
Proof. apply sqrt_pos. Qed.
Lemma vnorm_sq a : vnorm a * vnorm a = vnorm2 a.
Proof. apply sqrt_sqrt, vnorm2_ge. Qed.
Lemma norm6_ge a : 0 <= norm6 a.
Proof. apply sqrt_pos. Qed.
Lemma norm6_sq a : norm6 a * norm6 a = dot6 a a.
Proof. apply sqrt_sqrt, dot6_nonneg. Qed.
Lemma sq_le a b : 0 <= b -> a * a <= b * b -> a <= b.
Proof. intros Hb H. destruct (Rle_lt_dec a b) as [|Hlt]; [assumption|]. nra. Qed.
Lemma sq_le_lt a b : 0 <= a -> 0 <= b -> a <= b -> a * a <= b * b.
Proof. intros. nra. Qed.

Lemma cs6 a b : dot6 a b <= norm6 a * norm6 b.
Proof.
  pose proof (norm6_ge a) as Ha. pose proof (norm6_ge b) as Hb. pose proof (norm6_sq a) as Sa. pose proof (norm6_sq b) as Sb.
  set (r := norm6 a) in *. set (s := norm6 b) in *.
  assert (H : 0 <= s * s * dot6 a a - 2 * (s * r) * dot6 a b + r * r * dot6 b b).
  { pose proof (dot6_nonneg (v6sub (v6_scal s a) (v6_scal r b))) as H.
    replace (dot6 (v6sub (v6_scal s a) (v6_scal r b)) (v6sub (v6_scal s a) (v6_scal r b)))
      with (s * s * dot6 a a - 2 * (s * r) * dot6 a b + r * r * dot6 b b) in H; [exact H|].
    unfold dot6, v6sub, v6_scal, vsub, vscal, vdot; cbn [fst snd vx vy vz]. ring. }
  rewrite <- Sa, <- Sb in H. assert (H2 : 0 <= (s * r) * (r * s - dot6 a b)) by nra. clear H.
  destruct (Rle_lt_or_eq_dec 0 (s * r)) as [P|P]; [apply Rmult_le_pos; assumption| |].
  - destruct (Rle_lt_dec (dot6 a b) (r * s)) as [|Hlt]; [assumption|exfalso]. nra.
  - assert (Z : r = 0 \/ s = 0).
    { symmetry in P. apply Rmult_integral in P. tauto. }
    assert (D : dot6 a b = 0); [|rewrite D; nra].
    destruct Z as [Z|Z]; [rewrite Z, Rmult_0_l in Sa; clear - Sa; rename Sa into E|rewrite Z, Rmult_0_l in Sb; clear - Sb; rename Sb into E].
    all: destruct a as [[a1 a2 a3] [a4 a5 a6]], b as [[b1 b2 b3] [b4 b5 b6]]; unfold dot6, vdot in *; cbn [fst snd vx vy vz] in *.
    1: assert (a1 = 0 /\ a2 = 0 /\ a3 = 0 /\ a4 = 0 /\ a5 = 0 /\ a6 = 0) as (-> & -> & -> & -> & -> & ->) by (repeat split; nra).
    2: assert (b1 = 0 /\ b2 = 0 /\ b3 = 0 /\ b4 = 0 /\ b5 = 0 /\ b6 = 0) as (-> & -> & -> & -> & -> & ->) by (repeat split; nra).
    all: ring.
Qed.
Lemma norm6_v a : norm6 (a, vzero) = vnorm a.
Proof. unfold norm6, vnorm, vnorm2, dot6, vdot, vzero; cbn. f_equal. ring. Qed.
Lemma cs3 a b : vdot a b <= vnorm a * vnorm b.
Proof.
  rewrite <- (norm6_v a), <- (norm6_v b). replace (vdot a b) with (dot6 (a, vzero) (b, vzero)); [apply cs6|].
  unfold dot6, vdot, vzero; cbn. ring.
Qed.
Lemma norm6_fst a : vnorm (fst a) <= norm6 a.
Proof. apply sqrt_le_1_alt. unfold dot6, vnorm2, vdot. nra. Qed.
Lemma norm6_snd a : vnorm (snd a) <= norm6 a.
Proof. apply sqrt_le_1_alt. unfold dot6, vnorm2, vdot. nra. Qed.
Lemma vnorm_scal k a : vnorm (vscal k a) = Rabs k * vnorm a.
Proof.
  rewrite <- !norm6_v, <- norm6_scal. f_equal. unfold v6_scal; cbn. f_equal. unfold vscal, vzero; cbn. f_equal; ring.
Qed.
Lemma vnorm_triang a b : vnorm (vadd a b) <= vnorm a + vnorm b.
Proof.
  pose proof (vnorm_ge a). pose proof (vnorm_ge b). apply sq_le; [lra|]. rewrite vnorm_sq.
  replace (vnorm2 (vadd a b)) with (vnorm2 a + 2 * vdot a b + vnorm2 b) by (unfold vnorm2, vadd, vdot; cbn; ring).
  rewrite <- !vnorm_sq. pose proof (cs3 a b). nra.
Qed.
Lemma vnorm_opp a : vnorm (vopp a) = vnorm a.
Proof. unfold vnorm, vnorm2, vdot, vopp; cbn. f_equal. ring. Qed.
Lemma vnorm_sub a b : vnorm (vsub a b) <= vnorm a + vnorm b.
Proof.
  replace (vsub a b) with (vadd a (vopp b)) by (unfold vsub, vadd, vopp; cbn; f_equal; ring).
  rewrite <- (vnorm_opp b). apply vnorm_triang.
Qed.
Lemma vnorm_cross a b : vnorm (vcross a b) <= vnorm a * vnorm b.
Proof.
  pose proof (vnorm_ge a). pose proof (vnorm_ge b). apply sq_le; [nra|]. rewrite vnorm_sq.
  replace (vnorm a * vnorm b * (vnorm a * vnorm b)) with (vnorm2 a * vnorm2 b) by (rewrite <- !vnorm_sq; ring).
  assert (vnorm2 (vcross a b) = vnorm2 a * vnorm2 b - vdot a b * vdot a b) as -> by (unfold vnorm2, vcross, vdot; cbn; ring).
  nra.
Qed.
Lemma vnorm_zero : vnorm vzero = 0.
Proof. unfold vnorm, vnorm2, vdot, vzero; cbn. rewrite !Rmult_0_l, !Rplus_0_l. apply sqrt_0. Qed.
Lemma norm6_triang a b : norm6 (v6sub a b) <= norm6 a + norm6 b.
Proof.
  pose proof (norm6_ge a). pose proof (norm6_ge b). apply sq_le; [lra|]. rewrite norm6_sq.
  replace (dot6 (v6sub a b) (v6sub a b)) with (dot6 a a - 2 * dot6 a b + dot6 b b) by (unfold v6sub, dot6, vsub, vdot; cbn; ring).
  rewrite <- !norm6_sq. pose proof (cs6 (v6_scal (-1) a) b) as C. rewrite norm6_scal, (Rabs_left (-1)) in C by lra.
  replace (dot6 (v6_scal (-1) a) b) with (- dot6 a b) in C by (unfold v6_scal, dot6, vscal, vdot; cbn; ring). nra.
Qed.
Lemma norm6_split a b : norm6 (a, b) <= vnorm a + vnorm b.
Proof.
  pose proof (vnorm_ge a). pose proof (vnorm_ge b). apply sq_le; [lra|]. rewrite norm6_sq.
  replace (dot6 (a, b) (a, b)) with (vnorm2 a + vnorm2 b) by reflexivity. rewrite <- !vnorm_sq. nra.
Qed.

(** the transpose is as short as the map *)
Lemma adjoint_le u (w : wp6) B : 0 <= B -> norm6 u <= 1 ->
  (forall d, norm6 (v6sub (ev_w6 w d) (ev_w6 w vzero)) <= B * vnorm d) -> vnorm (v6_mmul u w) <= B.
Proof.
  intros HB Hu H. set (v := v6_mmul u w).
  assert (E : vnorm2 v = dot6 u (v6sub (ev_w6 w v) (ev_w6 w vzero))).
  { replace (vnorm2 v) with (vdot (v6_mmul u w) v) by reflexivity. generalize v. clear. intros d.
    unfold v6_mmul, dot6, v6sub, ev_w6, vmmul, mvmul, vadd, vsub, vdot, vscal, vzero; cbn. ring. }
  pose proof (cs6 u (v6sub (ev_w6 w v) (ev_w6 w vzero))) as C. rewrite <- E, <- vnorm_sq in C. specialize (H v).
  pose proof (norm6_ge u). pose proof (norm6_ge (v6sub (ev_w6 w v) (ev_w6 w vzero))).
  pose proof (vnorm_ge v) as V. destruct (Rle_lt_or_eq_dec _ _ V) as [P|P]; [|lra].
  apply (Rmult_le_reg_r (vnorm v)); [exact P|]. eapply Rle_trans; [exact C|]. nra.
Qed.

(** * Normalised rows *)
Definition near (tau : R) (rows : list (vec3 * R)) (x : vec3) : Prop :=
  Forall (fun r => vdot (fst r) x <= snd r + tau) rows.
Lemma near_app tau l m x : near tau (l ++ m) x <-> near tau l x /\ near tau m x.
Proof. apply Forall_app. Qed.

Lemma Normalize3_rows l : exists z l', Normalize3 l = Ok (z, l') /\ length l' = length l /\
  (forall r, In r l -> In r l' \/ (0 < vnorm (fst r) /\ In (vdivs (fst r) (vnorm (fst r)), snd r / vnorm (fst r)) l')) /\
  (forall r', In r' l' -> In r' l \/ vnorm (fst r') = 1).
Proof.
  destruct (removeZero_ok vec3 v3_isz l) as (z & l' & Hrz & HP & Hc). unfold Normalize3, Normalize. rewrite Hrz. cbn [bind fst snd].
  assert (HL : length l' = length l) by (apply Permutation_length, Permutation_sym, HP).
  assert (I1 : forall r, In r l -> In r l') by (intros r; apply Permutation_in, HP).
  assert (I2 : forall r, In r l' -> In r l) by (intros r; apply Permutation_in, Permutation_sym, HP).
  destruct (Z.ltb_spec 0 z) as [Hz|Hz]; [|exists z, l'; split; [reflexivity|]; split; [exact HL|]; split; auto].
  destruct Hc as [[-> _]|(m & -> & Hm & Ha & Hb)]; [lia|]. rewrite Nat2Z.id.
  eexists _, _. split; [reflexivity|]. split; [rewrite app_length, map_length, firstn_length, skipn_length; lia|].
  rewrite Forall_forall in Ha. split.
  - intros r Hr. apply I1 in Hr. rewrite <- (firstn_skipn m l') in Hr. apply in_app_or in Hr. destruct Hr as [Hr|Hr].
    + right. split; [apply v3_norm_pos, Ha, Hr|]. apply in_or_app. left. apply in_map_iff. exists r. split; [reflexivity|exact Hr].
    + left. apply in_or_app. right. exact Hr.
  - intros r Hr. apply in_app_or in Hr. destruct Hr as [Hr|Hr].
    + right. apply in_map_iff in Hr. destruct Hr as (r0 & <- & Hr0). cbn. apply v3_norm_div, Ha, Hr0.
    + left. apply I2. rewrite <- (firstn_skipn m l'). apply in_or_app. right. exact Hr.
Qed.

Section Stab.
  Variables (g : vec3) (m : list (v6 * R)) (w : wp6) (B : R).
  Hypothesis HB : 1 <= B.
  Hypothesis HR : forall Hh, In Hh m -> vnorm (v6_mmul (fst Hh) w) <= B.

  Lemma srows_short r : In r (srows g m w) -> vnorm (fst r) <= B.
  Proof.
    unfold srows, dynamicStabilityConstraints. set (l := map _ m).
    destruct (Normalize3_rows l) as (z & l' & -> & _ & _ & H). cbn [bind okd snd]. intros Hr. destruct (H r Hr) as [Hin| ->]; [|exact HB].
    unfold l in Hin. apply in_map_iff in Hin. destruct Hin as (Hh & <- & Hin). cbn. apply HR, Hin.
  Qed.
  Lemma srows_near tau x : 0 <= tau -> near tau (srows g m w) x ->
    Forall (fun Hh => dot6 (fst Hh) (v6sub (ev_w6 w x) (g, vzero)) <= snd Hh + tau * B) m.
  Proof.
    intros Ht. unfold srows, dynamicStabilityConstraints. set (l := map _ m).
    destruct (Normalize3_rows l) as (z & l' & -> & _ & H & _). cbn [bind okd snd]. unfold near. rewrite !Forall_forall. intros HN Hh Hin.
    pose proof (HR Hh Hin) as Hs. set (r := (v6_mmul (fst Hh) w, snd Hh + v6_dot (fst Hh) (vsub g (w_head w), vsub vzero (w_tail w)))).
    assert (Hr : In r l) by (unfold l; apply in_map_iff; exists Hh; split; [reflexivity|exact Hin]).
    assert (K : vdot (fst r) x <= snd r + tau * B).
    { destruct (H r Hr) as [Hr'|[P Hr']]; specialize (HN _ Hr').
      - eapply Rle_trans; [exact HN|]. nra.
      - cbn [fst snd] in HN. rewrite v3_dot_div in HN. apply (Rmult_le_compat_r (vnorm (fst r))) in HN; [|lra].
        unfold Rdiv in HN. rewrite Rmult_assoc, Rinv_l, Rmult_1_r in HN by lra.
        rewrite Rmult_plus_distr_r, Rmult_assoc, Rinv_l, Rmult_1_r in HN by lra. change (vnorm (fst r)) with (vnorm (v6_mmul (fst Hh) w)) in *.
        eapply Rle_trans; [exact HN|]. apply Rplus_le_compat_l, Rmult_le_compat_l; assumption. }
    unfold r in K. cbn [fst snd] in K. apply (stab_row_ok (fst Hh) (snd Hh + tau * B) g w x). lra.
  Qed.
End Stab.

(** * The other rows *)
Lemma krow_near co x tau : forall kin Kin l, kin_rows (kin_row co) Kin kin = Ok l -> near tau l x ->
  forall i K k, nth_error Kin i = Some K -> nth_error kin i = Some k -> vdot K (ev_coefs co x) <= k + tau.
Proof.
  induction kin as [|k kin IH]; intros Kin l H HN i K k' HK Hk; [destruct i; discriminate|].
  destruct Kin as [|K0 Kin]; [discriminate|]. cbn [kin_rows] in H.
  destruct (kin_rows (kin_row co) Kin kin) as [rs| |] eqn:E; try discriminate. cbn [bind] in H. injection H as <-.
  inversion HN as [|? ? H1 H2]; subst. destruct i as [|i]; cbn in HK, Hk; [|eapply IH; eauto].
  injection HK as <-. injection Hk as <-. apply (kin_row_ok co K0 (k + tau) x). unfold kin_row in *; cbn [fst snd] in *. lra.
Qed.
Lemma krow_short co kap : Rabs (fst co) <= 1 -> forall kin Kin l, kin_rows (kin_row co) Kin kin = Ok l ->
  (forall K, In K Kin -> vnorm K <= kap) -> forall r, In r l -> vnorm (fst r) <= kap.
Proof.
  intros Hc. induction kin as [|k kin IH]; intros Kin l H HK r Hr.
  - assert (l = []) as -> by (destruct Kin; inversion H; reflexivity). destruct Hr.
  - destruct Kin as [|K0 Kin]; [discriminate|]. cbn [kin_rows] in H.
    destruct (kin_rows (kin_row co) Kin kin) as [rs| |] eqn:E; try discriminate. cbn [bind] in H. injection H as <-.
    destruct Hr as [<-|Hr]; [|eapply IH; eauto; intros; apply HK; right; assumption]. unfold kin_row; cbn [fst].
    rewrite vnorm_scal. specialize (HK K0 (or_introl eq_refl)). pose proof (vnorm_ge K0). pose proof (Rabs_pos (fst co)). nra.
Qed.
Lemma acc_near a v amax tau x : near tau (acc_rows (mscal a mid) v amax) x -> within (amax + tau) (ev_coefs (a, v) x).
Proof.
  intros H. apply acc_rows_sat. unfold near, sat, acc_rows in *. rewrite !Forall_cons_iff in *. cbn [fst snd] in *.
  destruct H as (H1 & H2 & H3 & H4 & H5 & H6 & H7). repeat split; try lra. constructor.
Qed.
Lemma acc_short a v amax r : In r (acc_rows (mscal a mid) v amax) -> vnorm (fst r) = Rabs a.
Proof.
  assert (E : forall b1 b2 b3, b1 * b1 + b2 * b2 + b3 * b3 = 1 -> vnorm (vscal a (V3 b1 b2 b3)) = Rabs a).
  { intros b1 b2 b3 H. rewrite vnorm_scal. unfold vnorm, vnorm2, vdot; cbn. rewrite H, sqrt_1. ring. }
  unfold acc_rows, mscal, mid; cbn [row0 row1 row2].
  intros [<-|[<-|[<-|[<-|[<-|[<-|[]]]]]]]; cbn [fst]; rewrite ?vnorm_opp; apply E; ring.
Qed.
