(** The end-effector planner with the bundled QP solver: the cost. *)
From Coq Require Import Lia Lra Psatz.
From Verif Require Import Vec SpecBezier ModelData ModelUtils ModelRows ModelWaypointsJerk ModelDispatch ModelCont ModelSolver ModelTraj ModelEff ModelQp
  Spec0Step SpecCom SpecWp SpecSolver SpecTraj SpecEff SpecEnd3 SpecEnd4 ProofBezier ProofCurve ProofCom ProofWp ProofWaypoints ProofWaypoints2 ProofSolver ProofTraj ProofTraj2 Proof0Step2
  ProofEff ProofEff2 ProofEff3 ProofEff4 ProofEff5 ProofEff6 ProofEff7 ProofEff8 ProofEff9 ProofEff11 ProofEff12 ProofEff13 ProofEff14 ProofQp ProofQp3 ProofQp16 SpecQp.
Import ListNotations.
Open Scope R_scope.

(** * Convexity of the velocity cost *)
Lemma h10_pos3 x : 3 / 10 * (x 0%nat * x 0%nat + x 1%nat * x 1%nat + x 2%nat * x 2%nat) <= h10 x.
Proof.
  pose proof (Rle_0_sqr (x 0%nat + (729 / 1000) * x 1%nat + (162 / 1000) * x 2%nat)) as S0; unfold Rsqr in S0.
  pose proof (Rle_0_sqr (x 1%nat + (1531 / 1000) * x 2%nat)) as S1; unfold Rsqr in S1.
  pose proof (Rle_0_sqr (x 0%nat - x 1%nat)) as S3; unfold Rsqr in S3.
  pose proof (Rle_0_sqr (x 0%nat + x 2%nat)) as S4; unfold Rsqr in S4.
  pose proof (Rle_0_sqr (x 1%nat + x 2%nat)) as S5; unfold Rsqr in S5.
  pose proof (Rle_0_sqr (x 2%nat)) as S2; unfold Rsqr in S2.
  pose proof (Rle_0_sqr (x 0%nat)) as Q0; unfold Rsqr in Q0.
  pose proof (Rle_0_sqr (x 0%nat + x 1%nat)) as P01; unfold Rsqr in P01.
  pose proof (Rle_0_sqr (x 0%nat - x 2%nat)) as P02; unfold Rsqr in P02.
  pose proof (Rle_0_sqr (x 1%nat)) as Q1; unfold Rsqr in Q1.
  pose proof (Rle_0_sqr (x 1%nat - x 2%nat)) as P12; unfold Rsqr in P12.
  unfold h10. lra.
Qed.
Lemma h8_pos6 x : 65 / 10 * (x 0%nat * x 0%nat) <= h8 x.
Proof. pose proof (Rle_0_sqr (x 0%nat)) as S0; unfold Rsqr in S0. unfold h8. lra. Qed.

Definition hmin (flag : Z) : R := if Z.eqb flag F_jerk then 65 / 10 else if Z.eqb flag F_x3 then 3 / 10 else 1 / 100.
Lemma hform_min flag x : hmin flag * sumf (eff_free flag) (fun i => x i * x i) <= hform flag x.
Proof.
  unfold hform, hmin, eff_free. destruct (Z.eqb flag F_jerk); [|destruct (Z.eqb flag F_x3)]; cbn [sumf].
  - pose proof (h8_pos6 x). lra.
  - pose proof (h10_pos3 x). lra.
  - pose proof (h12_pos x). lra.
Qed.
Lemma flat_sq : forall xs, rdot (flat xs) (flat xs) =
  sumf (length xs) (fun i => coord vx xs i * coord vx xs i) + sumf (length xs) (fun i => coord vy xs i * coord vy xs i) + sumf (length xs) (fun i => coord vz xs i * coord vz xs i).
Proof.
  induction xs as [|x xs IH]; [cbn; ring|].
  unfold flat. cbn [map concat]. rewrite rdot_app by reflexivity. fold (flat xs). rewrite IH, rdot_l3x. cbn [length].
  assert (S : forall (f : vec3 -> R), sumf (S (length xs)) (fun i => coord f (x :: xs) i * coord f (x :: xs) i) = f x * f x + sumf (length xs) (fun i => coord f xs i * coord f xs i)).
  { intros f. rewrite sumf_S_l. reflexivity. }
  rewrite !S. unfold vdot. ring.
Qed.

Definition hmax (flag : Z) : R := if Z.eqb flag F_jerk then 12 else if Z.eqb flag F_x3 then 30 else 50.
Lemma hconv flag : eff_convexity flag * hmax flag <= hmin flag /\ 0 < hmax flag /\ 0 < eff_convexity flag.
Proof. unfold eff_convexity, hmax, hmin. destruct (Z.eqb flag F_jerk); [|destruct (Z.eqb flag F_x3)]; lra. Qed.
Lemma nrm1 h T : T <> 0 -> mat3_norm2 (mdivs (mscal h mid) T) = 3 * (h * h) * (/ T * / T).
Proof. intros HT. unfold mat3_norm2, vnorm2, vdot. cbn. field. exact HT. Qed.
Lemma nrm2 h T : T <> 0 -> mat3_norm2 (mdivs (mscal h mid) (2 * T)) = 3 / 4 * (h * h) * (/ T * / T).
Proof. intros HT. unfold mat3_norm2, vnorm2, vdot. cbn. field. exact HT. Qed.
Lemma norm_le S C T : 0 < T -> 0 <= C -> S <= C * C * (/ T * / T) -> sqrt S * T <= C.
Proof.
  intros HT HC H. assert (HI : 0 < / T) by (apply Rinv_0_lt_compat; exact HT).
  assert (L : sqrt S <= C * / T).
  { rewrite <- (sqrt_square (C * / T)) by (apply Rmult_le_pos; lra). apply sqrt_le_1_alt. replace (C * / T * (C * / T)) with (C * C * (/ T * / T)) by ring. exact H. }
  apply Rle_trans with (C * / T * T); [apply Rmult_le_compat_r; lra|]. rewrite Rmult_assoc, Rinv_l by lra. lra.
Qed.
Ltac norm_bound := unfold blocks_norm; apply norm_le; [assumption|lra|]; cbn [map fold_right]; repeat rewrite nrm2 by assumption; repeat rewrite nrm1 by assumption;
  match goal with |- context [/ ?t * / ?t] => let P := fresh in pose proof (Rle_0_sqr (/ t)) as P; unfold Rsqr in P; revert P; generalize (/ t * / t) end; intros w Hw; lra.
Lemma velcost_shape pData T xs0 pi pts0 H g :
  0 < T -> eff_shape pData T xs0 pi pts0 -> computeVelocityCost pData T pi = Ok (H, g) ->
  exists B, H = map (map (fun m => mdivs m (blocks_norm B))) B /\ 0 < blocks_norm B /\ blocks_norm B * T <= hmax (flag_of pData) /\
    forall xs, length xs = eff_free (flag_of pData) ->
    blocks_norm B * T * quad (blocks_matx H) (flat xs) =
      hform (flag_of pData) (coord vx xs) + hform (flag_of pData) (coord vy xs) + hform (flag_of pData) (coord vz xs).
Proof.
  intros HT Hs0. assert (HT0 : T <> 0) by lra. assert (HT2 : 2 * T <> 0) by lra.
  eff_cases Hs0; unfold computeVelocityCost; eff_flag.
  - change (find_flag _ F_jerk) with (Ok j0j1_computeVelocityCost). cbn [bind]. unfold j0j1_computeVelocityCost.
    cbn [bind get nth_error]. cbv zeta.
    match goal with |- context [blocks_norm ?B] =>
      assert (HN : 0 < blocks_norm B) by (apply (blocks_norm_pos (652680652684107 / 100000000000000) T); [lra|exact HT]);
      assert (HM : blocks_norm B * T <= hmax F_jerk) by (unfold hmax; simpl Z.eqb; cbv iota; norm_bound);
      intros HE; exists B; assert (EH := f_equal (fun o => match o with Ok p => fst p | _ => [] end) HE); cbn [fst] in EH;
      split; [symmetry; exact EH|]; clear EH; split; [exact HN|]; split; [exact HM|]; clear HM; set (N := blocks_norm B) in * end.
    injection HE as <- _.
    intros xs Lx. assert (HN0 : N <> 0) by lra. clearbody N. destruct (list1 _ Lx) as [x ->].
    unfold quad. rewrite quad_blocks by (try (repeat (apply Forall_cons; [reflexivity|]); apply Forall_nil); reflexivity).
    cbn [map map2 fold_right ev_blocks]. rewrite !blk by assumption.
    unfold hform. simpl Z.eqb. cbv iota. close_form h8.
  - change (find_flag _ F_x3) with (Ok x3_computeVelocityCost). cbn [bind]. unfold x3_computeVelocityCost.
    cbn [bind get nth_error]. cbv zeta.
    match goal with |- context [blocks_norm ?B] =>
      assert (HN : 0 < blocks_norm B) by (apply (blocks_norm_pos (777457833646806 / 100000000000000) T); [lra|exact HT]);
      assert (HM : blocks_norm B * T <= hmax F_x3) by (unfold hmax; simpl Z.eqb; cbv iota; norm_bound);
      intros HE; exists B; assert (EH := f_equal (fun o => match o with Ok p => fst p | _ => [] end) HE); cbn [fst] in EH;
      split; [symmetry; exact EH|]; clear EH; split; [exact HN|]; split; [exact HM|]; clear HM; set (N := blocks_norm B) in * end.
    injection HE as <- _.
    intros xs Lx. assert (HN0 : N <> 0) by lra. clearbody N. destruct (list3v _ Lx) as (x & y & z & ->).
    unfold quad. rewrite quad_blocks by (try (repeat (apply Forall_cons; [reflexivity|]); apply Forall_nil); reflexivity).
    cbn [map map2 fold_right ev_blocks]. rewrite !blk by assumption.
    unfold hform. simpl Z.eqb. cbv iota. close_form h10.
  - change (find_flag _ F_x5) with (Ok x5_computeVelocityCost). cbn [bind]. unfold x5_computeVelocityCost.
    cbn [bind get nth_error]. cbv zeta.
    match goal with |- context [blocks_norm ?B] =>
      assert (HN : 0 < blocks_norm B) by (apply (blocks_norm_pos (963290527229048 / 100000000000000) T); [lra|exact HT]);
      assert (HM : blocks_norm B * T <= hmax F_x5) by (unfold hmax; simpl Z.eqb; cbv iota; norm_bound);
      intros HE; exists B; assert (EH := f_equal (fun o => match o with Ok p => fst p | _ => [] end) HE); cbn [fst] in EH;
      split; [symmetry; exact EH|]; clear EH; split; [exact HN|]; split; [exact HM|]; clear HM; set (N := blocks_norm B) in * end.
    injection HE as <- _.
    intros xs Lx. assert (HN0 : N <> 0) by lra. clearbody N. destruct (list5v _ Lx) as (x & y & z & u & v & ->).
    unfold quad. rewrite quad_blocks by (try (repeat (apply Forall_cons; [reflexivity|]); apply Forall_nil); reflexivity).
    cbn [map map2 fold_right ev_blocks]. rewrite !blk by assumption.
    unfold hform. simpl Z.eqb. cbv iota. close_form h12.
Qed.

Lemma velcost_lam pData T xs0 pi pts0 H g :
  0 < T -> eff_shape pData T xs0 pi pts0 -> computeVelocityCost pData T pi = Ok (H, g) ->
  forall xs, length xs = eff_free (flag_of pData) ->
  eff_convexity (flag_of pData) * rdot (flat xs) (flat xs) <= quad (blocks_matx H) (flat xs).
Proof.
  intros HT Hs HE xs Lx. destruct (velcost_shape _ _ _ _ _ _ _ HT Hs HE) as (B & _ & HN & HM & HQ). specialize (HQ xs Lx).
  pose proof (hform_min (flag_of pData) (coord vx xs)) as Px. pose proof (hform_min (flag_of pData) (coord vy xs)) as Py. pose proof (hform_min (flag_of pData) (coord vz xs)) as Pz.
  destruct (hconv (flag_of pData)) as (C1 & C2 & C3). rewrite flat_sq, Lx.
  set (Sx := sumf _ _) in *. set (Sy := sumf _ (fun i => coord vy xs i * _)) in *. set (Sz := sumf _ (fun i => coord vz xs i * _)) in *.
  assert (P : 0 <= Sx + Sy + Sz).
  { pose proof (sumf_sq_nonneg (eff_free (flag_of pData)) (coord vx xs)). pose proof (sumf_sq_nonneg (eff_free (flag_of pData)) (coord vy xs)). pose proof (sumf_sq_nonneg (eff_free (flag_of pData)) (coord vz xs)). unfold Sx, Sy, Sz. lra. }
  assert (HNT : 0 < blocks_norm B * T) by (apply Rmult_lt_0_compat; assumption).
  set (N := blocks_norm B * T) in *. apply Rmult_le_reg_l with N; [exact HNT|]. rewrite HQ.
  apply Rle_trans with (hmin (flag_of pData) * (Sx + Sy + Sz)); [|lra].
  replace (N * (eff_convexity (flag_of pData) * (Sx + Sy + Sz))) with (eff_convexity (flag_of pData) * N * (Sx + Sy + Sz)) by ring.
  apply Rmult_le_compat_r; [exact P|]. apply Rle_trans with (eff_convexity (flag_of pData) * hmax (flag_of pData)); [apply Rmult_le_compat_l; lra|exact C1].
Qed.

(** * Entries at most one *)
Definition small (M : list (list R)) : Prop := forall r a, In r M -> In a r -> Rabs a <= 1.
Lemma sq_abs a N : 0 <= N -> a * a <= N * N -> Rabs a <= N.
Proof. intros HN H. apply Rabs_le. split; nra. Qed.
Lemma in_sum_le {A} (f : A -> R) l a : (forall x, 0 <= f x) -> In a l -> f a <= fold_right Rplus 0 (map f l).
Proof.
  intros HP. induction l as [|b l IH]; [contradiction|]. cbn [map fold_right]. pose proof (fold_nonneg f l HP). pose proof (HP b). intros [->|Hin]; [lra|]. specialize (IH Hin). lra.
Qed.
Lemma blocks_norm_sq B : blocks_norm B * blocks_norm B = fold_right Rplus 0 (map (fun r => fold_right Rplus 0 (map mat3_norm2 r)) B).
Proof. unfold blocks_norm. apply sqrt_sqrt. apply fold_nonneg. intros r. apply fold_nonneg. exact mat3_norm2_nonneg. Qed.
Lemma in_blocks (f : mat3 -> vec3) (bs : list mat3) a : In a (concat (map (fun m => l3 (f m)) bs)) -> exists m, In m bs /\ In a (l3 (f m)).
Proof. intros H. apply in_concat in H. destruct H as (l & Hl & Ha). apply in_map_iff in Hl. destruct Hl as (m & <- & Hm). exists m. auto. Qed.
Lemma l3_norm2 a v : In a (l3 v) -> a * a <= vnorm2 v.
Proof.
  unfold vnorm2, vdot. pose proof (Rle_0_sqr (vx v)). pose proof (Rle_0_sqr (vy v)). pose proof (Rle_0_sqr (vz v)). unfold Rsqr in *.
  intros [<-|[<-|[<-|[]]]]; lra.
Qed.
Lemma norm2_div v N : 0 < N -> vnorm2 (vdivs v N) = vnorm2 v / (N * N).
Proof. intros HN. unfold vnorm2, vdot. cbn. field. lra. Qed.
Lemma mat_div_rows m N : row0 (mdivs m N) = vdivs (row0 m) N /\ row1 (mdivs m N) = vdivs (row1 m) N /\ row2 (mdivs m N) = vdivs (row2 m) N.
Proof. repeat split. Qed.
Lemma blocks_small B : 0 < blocks_norm B -> small (blocks_matx (map (map (fun m => mdivs m (blocks_norm B))) B)).
Proof.
  intros HN r a Hr Ha. set (N := blocks_norm B) in *. assert (HNN : 0 < N * N) by (apply Rmult_lt_0_compat; assumption).
  unfold blocks_matx in Hr. apply in_concat in Hr. destruct Hr as (l & Hl & Hr). apply in_map_iff in Hl. destruct Hl as (bs' & <- & Hb). apply in_map_iff in Hb. destruct Hb as (bs & <- & Hb).
  assert (G : forall f, (forall m, f (mdivs m N) = vdivs (f m) N) -> (forall m, vnorm2 (f m) <= mat3_norm2 m) ->
    In a (concat (map (fun m => l3 (f m)) (map (fun m => mdivs m N) bs))) -> Rabs a <= 1).
  { intros f Hf Hle H. apply in_blocks in H. destruct H as (m' & Hm & Hin). apply in_map_iff in Hm. destruct Hm as (m & <- & Hm).
    apply l3_norm2 in Hin. rewrite Hf, norm2_div in Hin by exact HN. apply sq_abs; [lra|]. eapply Rle_trans; [exact Hin|].
    assert (L : vnorm2 (f m) <= N * N).
    { unfold N. rewrite blocks_norm_sq. eapply Rle_trans; [apply Hle|]. eapply Rle_trans; [apply (in_sum_le mat3_norm2 bs m mat3_norm2_nonneg Hm)|].
      apply (in_sum_le (fun r => fold_right Rplus 0 (map mat3_norm2 r)) B bs); [intros; apply fold_nonneg; exact mat3_norm2_nonneg|exact Hb]. }
    apply Rmult_le_reg_r with (N * N); [exact HNN|]. unfold Rdiv. rewrite Rmult_assoc, Rinv_l by lra. lra. }
  assert (P : forall v, 0 <= vnorm2 v) by (intros; apply vnorm2_nonneg).
  destruct Hr as [<-|[<-|[<-|[]]]]; revert Ha; apply G; try (intros; reflexivity); intros m; unfold mat3_norm2;
    pose proof (P (row0 m)); pose proof (P (row1 m)); pose proof (P (row2 m)); lra.
Qed.
Lemma sumR_map_ge {A} (f : A -> R) l a : (forall x, 0 <= f x) -> In a l -> f a <= sumR (map f l).
Proof. intros HP Hin. exact (in_sum_le f l a HP Hin). Qed.
Lemma sumsqx_nonneg v : 0 <= sumsqx v.
Proof. unfold sumsqx. exact (fold_nonneg (fun a => a * a) v (fun a => Rle_0_sqr a)). Qed.
Lemma matx_small M : 0 < matx_norm M -> small (matx_div M (matx_norm M)).
Proof.
  intros HN r a Hr Ha. set (N := matx_norm M) in *. apply in_map_iff in Hr. destruct Hr as (r0 & <- & Hr). apply in_map_iff in Ha. destruct Ha as (b & <- & Hb).
  assert (L : b * b <= N * N).
  { unfold N, matx_norm. rewrite sqrt_sqrt by (exact (fold_nonneg sumsqx M sumsqx_nonneg)).
    eapply Rle_trans; [apply (sumR_map_ge (fun a => a * a) r0 b (fun a => Rle_0_sqr a) Hb)|]. exact (sumR_map_ge sumsqx M r0 sumsqx_nonneg Hr). }
  apply sq_abs; [lra|]. replace (b / N * (b / N)) with (b * b / (N * N)) by (field; lra).
  assert (HNN : 0 < N * N) by (apply Rmult_lt_0_compat; assumption).
  apply Rmult_le_reg_r with (N * N); [exact HNN|]. unfold Rdiv. rewrite Rmult_assoc, Rinv_l by lra. lra.
Qed.
Lemma small_zero n : small (matx_zero n).
Proof. intros r a Hr Ha. unfold matx_zero in Hr. apply repeat_spec in Hr. subst r. apply repeat_spec in Ha. subst a. rewrite Rabs_R0. lra. Qed.
Lemma small_at M i j : small M -> Rabs (nth j (nth i M []) 0) <= 1.
Proof.
  intros S. destruct (Nat.lt_ge_cases i (length M)) as [Hi|Hi].
  - destruct (Nat.lt_ge_cases j (length (nth i M []))) as [Hj|Hj].
    + apply (S (nth i M [])); [apply nth_In; exact Hi|apply nth_In; exact Hj].
    + rewrite (nth_overflow (nth i M [])) by exact Hj. rewrite Rabs_R0. lra.
  - rewrite (nth_overflow M) by exact Hi. destruct j; cbn; rewrite Rabs_R0; lra.
Qed.

(** * Symmetry *)
Definition symx (n : nat) (M : list (list R)) : Prop := forall i j, (i < n)%nat -> (j < n)%nat -> nth j (nth i M []) 0 = nth i (nth j M []) 0.
Lemma entry_add n A B i j : square n A -> square n B -> (i < n)%nat -> (j < n)%nat ->
  nth j (nth i (matx_add A B) []) 0 = nth j (nth i A []) 0 + nth j (nth i B []) 0.
Proof.
  intros [LA FA] [LB FB] Hi Hj. unfold matx_add. rewrite (map2_nth vecx_add [] [] []) by lia. rewrite Forall_forall in FA, FB.
  unfold vecx_add. apply map2_nth; rewrite ?FA, ?FB by (apply nth_In; lia); lia.
Qed.
Lemma entry_scal k A i j : nth j (nth i (matx_scal k A) []) 0 = k * nth j (nth i A []) 0.
Proof.
  unfold matx_scal, vecx_scal. change (@nil R) with (map (Rmult k) []) at 1. rewrite map_nth. replace 0 with (k * 0) at 1 by ring. apply map_nth.
Qed.
Lemma entry_div k A i j : nth j (nth i (matx_div A k) []) 0 = nth j (nth i A []) 0 / k.
Proof.
  unfold matx_div, vecx_div. change (@nil R) with (map (fun a => a / k) []) at 1. rewrite (map_nth (fun r => map (fun a => a / k) r)).
  replace 0 with (0 / k) at 1 by (unfold Rdiv; ring). apply (map_nth (fun a => a / k)).
Qed.
Lemma symx_add n A B : square n A -> square n B -> symx n A -> symx n B -> symx n (matx_add A B).
Proof. intros SA SB HA HB i j Hi Hj. rewrite !(entry_add n) by assumption. rewrite (HA i j), (HB i j) by assumption. reflexivity. Qed.
Lemma symx_scal n k A : symx n A -> symx n (matx_scal k A).
Proof. intros HA i j Hi Hj. rewrite !entry_scal, (HA i j) by assumption. reflexivity. Qed.
Lemma symx_div n k A : symx n A -> symx n (matx_div A k).
Proof. intros HA i j Hi Hj. rewrite !entry_div, (HA i j) by assumption. reflexivity. Qed.
Lemma nth_row_zero n m i : nth i (nth m (matx_zero n) []) 0 = 0.
Proof.
  unfold matx_zero. destruct (Nat.lt_ge_cases m n) as [H|H].
  - replace (nth m (repeat (repeat 0 n) n) []) with (repeat 0 n); [apply nth_repeat|]. rewrite (nth_indep _ [] (repeat 0 n)) by (rewrite repeat_length; exact H). symmetry. apply nth_repeat.
  - rewrite (nth_overflow (repeat (repeat 0 n) n)) by (rewrite repeat_length; exact H). destruct i; reflexivity.
Qed.
Lemma symx_zero n : symx n (matx_zero n).
Proof. intros i j _ _. rewrite !nth_row_zero. reflexivity. Qed.
Lemma symx_outer n r : length r = n -> symx n (map (fun a => vecx_scal a r) r).
Proof.
  intros Hl i j Hi Hj. 
  assert (E : forall a b, (a < n)%nat -> nth b (nth a (map (fun a => vecx_scal a r) r) []) 0 = nth a r 0 * nth b r 0).
  { intros a b Ha. rewrite (nth_indep _ [] (vecx_scal 0 r)) by (rewrite map_length; lia). rewrite (map_nth (fun a => vecx_scal a r)). unfold vecx_scal.
    generalize (nth a r 0). intros k. rewrite <- (Rmult_0_r k) at 1. apply (map_nth (Rmult k)). }
  rewrite !E by assumption. ring.
Qed.
Lemma symx_mtm n M : Forall (fun r => length r = n) M -> symx n (mtm n M).
Proof.
  induction 1 as [|r M E F IH]; [apply symx_zero|]. cbn [mtm]. apply symx_add; [apply outer_square; exact E|apply mtm_square; exact F|apply symx_outer; exact E|exact IH].
Qed.
Lemma dist_loop_sym pData pi step pts : forall n i H g H' g', dist_loop pData pi step pts i n H g = Ok (H', g') ->
  square (dimVar pData) H -> symx (dimVar pData) H -> square (dimVar pData) H' /\ symx (dimVar pData) H'.
Proof.
  induction n as [|n IH]; intros i H g H' g' E SH YH.
  - cbn [dist_loop] in E. injection E as <- <-. auto.
  - cbn [dist_loop] in E. destruct (evaluateCurveWaypointAtTime _ _ _) as [w| |]; try discriminate. cbn [bind] in E.
    destruct (get pts i) as [pk| |]; try discriminate. cbn [bind] in E.
    destruct (Nat.eqb_spec (3 * length (wn_blocks w)) (dimVar pData)) as [E3|]; try discriminate. cbn [negb] in E.
    apply IH in E; [exact E| |].
    + apply square_add; [exact SH|]. apply mtm_square, wpn_rows_len. exact E3.
    + apply symx_add; [exact SH|apply mtm_square, wpn_rows_len; exact E3|exact YH|apply symx_mtm, wpn_rows_len; exact E3].
Qed.
Lemma dist_cost_sym N pData T path Hd gd : computeDistanceCostFunction_path N pData T path = Ok (Hd, gd) ->
  square (dimVar pData) Hd /\ symx (dimVar pData) Hd /\ small Hd.
Proof.
  unfold computeDistanceCostFunction_path, computeDistanceCostFunction. destruct (Nat.eqb N 1); [discriminate|].
  destruct (mapM _ _) as [pts| |]; try discriminate. cbn [bind]. destruct (computeConstantWaypoints pData T) as [pi| |]; try discriminate. cbn [bind].
  destruct (dist_loop _ _ _ _ _ _ _ _) as [[H g]| |] eqn:E; try discriminate. cbn [bind fst snd].
  destruct (Req_EM_T (matx_norm H) 0) as [|HN]; [discriminate|]. intros HE. injection HE as <- _.
  destruct (dist_loop_sym _ _ _ _ _ _ _ _ _ _ E (square_zero _) (symx_zero _)) as [S Y].
  split; [apply square_div; exact S|]. split; [apply symx_div; exact Y|].
  apply matx_small. pose proof (sqrt_pos (sumR (map sumsqx H))); unfold matx_norm in *; lra.
Qed.

(** * The whole cost *)
Lemma eff_hessian pData T path (p : R -> vec3) pi wd H g :
  In (flag_of pData) effector_flags -> 0 < T -> (forall s, 0 <= s <= 1 -> path s = Ok (p s)) -> 0 <= wd <= 1 ->
  computeConstantWaypoints pData T = Ok pi -> computeEndEffectorCost pData path T wd pi = Ok (H, g) ->
  let n := (3 * eff_free (flag_of pData))%nat in
  length g = n /\ square n H /\ symx n H /\
  (forall v, length v = n -> (1 - wd) * eff_convexity (flag_of pData) * rdot v v <= quad H v) /\
  (forall i, Rabs (nth i (nth i H []) 0) <= 1).
Proof.
  intros Hin HT Hp Hw Hc HE n.
  destruct (c36_velocity pData T Hin HT) as (pi' & Hv & gv & N & Kv & Hc' & EV & HN & _ & HV). rewrite Hc in Hc'. injection Hc' as <-.
  destruct (eff_shape_total pData T _ Hin (repeat_length vzero _)) as (pi' & pts0 & Hc' & Hs0). rewrite Hc in Hc'. injection Hc' as <-.
  assert (SZ : length Hv = eff_free (flag_of pData) /\ Forall (fun bs => length bs = eff_free (flag_of pData)) Hv /\ length gv = eff_free (flag_of pData)).
  { destruct (velcost_form _ _ _ _ _ HT Hs0) as (H' & g' & N' & HE' & _ & A & B & C & _). rewrite EV in HE'. injection HE' as <- <-.
    rewrite repeat_length in *. auto. }
  destruct SZ as (LH & FH & Lg). pose proof (blocks_square _ Hv LH FH) as SqV. fold n in SqV.
  assert (LgV : length (concat (map l3 gv)) = n).
  { unfold n. rewrite <- Lg. clear. induction gv as [|a l IH]; [reflexivity|]. cbn [map concat]. rewrite app_length, IH. cbn [length l3]. lia. }
  destruct (velcost_shape _ _ _ _ _ _ _ HT Hs0 EV) as (B & EB & HNB & _).
  assert (SmV : small (blocks_matx Hv)) by (rewrite EB; apply blocks_small; exact HNB).
  assert (SyV : symx n (blocks_matx Hv)) by (intros i j _ _; apply (velcost_sym _ _ _ _ _ _ _ Hs0 EV)).
  assert (DV : dimVar pData = n) by (apply (dim_nf pData Hin)).
  assert (DP : exists Hd gd, (if Rlt_dec 0 wd then computeDistanceCostFunction_path 50 pData T path
          else Ok (matx_zero (dimVar pData), repeat 0 (dimVar pData))) = Ok (Hd, gd) /\ square n Hd /\ length gd = n /\ symx n Hd /\ small Hd /\
      (forall xs, length xs = eff_free (flag_of pData) -> 0 <= quad Hd (flat xs))).
  { destruct (Rlt_dec 0 wd) as [Pw|Pw].
    - destruct (c35_path 50 pData T path p Hin HT ltac:(lia) Hp) as (Hd & gd & k & K & Ed & Hk & Sd & Ld & Qd).
      destruct (dist_cost_sym _ _ _ _ _ _ Ed) as (_ & Y & Sm). rewrite DV in Y.
      exists Hd, gd. split; [exact Ed|]. split; [exact Sd|]. split; [exact Ld|]. split; [exact Y|]. split; [exact Sm|].
      rewrite (path_ok 50 pData T path p ltac:(lia) Hp) in Ed.
      destruct (dist_quad pData T pi _ Hd gd 50 Hin HT Hc ltac:(lia) (Nat.eq_le_incl _ _ (eq_sym (eq_trans (map_length _ _) (seq_length 50 0)))) Ed) as (k' & Hk' & HQ').
      intros xs Lx. specialize (HQ' xs Lx).
      pose proof (wsum_nonneg (fun i => vnorm2 (ev_blocks (wn_blocks (okw (evaluateCurveWaypointAtTime pData pi (INR i * (1 / (INR 50 - 1)))))) xs)) 0 50 (fun k => vnorm2_nonneg _)) as P0.
      rewrite <- HQ' in P0. apply Rmult_le_reg_l with k'; [exact Hk'|lra].
    - exists (matx_zero n), (repeat 0 n). rewrite DV. split; [reflexivity|]. split; [apply square_zero|]. split; [apply repeat_length|]. split; [apply symx_zero|]. split; [apply small_zero|].
      intros xs Lx. rewrite quad_zero. lra. }
  destruct DP as (Hd & gd & Ed & Sd & Ld & Yd & Smd & Pd).
  unfold computeEndEffectorCost in HE. rewrite Ed in HE. cbn [bind] in HE. rewrite EV in HE. cbn [bind fst snd] in HE. injection HE as <- <-.
  assert (S1 : square n (matx_scal (1 - wd) (blocks_matx Hv))) by (apply square_scal; exact SqV).
  assert (S2 : square n (matx_scal wd Hd)) by (apply square_scal; exact Sd).
  split. { rewrite vecx_add_len; unfold vecx_scal; rewrite ?map_length; lia. }
  split; [apply square_add; assumption|]. split; [apply symx_add; try assumption; apply symx_scal; assumption|]. split.
  - intros v Lv. destruct (unflat _ v Lv) as (xs & Lxs & ->). rewrite (quad_add n) by assumption. rewrite !quad_scal.
    pose proof (velcost_lam _ _ _ _ _ _ _ HT Hs0 EV xs Lxs) as VL. specialize (Pd xs Lxs).
    assert (A : (1 - wd) * (eff_convexity (flag_of pData) * rdot (flat xs) (flat xs)) <= (1 - wd) * quad (blocks_matx Hv) (flat xs)) by (apply Rmult_le_compat_l; lra).
    assert (C : 0 <= wd * quad Hd (flat xs)) by (apply Rmult_le_pos; lra). lra.
  - intros i. destruct (Nat.lt_ge_cases i n) as [Hi|Hi].
    + rewrite (entry_add n) by assumption. rewrite !entry_scal. pose proof (small_at _ i i SmV) as A. pose proof (small_at _ i i Smd) as C.
      eapply Rle_trans; [apply Rabs_triang|]. rewrite !Rabs_mult, (Rabs_pos_eq (1 - wd)), (Rabs_pos_eq wd) by lra.
      apply Rle_trans with ((1 - wd) * 1 + wd * 1); [|lra]. apply Rplus_le_compat; apply Rmult_le_compat_l; lra.
    + assert (SA := square_add n _ _ S1 S2). destruct SA as [LA _]. rewrite (nth_overflow (matx_add _ _)) by lia. destruct i; cbn; rewrite Rabs_R0; lra.
Qed.
Lemma trace_le n H : (forall i, Rabs (nth i (nth i H []) 0) <= 1) -> trace n (mat_of H) <= INR n.
Proof.
  intros D. unfold trace, mat_of. apply Rle_trans with (sumf n (fun _ => 1)); [|rewrite sumf_cst; lra].
  apply sumf_le. intros i _. unfold vec_of. specialize (D i). pose proof (Rle_abs (nth i (nth i H []) 0)). lra.
Qed.
