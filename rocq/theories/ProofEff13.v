(** Velocity cost of the end effector: integral of the squared velocity. *)
From Verif Require Import Vec SpecBezier ModelData ModelUtils ModelWaypointsJerk ModelDispatch ModelCont ModelTraj ModelEff
  Spec0Step SpecCom SpecWp SpecTraj SpecEff ProofBezier ProofCurve ProofWaypoints ProofTraj Proof0Step2 ProofEff ProofEff2 ProofEff3 ProofEff6
  ProofEff8 ProofEff9 ProofEff10 ProofEff11 ProofEff12.
Open Scope R_scope.

(** * Positive definite *)
Definition hform (flag : Z) (x : nat -> R) : R := if Z.eqb flag F_jerk then h8 x else if Z.eqb flag F_x3 then h10 x else h12 x.
Lemma velcost_quad pData T xs0 pi pts0 H g :
  0 < T -> eff_shape pData T xs0 pi pts0 -> computeVelocityCost pData T pi = Ok (H, g) ->
  exists N, 0 < N /\ forall xs, length xs = eff_free (flag_of pData) ->
    N * T * quad (blocks_matx H) (flat xs) =
      hform (flag_of pData) (coord vx xs) + hform (flag_of pData) (coord vy xs) + hform (flag_of pData) (coord vz xs).
Proof.
  intros HT Hs0. assert (HT0 : T <> 0) by lra. assert (HT2 : 2 * T <> 0) by lra.
  eff_cases Hs0; unfold computeVelocityCost; eff_flag.
  - change (find_flag _ F_jerk) with (Ok j0j1_computeVelocityCost). cbn [bind]. unfold j0j1_computeVelocityCost.
    cbn [bind get nth_error]. cbv zeta.
    match goal with |- context [blocks_norm ?B] =>
      assert (HN : 0 < blocks_norm B) by (apply (blocks_norm_pos (652680652684107 / 100000000000000) T); [lra|exact HT]); set (N := blocks_norm B) in * end.
    intros HE. injection HE as <- _. exists N. split; [exact HN|].
    intros xs Lx. assert (HN0 : N <> 0) by lra. clearbody N. destruct (list1 _ Lx) as [x ->].
    unfold quad. rewrite quad_blocks by (try (repeat (apply Forall_cons; [reflexivity|]); apply Forall_nil); reflexivity).
    cbn [map map2 fold_right ev_blocks]. rewrite !blk by assumption.
    unfold hform. simpl Z.eqb. cbv iota. close_form h8.
  - change (find_flag _ F_x3) with (Ok x3_computeVelocityCost). cbn [bind]. unfold x3_computeVelocityCost.
    cbn [bind get nth_error]. cbv zeta.
    match goal with |- context [blocks_norm ?B] =>
      assert (HN : 0 < blocks_norm B) by (apply (blocks_norm_pos (777457833646806 / 100000000000000) T); [lra|exact HT]); set (N := blocks_norm B) in * end.
    intros HE. injection HE as <- _. exists N. split; [exact HN|].
    intros xs Lx. assert (HN0 : N <> 0) by lra. clearbody N. destruct (list3v _ Lx) as (x & y & z & ->).
    unfold quad. rewrite quad_blocks by (try (repeat (apply Forall_cons; [reflexivity|]); apply Forall_nil); reflexivity).
    cbn [map map2 fold_right ev_blocks]. rewrite !blk by assumption.
    unfold hform. simpl Z.eqb. cbv iota. close_form h10.
  - change (find_flag _ F_x5) with (Ok x5_computeVelocityCost). cbn [bind]. unfold x5_computeVelocityCost.
    cbn [bind get nth_error]. cbv zeta.
    match goal with |- context [blocks_norm ?B] =>
      assert (HN : 0 < blocks_norm B) by (apply (blocks_norm_pos (963290527229048 / 100000000000000) T); [lra|exact HT]); set (N := blocks_norm B) in * end.
    intros HE. injection HE as <- _. exists N. split; [exact HN|].
    intros xs Lx. assert (HN0 : N <> 0) by lra. clearbody N. destruct (list5v _ Lx) as (x & y & z & u & v & ->).
    unfold quad. rewrite quad_blocks by (try (repeat (apply Forall_cons; [reflexivity|]); apply Forall_nil); reflexivity).
    cbn [map map2 fold_right ev_blocks]. rewrite !blk by assumption.
    unfold hform. simpl Z.eqb. cbv iota. close_form h12.
Qed.

Lemma hform_nonneg flag x : 0 <= hform flag x.
Proof.
  assert (S : forall a : R, 0 <= a * a) by (intros a; apply Rle_0_sqr).
  unfold hform. destruct (Z.eqb flag F_jerk); [|destruct (Z.eqb flag F_x3)].
  - eapply Rle_trans; [|apply h8_pos]. pose proof (S (x 0%nat)). lra.
  - eapply Rle_trans; [|apply h10_pos]. pose proof (S (x 0%nat)). pose proof (S (x 1%nat)). pose proof (S (x 2%nat)). lra.
  - eapply Rle_trans; [|apply h12_pos]. pose proof (S (x 0%nat)). pose proof (S (x 1%nat)). pose proof (S (x 2%nat)). pose proof (S (x 3%nat)). pose proof (S (x 4%nat)). lra.
Qed.
Lemma hform_zero flag x i : hform flag x = 0 -> (i < eff_free flag)%nat -> x i = 0.
Proof.
  assert (S : forall a : R, 0 <= a * a) by (intros a; apply Rle_0_sqr).
  assert (Z : forall a : R, a * a <= 0 -> a = 0) by (intros a Ha; apply Rsqr_0_uniq; unfold Rsqr; pose proof (S a); lra).
  unfold hform, eff_free. destruct (Z.eqb flag F_jerk); [|destruct (Z.eqb flag F_x3)]; intros E Hi.
  - pose proof (h8_pos x) as P. rewrite E in P. assert (i = 0%nat) as -> by lia. apply Z. pose proof (S (x 0%nat)). lra.
  - pose proof (h10_pos x) as P. rewrite E in P. pose proof (S (x 0%nat)). pose proof (S (x 1%nat)). pose proof (S (x 2%nat)).
    destruct i as [|[|[|i]]]; [| | |lia]; apply Z; lra.
  - pose proof (h12_pos x) as P. rewrite E in P. pose proof (S (x 0%nat)). pose proof (S (x 1%nat)). pose proof (S (x 2%nat)). pose proof (S (x 3%nat)). pose proof (S (x 4%nat)).
    destruct i as [|[|[|[|[|i]]]]]; [| | | | |lia]; apply Z; lra.
Qed.
Lemma velcost_pd pData T xs0 pi pts0 H g xs :
  0 < T -> eff_shape pData T xs0 pi pts0 -> computeVelocityCost pData T pi = Ok (H, g) ->
  length xs = eff_free (flag_of pData) -> 0 <= quad (blocks_matx H) (flat xs) /\
  (xs <> repeat vzero (length xs) -> 0 < quad (blocks_matx H) (flat xs)).
Proof.
  intros HT Hs HE Lx. destruct (velcost_quad _ _ _ _ _ _ _ HT Hs HE) as (N & HN & HQ). specialize (HQ xs Lx).
  pose proof (Rmult_lt_0_compat _ _ HN HT) as HNT.
  pose proof (hform_nonneg (flag_of pData) (coord vx xs)) as Px. pose proof (hform_nonneg (flag_of pData) (coord vy xs)) as Py.
  pose proof (hform_nonneg (flag_of pData) (coord vz xs)) as Pz.
  assert (P0 : 0 <= quad (blocks_matx H) (flat xs)).
  { apply Rmult_le_reg_l with (N * T); [exact HNT|]. lra. }
  split; [exact P0|]. intros Hne. destruct (Rle_lt_or_eq_dec _ _ P0) as [L|Z]; [exact L|]. exfalso. apply Hne.
  rewrite <- Z, Rmult_0_r in HQ.
  apply nth_ext with vzero vzero; [now rewrite repeat_length|]. intros i Hi. rewrite nth_repeat.
  assert (G : forall f : vec3 -> R, f vzero = 0 -> hform (flag_of pData) (coord f xs) = 0 -> f (nth i xs vzero) = 0).
  { intros f Hf E. apply (hform_zero _ _ i) in E; [|rewrite <- Lx; exact Hi]. unfold coord in E. rewrite <- Hf in E at 1.
    rewrite map_nth in E. rewrite E. reflexivity. }
  apply v3_eq; apply G; try reflexivity; lra.
Qed.

(** * Symmetric *)
Definition transp (n : nat) (M : list (list R)) : list (list R) := map (fun i => map (fun j => nth i (nth j M []) 0) (seq 0 n)) (seq 0 n).
Lemma nth_seq_map {X} n (f : nat -> X) i d : (i < n)%nat -> nth i (map f (seq 0 n)) d = f i.
Proof. intros Hi. rewrite (nth_indep _ d (f 0%nat)) by (rewrite map_length, seq_length; exact Hi). rewrite map_nth, seq_nth by exact Hi. reflexivity. Qed.
Lemma transp_sym n M : length M = n -> Forall (fun r => length r = n) M -> transp n M = M ->
  forall i j, nth j (nth i M []) 0 = nth i (nth j M []) 0.
Proof.
  intros L F E i j.
  assert (O : forall a b, (n <= a)%nat -> nth b (nth a M []) 0 = 0) by (intros a b H; rewrite (nth_overflow M) by lia; destruct b; reflexivity).
  assert (O' : forall a b, (n <= b)%nat -> nth b (nth a M []) 0 = 0).
  { intros a b H. destruct (Nat.lt_ge_cases a n) as [Ha|Ha]; [|apply O; exact Ha]. apply nth_overflow.
    rewrite (proj1 (Forall_nth _ _) F a []) by lia. exact H. }
  destruct (Nat.lt_ge_cases i n) as [Hi|Hi]; [|now rewrite O, O'].
  destruct (Nat.lt_ge_cases j n) as [Hj|Hj]; [|now rewrite O', O].
  rewrite <- E at 1. unfold transp. rewrite nth_seq_map by exact Hi. rewrite nth_seq_map by exact Hj. reflexivity.
Qed.
Lemma velcost_sym pData T xs0 pi pts0 H g :
  eff_shape pData T xs0 pi pts0 -> computeVelocityCost pData T pi = Ok (H, g) ->
  forall i j, nth j (nth i (blocks_matx H) []) 0 = nth i (nth j (blocks_matx H) []) 0.
Proof.
  intros Hs. eff_cases Hs; unfold computeVelocityCost; eff_flag.
  - change (find_flag _ F_jerk) with (Ok j0j1_computeVelocityCost). cbn [bind]. unfold j0j1_computeVelocityCost. cbn [bind get nth_error]. cbv zeta.
    match goal with |- context [blocks_norm ?B] => generalize (blocks_norm B) end. intros N HE. injection HE as <- _.
    apply (transp_sym 3); [reflexivity|repeat (apply Forall_cons; [reflexivity|]); apply Forall_nil|reflexivity].
  - change (find_flag _ F_x3) with (Ok x3_computeVelocityCost). cbn [bind]. unfold x3_computeVelocityCost. cbn [bind get nth_error]. cbv zeta.
    match goal with |- context [blocks_norm ?B] => generalize (blocks_norm B) end. intros N HE. injection HE as <- _.
    apply (transp_sym 9); [reflexivity|repeat (apply Forall_cons; [reflexivity|]); apply Forall_nil|reflexivity].
  - change (find_flag _ F_x5) with (Ok x5_computeVelocityCost). cbn [bind]. unfold x5_computeVelocityCost. cbn [bind get nth_error]. cbv zeta.
    match goal with |- context [blocks_norm ?B] => generalize (blocks_norm B) end. intros N HE. injection HE as <- _.
    apply (transp_sym 15); [reflexivity|repeat (apply Forall_cons; [reflexivity|]); apply Forall_nil|reflexivity].
Qed.

(** * Integral *)
Lemma sqform_ext m f g : (forall i, (i <= m)%nat -> f i = g i) -> sqform m f = sqform m g.
Proof.
  intros H. unfold sqform. apply sumf_ext. intros i Hi. apply sumf_ext. intros j Hj. rewrite !H by lia. reflexivity.
Qed.
Lemma sqform_scal m k f : sqform m (fun i => k * f i) = k * k * sqform m f.
Proof.
  unfold sqform. rewrite <- sumf_scal. apply sumf_ext. intros i Hi. rewrite <- sumf_scal. apply sumf_ext. intros j Hj. ring.
Qed.
Lemma length_hodo T P : length (hodo T P) = pred (length P).
Proof.
  unfold hodo. rewrite map_length. pose proof (length_rdiffs (map vx P)) as E. rewrite <- map_vdiffs in E by reflexivity. now rewrite !map_length in E.
Qed.
Lemma coord_hodo (f : vec3 -> R) T P i : (forall a b, f (vsub a b) = f a - f b) -> (forall k a, f (vscal k a) = k * f a) ->
  (S i < length P)%nat -> coord f (hodo T P) i = INR (pred (length P)) / T * (coord f P (S i) - coord f P i).
Proof.
  intros H1 H2 Hi. unfold coord. rewrite map_hodo by assumption. rewrite map_length.
  rewrite (nth_indep _ 0 (Rmult (INR (pred (length P)) / T) 0)) by (rewrite map_length, length_rdiffs, map_length; lia).
  rewrite map_nth, nth_rdiffs by (rewrite map_length; exact Hi). reflexivity.
Qed.
Lemma velform_hodo (f : vec3 -> R) T P n : (forall a b, f (vsub a b) = f a - f b) -> (forall k a, f (vscal k a) = k * f a) ->
  length P = S (S n) -> T <> 0 -> sqform n (coord f (hodo T P)) = velform (S n) (coord f P) / (T * T).
Proof.
  intros H1 H2 L HT. rewrite (sqform_ext n _ (fun i => INR (S n) / T * (coord f P (S i) - coord f P i))).
  - rewrite (sqform_scal n _ (fun i => coord f P (S i) - coord f P i)). unfold velform. cbn [pred]. field. exact HT.
  - intros i Hi. rewrite coord_hodo by (try assumption; lia). rewrite L. reflexivity.
Qed.

Definition last_free (flag : Z) : nat := if Z.eqb flag F_jerk then 4 else if Z.eqb flag F_x3 then 6 else 8.
Definition ndeg (flag : Z) : nat := if Z.eqb flag F_jerk then 8 else if Z.eqb flag F_x3 then 10 else 12.
Lemma qform_err flag a M : (forall i, (i <= 12)%nat -> Rabs (a i) <= M) ->
  Rabs (qform flag a - (velform (ndeg flag) a - velform (ndeg flag) (zero_free 4 (last_free flag) a))) <= velocity_eps flag * (M * M).
Proof.
  intros H. unfold qform, ndeg, last_free, velocity_eps. destruct (Z.eqb flag F_jerk); [|destruct (Z.eqb flag F_x3)].
  - rewrite id8. apply bound8. intros i Hi. apply H. lia.
  - rewrite id10. apply bound10. intros i Hi. apply H. lia.
  - rewrite id12. apply bound12. exact H.
Qed.
Lemma fixed_same (f : vec3 -> R) pData T xs pi pts i : eff_shape pData T xs pi pts ->
  zero_free 4 (last_free (flag_of pData)) (coord f pts) i = zero_free 4 (last_free (flag_of pData)) (coord f pi) i.
Proof.
  intros Hs. unfold zero_free, last_free, coord. eff_cases Hs; rewrite E; simpl Z.eqb; cbv iota;
    do 13 (destruct i as [|i]; [reflexivity|]); reflexivity.
Qed.
Lemma velform_ext n a b : (forall i, a i = b i) -> velform n a = velform n b.
Proof. intros H. unfold velform. f_equal. apply sqform_ext. intros i _. now rewrite !H. Qed.
Lemma ndeg_len pData T xs pi pts : eff_shape pData T xs pi pts -> exists n, ndeg (flag_of pData) = S n /\ length pts = S (S n).
Proof. intros Hs. unfold ndeg. eff_cases Hs; rewrite E; eexists; split; reflexivity. Qed.
Lemma eff_degree_ndeg pData : eff_degree (flag_of pData) = INR (ndeg (flag_of pData)).
Proof. unfold eff_degree, ndeg. destruct (Z.eqb _ F_jerk); [|destruct (Z.eqb _ F_x3)]; rewrite INR_IZR_INZ; reflexivity. Qed.

Lemma c36_velocity pData T : In (flag_of pData) effector_flags -> 0 < T ->
  exists pi H g N K, computeConstantWaypoints pData T = Ok pi /\ computeVelocityCost pData T pi = Ok (H, g) /\ 0 < N /\
    (forall i j, nth j (nth i (blocks_matx H) []) 0 = nth i (nth j (blocks_matx H) []) 0) /\
    forall xs M, length xs = eff_free (flag_of pData) -> exists cv, eff_curve pData T xs = Ok cv /\
      (Forall (within M) (bc_pts cv) ->
       exists i, speed_integral cv T i /\
       Rabs (N * (quad (blocks_matx H) (flat xs) + 2 * rdot (concat (map l3 g)) (flat xs)) + K
             - (2 * eff_degree (flag_of pData) - 1) * i) <= 3 * velocity_eps (flag_of pData) * (M * M) / T).
Proof.
  intros Hin HT. assert (HT0 : T <> 0) by lra.
  destruct (eff_curve_ok pData T _ Hin (repeat_length vzero _) HT) as (pi & pts0 & Hc & Hs0 & _).
  destruct (velcost_form _ _ _ _ _ HT Hs0) as (H & g & N & HE & HN & _ & _ & _ & HV).
  pose (fz f := velform (ndeg (flag_of pData)) (zero_free 4 (last_free (flag_of pData)) (coord f pi))).
  exists pi, H, g, N, ((fz vx + fz vy + fz vz) / T). split; [exact Hc|]. split; [exact HE|]. split; [exact HN|]. split; [apply (velcost_sym _ _ _ _ _ _ _ Hs0 HE)|].
  intros xs M Lx. destruct (eff_curve_ok pData T xs Hin Lx HT) as (pi' & pts & Hc' & Hs & He).
  rewrite Hc in Hc'. injection Hc' as <-. exists (BCurve pts T). split; [exact He|]. cbn [bc_pts]. intros HM.
  destruct (ndeg_len _ _ _ _ _ Hs) as (n & En & Lp).
  eexists. split; [exists (curve (hodo T pts) T); split; [intros t; apply (curve_is_deriv_n 1)|apply int_curve_sq; exact HT]|].
  rewrite length_hodo, Lp. cbn [pred]. rewrite !(velform_hodo _ _ _ n) by (try reflexivity; assumption).
  rewrite eff_degree_ndeg, En. specialize (HV _ _ Hs).
  assert (HM0 : forall f, In f [vx; vy; vz] -> forall i, Rabs (coord f pts i) <= M).
  { assert (0 <= M). { destruct pts as [|p pts']; [discriminate|]. inversion HM; subst. destruct H2 as [A _]. pose proof (Rabs_pos (vx p)). unfold Rabs in *. destruct (Rcase_abs (vx p)); lra. }
    intros f Hf i. unfold coord. destruct (lt_dec i (length pts)) as [Hi|Hi].
    - rewrite (nth_indep _ 0 (f vzero)) by (rewrite map_length; exact Hi). rewrite map_nth.
      pose proof (proj1 (Forall_forall _ _) HM _ (nth_In pts vzero Hi)) as W. unfold within in W.
      destruct Hf as [<-|[<-|[<-|[]]]]; apply W.
    - rewrite nth_overflow by (rewrite map_length; lia). rewrite Rabs_R0. assumption. }
  assert (HQ : forall f, In f [vx; vy; vz] -> Rabs (qform (flag_of pData) (coord f pts) - (velform (S n) (coord f pts) - fz f)) <= velocity_eps (flag_of pData) * (M * M)).
  { intros f Hf. unfold fz. rewrite (velform_ext _ _ _ (fun i => eq_sym (fixed_same f _ _ _ _ _ i Hs))). rewrite <- En. apply qform_err. intros i _. apply HM0. exact Hf. }
  pose proof (HQ vx ltac:(cbn; tauto)) as Qx. pose proof (HQ vy ltac:(cbn; tauto)) as Qy. pose proof (HQ vz ltac:(cbn; tauto)) as Qz.
  set (qv := quad (blocks_matx H) (flat xs) + 2 * rdot (concat (map l3 g)) (flat xs)) in *.
  set (kx := qform (flag_of pData) (coord vx pts)) in *. set (ky := qform (flag_of pData) (coord vy pts)) in *. set (kz := qform (flag_of pData) (coord vz pts)) in *.
  set (wx := velform (S n) (coord vx pts)) in *. set (wy := velform (S n) (coord vy pts)) in *. set (wz := velform (S n) (coord vz pts)) in *.
  replace (N * qv + (fz vx + fz vy + fz vz) / T - (2 * INR (S n) - 1) * (T * (wx / (T * T) + wy / (T * T) + wz / (T * T)) / INR (S (n + n))))
    with (((kx - (wx - fz vx)) + (ky - (wy - fz vy)) + (kz - (wz - fz vz))) * / T).
  2:{ assert (E1 : INR (S (n + n)) = 2 * INR (S n) - 1) by (rewrite !S_INR, plus_INR; ring).
      assert (E2 : N * qv = (kx + ky + kz) / T) by (rewrite <- HV; field; exact HT0).
      assert (E3 : INR (S (n + n)) <> 0) by (apply not_0_INR; lia).
      rewrite E2, <- E1. field. split; assumption. }
  rewrite Rabs_mult, (Rabs_pos_eq (/ T)) by (left; apply Rinv_0_lt_compat; exact HT).
  unfold Rdiv. apply Rmult_le_compat_r; [left; apply Rinv_0_lt_compat; exact HT|].
  eapply Rle_trans; [apply sum_abs; [apply sum_abs; [exact Qx|exact Qy]|exact Qz]|]. lra.
Qed.
