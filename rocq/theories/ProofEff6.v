(** End-effector distance cost. *)
From Verif Require Import Vec SpecBezier ModelData ModelUtils ModelRows ModelWaypointsJerk ModelDispatch ModelCont ModelSolver ModelTraj ModelEff
  SpecCom SpecWp SpecSolver SpecTraj SpecEff ProofBezier ProofCurve ProofCom ProofWaypoints ProofWaypoints2 ProofSolver ProofTraj
  ProofEff ProofEff2 ProofEff3.
Open Scope R_scope.

(** * Dense algebra *)
Definition square (n : nat) (H : list (list R)) : Prop := length H = n /\ Forall (fun r => length r = n) H.

Lemma vecx_add_len a b : length a = length b -> length (vecx_add a b) = length a.
Proof. revert b; induction a as [|x a IH]; intros [|y b] H; try discriminate; [reflexivity|]. cbn. f_equal. apply IH. now injection H. Qed.
Lemma rdot_add : forall a b v, length a = length b -> rdot (vecx_add a b) v = rdot a v + rdot b v.
Proof.
  induction a as [|x a IH]; intros [|y b] v H; try discriminate; [cbn; destruct v; cbn; ring|].
  destruct v as [|z v]; [cbn; ring|]. cbn. fold (vecx_add a b). rewrite IH by now injection H. ring.
Qed.
Lemma rdot_map_r (f : R -> R) k : (forall a, f a = k * a) -> forall l v, rdot (map f l) v = k * rdot l v.
Proof. intros Hf. induction l as [|a l IH]; intros [|b v]; cbn; try ring. rewrite Hf, IH. ring. Qed.
Lemma rdot_scal k l v : rdot (vecx_scal k l) v = k * rdot l v.
Proof. apply rdot_map_r. reflexivity. Qed.
Lemma rdot_div k l v : rdot (vecx_div l k) v = rdot l v / k.
Proof. unfold vecx_div. rewrite (rdot_map_r _ (/ k)); [|intros; unfold Rdiv; ring]. unfold Rdiv; ring. Qed.

Lemma square_add n A B : square n A -> square n B -> square n (matx_add A B).
Proof.
  intros [HA FA] [HB FB]. revert n HA FA B HB FB.
  assert (G : forall A B n, length A = length B -> Forall (fun r => length r = n) A -> Forall (fun r => length r = n) B ->
    length (matx_add A B) = length A /\ Forall (fun r => length r = n) (matx_add A B)).
  { clear. induction A as [|a A IH]; intros [|b B] n E FA FB; try discriminate; [split; [reflexivity|constructor]|].
    inversion FA; inversion FB; subst. destruct (IH B (length a)) as [I1 I2]; try assumption; [now injection E|].
    cbn. split; [f_equal; exact I1|]. constructor; [apply vecx_add_len; congruence|exact I2]. }
  intros n HA FA B HB FB. destruct (G A B n) as [I1 I2]; try assumption; [congruence|]. split; congruence.
Qed.
Lemma quad_add_g v : forall A B w, length A = length B -> Forall2 (fun a b => length a = length b) A B ->
  rdot (map (fun r => rdot r v) (matx_add A B)) w = rdot (map (fun r => rdot r v) A) w + rdot (map (fun r => rdot r v) B) w.
Proof.
  intros A B w E F. revert w. clear E. induction F as [|a b A B E F IH]; intros w; [cbn; destruct w; cbn; ring|].
  cbn. destruct w as [|z w]; [cbn; ring|]. cbn. fold (vecx_add a b). fold (matx_add A B). rewrite IH, rdot_add by exact E. ring.
Qed.
Lemma forall2_len n : forall A B : list (list R), length A = length B -> Forall (fun r => length r = n) A -> Forall (fun r => length r = n) B ->
  Forall2 (fun a b => length a = length b) A B.
Proof.
  induction A as [|a A IH]; intros [|b B] E FA FB; try discriminate; constructor; inversion FA; inversion FB; subst; try congruence.
  apply IH; try assumption. now injection E.
Qed.
Lemma quad_add n A B v : square n A -> square n B -> quad (matx_add A B) v = quad A v + quad B v.
Proof.
  intros [HA FA] [HB FB]. unfold quad. apply quad_add_g; [congruence|]. apply (forall2_len n); congruence || assumption.
Qed.
Lemma quad_scal k H v : quad (matx_scal k H) v = k * quad H v.
Proof.
  unfold quad, matx_scal. rewrite map_map. rewrite (map_ext _ (fun r => k * rdot r v)) by (intros; apply rdot_scal).
  rewrite <- (map_map (fun r => rdot r v) (Rmult k)). apply rdot_map_r. reflexivity.
Qed.
Lemma quad_div k H v : quad (matx_div H k) v = quad H v / k.
Proof.
  unfold quad, matx_div. rewrite map_map. rewrite (map_ext _ (fun r => rdot r v / k)) by (intros; apply rdot_div).
  rewrite <- (map_map (fun r => rdot r v) (fun a => a / k)). rewrite (rdot_map_r _ (/ k)); [|intros; unfold Rdiv; ring]. unfold Rdiv; ring.
Qed.
Lemma square_zero n : square n (matx_zero n).
Proof.
  split; [apply repeat_length|]. unfold matx_zero. apply Forall_forall. intros r Hr. apply repeat_spec in Hr. subst. apply repeat_length.
Qed.
Lemma quad_zero n v : quad (matx_zero n) v = 0.
Proof.
  unfold quad, matx_zero. set (m := n) at 2. clearbody m. revert m v. 
  assert (G : forall k m v w, rdot (map (fun r => rdot r v) (repeat (repeat 0 m) k)) w = 0).
  { induction k as [|k IH]; intros m v w; [reflexivity|]. cbn. destruct w as [|z w]; [reflexivity|]. cbn. rewrite IH, rdot_repeat0. ring. }
  intros m v. apply G.
Qed.
Lemma square_scal k n H : square n H -> square n (matx_scal k H).
Proof.
  intros [L F]. split; [unfold matx_scal; rewrite map_length; exact L|]. unfold matx_scal. rewrite Forall_map.
  eapply Forall_impl; [|exact F]. intros r E. unfold vecx_scal. rewrite map_length. exact E.
Qed.
Lemma square_div k n H : square n H -> square n (matx_div H k).
Proof.
  intros [L F]. split; [unfold matx_div; rewrite map_length; exact L|]. unfold matx_div. rewrite Forall_map.
  eapply Forall_impl; [|exact F]. intros r E. unfold vecx_div. rewrite map_length. exact E.
Qed.

Definition sqsum (l : list R) : R := fold_right Rplus 0 (map (fun a => a * a) l).
Lemma outer_square n r : length r = n -> square n (map (fun a => vecx_scal a r) r).
Proof.
  intros E. split; [rewrite map_length; exact E|]. rewrite Forall_map. apply Forall_forall. intros. unfold vecx_scal. rewrite map_length. exact E.
Qed.
Lemma quad_outer r v : quad (map (fun a => vecx_scal a r) r) v = rdot r v * rdot r v.
Proof.
  unfold quad. rewrite map_map. rewrite (map_ext _ (Rmult (rdot r v))) by (intros; rewrite rdot_scal; ring).
  rewrite (rdot_map_r _ (rdot r v)) by reflexivity. reflexivity.
Qed.
Lemma mtm_square n M : Forall (fun r => length r = n) M -> square n (mtm n M).
Proof.
  induction 1 as [|r M E F IH]; [apply square_zero|]. cbn [mtm]. apply square_add; [apply outer_square; exact E|exact IH].
Qed.
Lemma quad_mtm n M v : Forall (fun r => length r = n) M -> quad (mtm n M) v = sqsum (map (fun r => rdot r v) M).
Proof.
  induction 1 as [|r M E F IH]; [apply quad_zero|]. cbn [mtm].
  rewrite (quad_add n) by (try apply outer_square; try apply mtm_square; assumption). rewrite quad_outer, IH. reflexivity.
Qed.
Lemma mtv_len n : forall M c, Forall (fun r => length r = n) M -> length (mtv n M c) = n.
Proof.
  induction M as [|r M IH]; intros c F; [apply repeat_length|]. destruct c as [|a c]; [apply repeat_length|].
  inversion F; subst. cbn [mtv]. rewrite vecx_add_len; unfold vecx_scal; rewrite map_length; [reflexivity|]. symmetry. apply IH. assumption.
Qed.
Lemma rdot_mtv n v : forall M c, Forall (fun r => length r = n) M -> length M = length c ->
  rdot (mtv n M c) v = rdot (map (fun r => rdot r v) M) c.
Proof.
  induction M as [|r M IH]; intros [|a c] F E; try discriminate; [apply rdot_repeat0|].
  inversion F; subst. cbn [mtv]. rewrite rdot_add by (unfold vecx_scal; rewrite map_length; symmetry; apply mtv_len; assumption).
  rewrite rdot_scal, IH by (try assumption; now injection E). cbn. ring.
Qed.

(** Norm *)
Lemma sumR_nonneg l : Forall (Rle 0) l -> 0 <= sumR l.
Proof. induction 1; cbn [sumR]; lra. Qed.
Lemma sumsqx_nonneg v : 0 <= sumsqx v.
Proof. unfold sumsqx. apply sumR_nonneg. rewrite Forall_map. apply Forall_forall. intros a _. apply Rle_0_sqr. Qed.
Lemma sumR_zero l : Forall (Rle 0) l -> sumR l = 0 -> Forall (eq 0) l.
Proof.
  induction 1 as [|a l Ha F IH]; intros E; constructor; cbn [sumR] in E; pose proof (sumR_nonneg l F); [lra|apply IH; lra].
Qed.
Lemma rdot_zero_l l v : Forall (eq 0) l -> rdot l v = 0.
Proof. intros F. revert v; induction F as [|a l <- F IH]; intros [|b v]; cbn; try reflexivity. rewrite IH. ring. Qed.
Lemma norm_zero_quad H v : matx_norm H = 0 -> quad H v = 0.
Proof.
  intros E. unfold matx_norm in E.
  assert (FN : Forall (Rle 0) (map sumsqx H)) by (rewrite Forall_map; apply Forall_forall; intros; apply sumsqx_nonneg).
  apply sqrt_eq_0 in E; [|apply sumR_nonneg; exact FN].
  apply sumR_zero in E; [|exact FN]. rewrite Forall_map in E.
  unfold quad. apply rdot_zero_l. rewrite Forall_map. eapply Forall_impl; [|exact E]. cbn beta. intros r Hr. symmetry.
  apply rdot_zero_l. unfold sumsqx in Hr. symmetry in Hr. apply sumR_zero in Hr; [|rewrite Forall_map; apply Forall_forall; intros; apply Rle_0_sqr].
  rewrite Forall_map in Hr. eapply Forall_impl; [|exact Hr]. cbn beta. intros a Ha. symmetry. apply Rsqr_0_uniq. symmetry. exact Ha.
Qed.

(** * Rows of a waypoint *)
Lemma wpn_rows_len n w : (3 * length (wn_blocks w) = n)%nat -> Forall (fun r => length r = n) (wpn_rows w).
Proof.
  intros E.
  assert (HL : forall f : mat3 -> vec3, length (concat (map (fun m => l3 (f m)) (wn_blocks w))) = n).
  { intros f. rewrite <- E. clear. induction (wn_blocks w) as [|m l IH]; [reflexivity|]. cbn [map concat]. rewrite app_length, IH. cbn. lia. }
  unfold wpn_rows. repeat apply Forall_cons; try apply Forall_nil; apply HL.
Qed.
Lemma wpn_rows_dot w xs : length (wn_blocks w) = length xs ->
  map (fun r => rdot r (flat xs)) (wpn_rows w) = l3 (ev_blocks (wn_blocks w) xs).
Proof.
  intros E. unfold wpn_rows. cbn [map]. rewrite !rdot_blocks by exact E. rewrite ev_blocks_xyz by exact E. reflexivity.
Qed.
Lemma quad_wpn n w xs : (3 * length (wn_blocks w) = n)%nat -> length (wn_blocks w) = length xs ->
  quad (mtm n (wpn_rows w)) (flat xs) = vnorm2 (ev_blocks (wn_blocks w) xs).
Proof.
  intros E L. rewrite quad_mtm by (apply wpn_rows_len; exact E). rewrite wpn_rows_dot by exact L.
  unfold sqsum, vnorm2, vdot. cbn. ring.
Qed.
Lemma rdot_wpn n w xs d : (3 * length (wn_blocks w) = n)%nat -> length (wn_blocks w) = length xs ->
  rdot (mtv n (wpn_rows w) (l3 d)) (flat xs) = vdot (ev_blocks (wn_blocks w) xs) d.
Proof.
  intros E L. rewrite rdot_mtv by (try (apply wpn_rows_len; exact E); reflexivity). rewrite wpn_rows_dot by exact L.
  apply rdot_l3x.
Qed.

(** * The loop *)
Definition wsum (f : nat -> R) (i n : nat) : R := sum_list (map f (seq i n)).
Lemma dist_loop_ok pData pi step pts (W : nat -> wpn) (P : nat -> vec3) nf :
  dimVar pData = (3 * nf)%nat ->
  forall n i H g,
  (forall k, (i <= k < i + n)%nat -> evaluateCurveWaypointAtTime pData pi (INR k * step) = Ok (W k) /\
     length (wn_blocks (W k)) = nf /\ nth_error pts k = Some (P k)) ->
  square (3 * nf) H -> length g = (3 * nf)%nat ->
  exists H' g', dist_loop pData pi step pts i n H g = Ok (H', g') /\ square (3 * nf) H' /\ length g' = (3 * nf)%nat /\
    forall xs, length xs = nf ->
      quad H' (flat xs) = quad H (flat xs) + wsum (fun k => vnorm2 (ev_blocks (wn_blocks (W k)) xs)) i n /\
      rdot g' (flat xs) = rdot g (flat xs) + wsum (fun k => vdot (ev_blocks (wn_blocks (W k)) xs) (vsub (wn_pt (W k)) (P k))) i n.
Proof.
  intros HD. induction n as [|n IH]; intros i H g HK SH LG.
  - exists H, g. split; [reflexivity|]. split; [exact SH|]. split; [exact LG|]. intros xs _. unfold wsum, sum_list. cbn. split; ring.
  - destruct (HK i ltac:(lia)) as (Ew & Lw & Ep). cbn [dist_loop]. rewrite Ew. cbn [bind]. unfold get. rewrite Ep. cbn [bind].
    rewrite HD, Lw, Nat.eqb_refl. cbn [negb].
    assert (E3 : (3 * length (wn_blocks (W i)) = 3 * nf)%nat) by (rewrite Lw; reflexivity).
    destruct (IH (S i) (matx_add H (mtm (3 * nf) (wpn_rows (W i))))
                 (vecx_add g (mtv (3 * nf) (wpn_rows (W i)) (l3 (vsub (wn_pt (W i)) (P i)))))) as (H' & g' & E' & SH' & LG' & HQ).
    { intros k Hk. apply HK. lia. }
    { apply square_add; [exact SH|]. apply mtm_square, wpn_rows_len. exact E3. }
    { rewrite vecx_add_len; [exact LG|]. rewrite mtv_len; [exact LG|]. apply wpn_rows_len. exact E3. }
    exists H', g'. split; [exact E'|]. split; [exact SH'|]. split; [exact LG'|]. intros xs Lx. destruct (HQ xs Lx) as [Q1 Q2].
    rewrite Q1, Q2. unfold wsum. cbn [seq map]. unfold sum_list at 2 4. cbn [fold_right]. fold (sum_list (map (fun k => vnorm2 (ev_blocks (wn_blocks (W k)) xs)) (seq (S i) n))).
    fold (sum_list (map (fun k => vdot (ev_blocks (wn_blocks (W k)) xs) (vsub (wn_pt (W k)) (P k))) (seq (S i) n))).
    rewrite (quad_add (3 * nf)) by (try exact SH; apply mtm_square, wpn_rows_len; exact E3).
    rewrite rdot_add by (rewrite mtv_len; [exact LG|apply wpn_rows_len; exact E3]).
    rewrite quad_wpn, rdot_wpn by (try exact E3; rewrite Lw, Lx; reflexivity). split; ring.
Qed.
