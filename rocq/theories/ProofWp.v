(** Waypoint arithmetic (utils.cpp). *)
From Coq Require Import Permutation.
From Verif Require Import Vec ModelData ModelUtils ModelRows SpecWp ProofRows.
Open Scope R_scope.

Lemma skew_cross x v : mvmul (skew x) v = vcross x v.
Proof. unfold mvmul, skew, vcross, vdot; cbn. f_equal; ring. Qed.

Lemma map2_len {A B C} (f : A -> B -> C) : forall l m, length l = length m -> length (map2 f l m) = length l.
Proof. induction l as [|a l IH]; intros [|b m] H; try discriminate; cbn; [reflexivity|]. f_equal. apply IH. cbn in H; lia. Qed.
Lemma map2_nth {A B C} (f : A -> B -> C) da db dc : forall l m i, length l = length m -> (i < length l)%nat ->
  nth i (map2 f l m) dc = f (nth i l da) (nth i m db).
Proof.
  induction l as [|a l IH]; intros [|b m] [|i] H Hi; try discriminate; cbn in *; try lia; [reflexivity|].
  apply IH; lia.
Qed.
Lemma rdot_lin f : (forall a b c d x, f (a * x + b) (c * x + d) = f a c * x + f b d) -> f 0 0 = 0 ->
  forall r s x, length r = length s -> rdot (map2 f r s) x = f (rdot r x) (rdot s x).
Proof.
  intros Hf H0. induction r as [|a r IH]; intros [|b s] [|y x] H; try discriminate; cbn; try (symmetry; exact H0).
  rewrite IH by (cbn in H; lia). rewrite Hf. reflexivity.
Qed.

Lemma wt_op f w1 w2 : (forall a b c d x, f (a * x + b) (c * x + d) = f a c * x + f b d) -> f 0 0 = 0 ->
  wt_wf w1 -> wt_wf w2 -> same_dims w1 w2 ->
  entrywise f (WT (map2 (map2 f) (wt_mat w1) (wt_mat w2)) (wt_cols w1) (map2 f (wt_vec w1) (wt_vec w2))) w1 w2.
Proof.
  intros Hf H0 [L1 F1] [L2 F2] [D1 D2]. unfold wt_rows in D1.
  assert (LM : length (wt_mat w1) = length (wt_mat w2)) by lia.
  assert (Row : forall i, (i < length (wt_mat w1))%nat ->
     nth i (map2 (map2 f) (wt_mat w1) (wt_mat w2)) [] = map2 f (nth i (wt_mat w1) []) (nth i (wt_mat w2) []) /\
     length (nth i (wt_mat w1) []) = wt_cols w1 /\ length (nth i (wt_mat w2) []) = wt_cols w1).
  { intros i Hi. split; [apply map2_nth; assumption|]. rewrite Forall_forall in F1, F2. split.
    - apply F1, nth_In, Hi.
    - rewrite D2. apply F2, nth_In. lia. }
  unfold entrywise, wt_rows, wt_wf, same_dims, wt_entry, wt_cst, wt_at. unfold wt_rows. cbn [wt_mat wt_vec wt_cols].
  rewrite !map2_len by lia. split; [split; [lia|]|].
  { apply Forall_forall. intros r Hr. apply (In_nth _ _ []) in Hr. destruct Hr as (i & Hi & <-).
    rewrite map2_len in Hi by lia. destruct (Row i Hi) as (-> & A & B). rewrite map2_len; lia. }
  split; [split; reflexivity|]. split; [|split].
  - intros i j Hi Hj. destruct (Row i ltac:(lia)) as (-> & A & B). apply map2_nth; lia.
  - intros i Hi. apply map2_nth; lia.
  - intros x i Hi. destruct (Row i ltac:(lia)) as (-> & A & B). rewrite (rdot_lin f Hf H0) by lia.
    unfold wt_cst. cbn [wt_vec]. rewrite (map2_nth f 0 0 0) by lia.
    pose proof (Hf (rdot (nth i (wt_mat w1) []) x) (nth i (wt_vec w1) 0) (rdot (nth i (wt_mat w2) []) x) (nth i (wt_vec w2) 0) 1) as E.
    rewrite !Rmult_1_r in E. rewrite E. reflexivity.
Qed.

Lemma same_size_dims w1 w2 : wt_wf w1 -> wt_wf w2 -> (same_size w1 w2 = true <-> same_dims w1 w2).
Proof.
  intros [L1 _] [L2 _]. unfold same_size, same_dims, wt_rows. rewrite !Bool.andb_true_iff, !Nat.eqb_eq. lia.
Qed.

Lemma c48_add w1 w2 : wt_wf w1 -> wt_wf w2 ->
  (same_dims w1 w2 -> exists w, wt_add w1 w2 = Ok w /\ entrywise Rplus w w1 w2) /\
  (~ same_dims w1 w2 -> wt_add w1 w2 = Throw).
Proof.
  intros H1 H2. pose proof (same_size_dims _ _ H1 H2) as HS. unfold wt_add. split; intros HD.
  - rewrite (proj2 HS HD). eexists. split; [reflexivity|]. apply wt_op; try assumption; intros; ring.
  - destruct (same_size w1 w2); [exfalso; apply HD, HS; reflexivity|reflexivity].
Qed.
Lemma c48_sub w1 w2 : wt_wf w1 -> wt_wf w2 ->
  (same_dims w1 w2 -> exists w, wt_sub w1 w2 = Ok w /\ entrywise Rminus w w1 w2) /\
  (~ same_dims w1 w2 -> wt_sub w1 w2 = Throw).
Proof.
  intros H1 H2. pose proof (same_size_dims _ _ H1 H2) as HS. unfold wt_sub. split; intros HD.
  - rewrite (proj2 HS HD). eexists. split; [reflexivity|]. apply wt_op; try assumption; intros; ring.
  - destruct (same_size w1 w2); [exfalso; apply HD, HS; reflexivity|reflexivity].
Qed.
Lemma rdot_scal k : forall r x, rdot (map (Rmult k) r) x = k * rdot r x.
Proof. induction r as [|a r IH]; intros [|y x]; cbn; try ring. rewrite IH; ring. Qed.
Lemma c48_scal k w : wt_wf w -> entrywise (fun a _ => k * a) (wt_scal k w) w w.
Proof.
  intros [L F]. unfold entrywise, wt_scal, wt_rows, wt_wf, same_dims, wt_entry, wt_cst, wt_at, wt_rows. cbn [wt_mat wt_vec wt_cols].
  rewrite !map_length.
  assert (Row : forall i, nth i (map (map (Rmult k)) (wt_mat w)) [] = map (Rmult k) (nth i (wt_mat w) [])).
  { intros i. change (@nil R) with (map (Rmult k) []) at 1. apply map_nth. }
  assert (Ent : forall j r, nth j (map (Rmult k) r) 0 = k * nth j r 0).
  { intros j r. rewrite <- (Rmult_0_r k) at 1. apply map_nth. }
  split; [split; [exact L|]|split; [split; reflexivity|split; [|split]]].
  - apply Forall_map. eapply Forall_impl; [|exact F]. intros r Hr. cbn. rewrite map_length. exact Hr.
  - intros i j _ _. rewrite Row. apply Ent.
  - intros i _. apply Ent.
  - intros x i _. rewrite Row, rdot_scal. unfold wt_cst. cbn [wt_vec]. rewrite Ent. ring.
Qed.
Lemma nth_repeat' {A} (a : A) n i d : (i < n)%nat -> nth i (repeat a n) d = a.
Proof. revert i; induction n as [|n IH]; intros [|i] H; cbn; try lia; [reflexivity|apply IH; lia]. Qed.
Lemma rdot_zero n : forall x, rdot (repeat 0 n) x = 0.
Proof. induction n as [|n IH]; intros [|y x]; cbn; try reflexivity. rewrite IH; ring. Qed.
Lemma c48_init r c : wt_wf (initwp r c) /\ wt_rows (initwp r c) = r /\ wt_cols (initwp r c) = c /\
  forall x i, (i < r)%nat -> wt_at (initwp r c) x i = 0.
Proof.
  unfold wt_wf, wt_rows, wt_at, wt_cst, initwp; cbn [wt_mat wt_vec wt_cols]. rewrite !repeat_length.
  split; [split; [reflexivity|]|split; [reflexivity|split; [reflexivity|]]].
  - apply Forall_forall. intros a Ha. apply repeat_spec in Ha. subst. apply repeat_length.
  - intros x i Hi. rewrite (nth_repeat' (repeat 0 c)) by lia. rewrite rdot_zero, nth_repeat' by lia. ring.
Qed.

(** C13 *)
Lemma lr_isz_zero r : lr_isz r = true <-> Forall (eq 0) r.
Proof. rewrite lr_isz_spec. split; intros H; eapply Forall_impl; try exact H; cbn; intros; congruence. Qed.
Lemma unit_row_scaled r : unit_row r (scaled (list R) lr_isz lr_norm lr_div r).
Proof.
  unfold unit_row, scaled. destruct (lr_isz (fst r)) eqn:E.
  - left. split; [apply lr_isz_zero, E|reflexivity].
  - right. pose proof (lr_norm_pos _ E). exists (/ lr_norm (fst r)). split; [apply Rinv_0_lt_compat; assumption|].
    unfold normalize_row. cbn [fst snd]. repeat split.
    + unfold lr_div. apply map_ext. intros a. unfold Rdiv. ring.
    + unfold Rdiv. ring.
    + pose proof (lr_norm_div _ E) as H1. unfold lr_norm at 1 in H1.
      change (rdot ?a ?b) with (lr_dot a b). rewrite <- (sqrt_sqrt (lr_dot _ _)) by apply lr_dot_nonneg. rewrite H1. ring.
Qed.
Lemma c13_ok (l : list (list R * R)) : exists z l', NormalizeX l = Ok (z, l') /\
  length l' = length l /\ (forall x, satX l x <-> satX l' x) /\
  (z = (-1)%Z /\ (forall x, ~ satX l x) \/
   exists m l0, z = Z.of_nat m /\ Permutation l l0 /\ Forall2 unit_row l0 l' /\
     Forall (fun r => rdot (fst r) (fst r) = 1) (firstn m l') /\
     Forall (fun r => Forall (eq 0) (fst r) /\ 0 <= snd r) (skipn m l')).
Proof.
  destruct (NormalizeX_ok l) as (z & l' & H1 & H2 & H3 & H4). exists z, l'. split; [exact H1|]. split; [exact H2|].
  split; [exact H3|]. destruct H4 as [H4|(m & Hz & Hm & HP & Ha & Hb)]; [left; exact H4|right].
  assert (exists l0, Permutation l l0 /\ l' = map (scaled (list R) lr_isz lr_norm lr_div) l0) as (l0 & HP0 & E).
  { clear -HP. apply Permutation_sym, Permutation_map_inv in HP. destruct HP as (l3 & E & HP). exists l3. split; [exact HP|exact E]. }
  exists m, l0. split; [exact Hz|]. split; [exact HP0|]. split; [|split].
  - subst l'. clear. induction l0 as [|r l0 IH]; cbn [map]; constructor; [apply unit_row_scaled|exact IH].
  - eapply Forall_impl; [|exact Ha]. intros r [_ Hr]. unfold lr_norm in Hr.
    change (rdot ?a ?b) with (lr_dot a b). rewrite <- (sqrt_sqrt (lr_dot _ _)) by apply lr_dot_nonneg. rewrite Hr. ring.
  - eapply Forall_impl; [|exact Hb]. intros r [Hr Hr']. split; [apply lr_isz_zero, Hr|exact Hr'].
Qed.
