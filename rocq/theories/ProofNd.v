(** Splitting, extraction and hull of Bezier curves, any degree and point type. *)
From Verif Require Import Vec SpecBezier ModelNd ProofBezier ProofCurve.
Open Scope R_scope.

(** * Scalar lists *)
Definition rred := nd_reduce R Rplus Rmult.
Definition rfronts := nd_fronts R Rplus Rmult.
Definition rbacks := nd_backs R Rplus Rmult.

Lemma rred_len u : forall P, length (rred u P) = pred (length P).
Proof.
  induction P as [|a P IH]; [reflexivity|]. destruct P as [|b P]; [reflexivity|].
  change (rred u (a :: b :: P)) with ((1 - u) * a + u * b :: rred u (b :: P)). cbn [length pred] in *. rewrite IH. reflexivity.
Qed.
Lemma rred_nth u : forall P i, (S i < length P)%nat -> nth i (rred u P) 0 = cstep u (fun j => nth j P 0) i.
Proof.
  induction P as [|a P IH]; intros i H; [cbn in H; lia|]. destruct P as [|b P]; [cbn in H; lia|].
  change (rred u (a :: b :: P)) with ((1 - u) * a + u * b :: rred u (b :: P)).
  destruct i as [|i]; [reflexivity|]. cbn [nth]. rewrite IH by (cbn in *; lia). reflexivity.
Qed.
Lemma rfronts_len u : forall n P, length P = n -> length (rfronts n u P) = n.
Proof.
  induction n as [|n IH]; intros [|a P] H; try discriminate; [reflexivity|].
  cbn [rfronts nd_fronts length]. f_equal. apply IH. fold rred. rewrite rred_len. cbn in *. lia.
Qed.
Lemma rfronts_nth u : forall n P i, length P = n -> (i < n)%nat ->
  nth i (rfronts n u P) 0 = cast i u (fun j => nth j P 0).
Proof.
  induction n as [|n IH]; intros [|a P] i H Hi; try discriminate; try lia.
  cbn [rfronts nd_fronts]. destruct i as [|i]; [reflexivity|]. cbn [nth cast].
  fold rred rfronts. change (nd_fronts R Rplus Rmult n u (rred u (a :: P))) with (rfronts n u (rred u (a :: P))).
  rewrite IH; [|rewrite rred_len; cbn in *; lia|lia]. apply cast_ext. intros j Hj. apply rred_nth. rewrite H. lia.
Qed.
Lemma rbacks_len u : forall n P, length P = n -> length (rbacks n u P) = n.
Proof.
  induction n as [|n IH]; intros [|a P] H; try discriminate; [reflexivity|].
  unfold rbacks in *. cbn [nd_backs]. rewrite app_length. cbn [length]. rewrite IH; [lia|]. fold rred. rewrite rred_len. cbn in *. lia.
Qed.
Lemma last_nth_R : forall (P : list R) d, P <> [] -> last P d = nth (length P - 1) P 0.
Proof.
  induction P as [|a P IH]; intros d H; [congruence|]. destruct P as [|b P]; [reflexivity|].
  change (last (a :: b :: P) d) with (last (b :: P) d). rewrite IH by discriminate. cbn [length nth].
  replace (S (S (length P)) - 1)%nat with (S (S (length P) - 1)) by lia. reflexivity.
Qed.
Lemma rbacks_nth u : forall n P i, length P = n -> (i < n)%nat ->
  nth i (rbacks n u P) 0 = cast (n - 1 - i) u (fun j => nth (i + j) P 0).
Proof.
  induction n as [|n IH]; intros P i H Hi; try lia. destruct P as [|a P]; [discriminate|].
  unfold rbacks in *. cbn [nd_backs]. fold rred.
  assert (HL : length (nd_backs R Rplus Rmult n u (rred u (a :: P))) = n).
  { apply rbacks_len. rewrite rred_len. cbn in *. lia. }
  destruct (Nat.eq_dec i n) as [->|Hne].
  - rewrite app_nth2 by lia. rewrite HL, Nat.sub_diag. cbn [nth].
    replace (S n - 1 - n)%nat with 0%nat by lia. cbn [cast]. rewrite Nat.add_0_r, last_nth_R by discriminate. rewrite H.
    replace (S n - 1)%nat with n by lia. reflexivity.
  - rewrite app_nth1 by lia. rewrite IH; [|rewrite rred_len; cbn in *; lia|lia].
    replace (S n - 1 - i)%nat with (S (n - 1 - i)) by lia. cbn [cast]. apply cast_ext.
    intros j Hj. rewrite rred_nth by (rewrite H; lia). unfold cstep. rewrite Nat.add_succ_r. reflexivity.
Qed.

Lemma rfronts_bez u P v : P <> [] -> bezl (rfronts (length P) u P) v = bezl P (u * v).
Proof.
  intros H. unfold bezl. rewrite rfronts_len by reflexivity. rewrite <- bez_left. apply bez_ext.
  intros i Hi. apply rfronts_nth; [reflexivity|]. destruct P; [congruence|cbn in *; lia].
Qed.
Lemma rbacks_bez u P v : P <> [] -> bezl (rbacks (length P) u P) v = bezl P (u + (1 - u) * v).
Proof.
  intros H. unfold bezl. rewrite rbacks_len by reflexivity. rewrite <- bez_right. apply bez_ext.
  intros i Hi. assert (i < length P)%nat by (destruct P; [congruence|cbn in *; lia]).
  rewrite rbacks_nth by (try reflexivity; assumption). f_equal. destruct P; [congruence|cbn; lia].
Qed.

(** * Curves over any point type, seen through linear maps *)
Section Lin.
  Variable A : Type.
  Variable add : A -> A -> A.
  Variable scal : R -> A -> A.
  Definition linear (phi : A -> R) : Prop :=
    (forall a b, phi (add a b) = phi a + phi b) /\ (forall k a, phi (scal k a) = k * phi a).

  Lemma red_phi phi u : linear phi -> forall P, map phi (nd_reduce A add scal u P) = rred u (map phi P).
  Proof.
    intros [H1 H2]. induction P as [|a P IH]; [reflexivity|]. destruct P as [|b P]; [reflexivity|].
    change (nd_reduce A add scal u (a :: b :: P)) with (add (scal (1 - u) a) (scal u b) :: nd_reduce A add scal u (b :: P)).
    cbn [map] in *. rewrite IH, H1, !H2. reflexivity.
  Qed.
  Lemma fronts_phi phi u : linear phi -> forall n P, map phi (nd_fronts A add scal n u P) = rfronts n u (map phi P).
  Proof.
    intros H. induction n as [|n IH]; intros P; [reflexivity|]. destruct P as [|a P]; [reflexivity|].
    cbn [nd_fronts map rfronts]. unfold rfronts. cbn [nd_fronts]. f_equal. rewrite IH, (red_phi phi u H). reflexivity.
  Qed.
  Lemma last_map_phi (phi : A -> R) : forall P d, phi (last P d) = last (map phi P) (phi d).
  Proof.
    induction P as [|a P IH]; intros d; [reflexivity|]. destruct P as [|b P]; [reflexivity|].
    change (last (a :: b :: P) d) with (last (b :: P) d). rewrite IH. reflexivity.
  Qed.
  Lemma backs_phi phi u : linear phi -> forall n P, map phi (nd_backs A add scal n u P) = rbacks n u (map phi P).
  Proof.
    intros H. induction n as [|n IH]; intros P; [reflexivity|]. destruct P as [|a P]; [reflexivity|].
    unfold rbacks in *. cbn [nd_backs]. rewrite map_app, IH, (red_phi phi u H). f_equal.
    change [phi (last (a :: P) a)] with [phi (last (a :: P) a)]. cbn [map]. rewrite last_map_phi. reflexivity.
  Qed.
  Lemma red_len u : forall P, length (nd_reduce A add scal u P) = pred (length P).
  Proof.
    induction P as [|a P IH]; [reflexivity|]. destruct P as [|b P]; [reflexivity|].
    change (nd_reduce A add scal u (a :: b :: P)) with (add (scal (1 - u) a) (scal u b) :: nd_reduce A add scal u (b :: P)).
    cbn [length pred] in *. rewrite IH. reflexivity.
  Qed.
  Lemma fronts_len u : forall n P, length P = n -> length (nd_fronts A add scal n u P) = n.
  Proof.
    induction n as [|n IH]; intros [|a P] H; try discriminate; [reflexivity|].
    cbn [nd_fronts length]. f_equal. apply IH. rewrite red_len. cbn in *. lia.
  Qed.
  Lemma backs_len u : forall n P, length P = n -> length (nd_backs A add scal n u P) = n.
  Proof.
    induction n as [|n IH]; intros [|a P] H; try discriminate; [reflexivity|].
    cbn [nd_backs]. rewrite app_length. cbn [length]. rewrite IH; [lia|]. rewrite red_len. cbn in *. lia.
  Qed.

  (** value at [t], without mult_T_ *)
  Definition nd_val (phi : A -> R) (cv : ndc A) (t : R) : R :=
    bezl (map phi (nd_pts cv)) ((t - nd_min cv) / (nd_max cv - nd_min cv)).
  Definition nd_ok (cv : ndc A) : Prop := nd_pts cv <> [] /\ nd_min cv < nd_max cv.

  Lemma nd_make_inv pts a b m cv : nd_make A pts a b m = Ok cv -> cv = NDC pts a b m /\ nd_ok cv.
  Proof.
    unfold nd_make. destruct pts as [|p pts]; [discriminate|]. destruct (Rle_dec b a); [discriminate|].
    intros H. injection H as <-. split; [reflexivity|]. split; cbn; [discriminate|lra].
  Qed.
  Lemma nd_make_ok pts a b m : pts <> [] -> a < b -> nd_make A pts a b m = Ok (NDC pts a b m).
  Proof. intros H Hab. unfold nd_make. destruct pts; [congruence|]. destruct (Rle_dec b a); [lra|reflexivity]. Qed.

  (** [cv'] is a piece of [cv]: same number of points, same values, inside. *)
  Definition piece (cv' cv : ndc A) : Prop :=
    nd_ok cv' /\ length (nd_pts cv') = length (nd_pts cv) /\ nd_mult cv' = nd_mult cv /\
    nd_min cv <= nd_min cv' /\ nd_max cv' <= nd_max cv /\
    forall phi t, linear phi -> nd_val phi cv' t = nd_val phi cv t.
  Lemma piece_refl cv : nd_ok cv -> piece cv cv.
  Proof. intros H. repeat split; try apply H; try lra. Qed.
  Lemma piece_trans a b c : piece a b -> piece b c -> piece a c.
  Proof.
    intros (A1 & A2 & A3 & A4 & A5 & A6) (B1 & B2 & B3 & B4 & B5 & B6).
    split; [exact A1|]. split; [congruence|]. split; [congruence|]. split; [lra|]. split; [lra|].
    intros phi t H. rewrite A6, B6 by exact H. reflexivity.
  Qed.

  Lemma close_spec a b : close a b = true <-> Rabs (a - b) < MARGIN.
  Proof. unfold close. destruct (Rlt_dec (Rabs (a - b)) MARGIN); split; intros; try assumption; try reflexivity; try discriminate; contradiction. Qed.
  Lemma close_false a b : close a b = false <-> MARGIN <= Rabs (a - b).
  Proof. unfold close. destruct (Rlt_dec (Rabs (a - b)) MARGIN); split; intros; try lra; try reflexivity; discriminate. Qed.

  Lemma u_range cv t : nd_ok cv -> nd_min cv <= t <= nd_max cv ->
    0 <= (t - nd_min cv) / (nd_max cv - nd_min cv) <= 1.
  Proof.
    intros [_ H] Ht. assert (0 < / (nd_max cv - nd_min cv)) by (apply Rinv_0_lt_compat; lra). split.
    - apply Rmult_le_pos; lra.
    - apply (Rmult_le_reg_r (nd_max cv - nd_min cv)); [lra|]. unfold Rdiv. rewrite Rmult_assoc, Rinv_l by lra. lra.
  Qed.

  Lemma split_ok cv t c1 c2 : nd_ok cv -> nd_split A add scal cv t = Ok (c1, c2) ->
    piece c1 cv /\ piece c2 cv /\ nd_min c1 = nd_min cv /\ nd_max c1 = t /\ nd_min c2 = t /\ nd_max c2 = nd_max cv /\
    nd_min cv < t < nd_max cv.
  Proof.
    intros Hok H. unfold nd_split in H. destruct (close t (nd_max cv)); [discriminate|].
    set (u := (t - nd_min cv) / (nd_max cv - nd_min cv)) in *. cbv zeta in H.
    destruct (Rlt_dec u 0); [discriminate|]. destruct (Rlt_dec 1 u); [discriminate|].
    destruct (nd_make _ (nd_fronts _ _ _ _ _ _) _ _ _) as [d1| |] eqn:E1; try discriminate. cbn [bind] in H.
    destruct (nd_make _ (nd_backs _ _ _ _ _ _) _ _ _) as [d2| |] eqn:E2; try discriminate. cbn [bind] in H.
    injection H as <- <-. apply nd_make_inv in E1. apply nd_make_inv in E2.
    destruct E1 as [-> K1], E2 as [-> K2]. pose proof K1 as [_ K1']. pose proof K2 as [_ K2']. cbn [nd_min nd_max] in *.
    destruct Hok as [Hne Hlt].
    assert (Hm : forall phi, map phi (nd_pts cv) <> [] :> list R) by (intros phi; destruct (nd_pts cv); [congruence|discriminate]).
    split; [|split; [|repeat split; assumption || reflexivity]].
    - split; [exact K1|]. cbn [nd_pts nd_mult nd_min nd_max]. split; [apply fronts_len; reflexivity|]. split; [reflexivity|].
      split; [lra|]. split; [lra|]. intros phi s Hp. unfold nd_val. cbn [nd_pts nd_min nd_max].
      rewrite (fronts_phi phi u Hp). rewrite <- (map_length phi), rfronts_bez by apply Hm. f_equal. unfold u. field. lra.
    - split; [exact K2|]. cbn [nd_pts nd_mult nd_min nd_max]. split; [apply backs_len; reflexivity|]. split; [reflexivity|].
      split; [lra|]. split; [lra|]. intros phi s Hp. unfold nd_val. cbn [nd_pts nd_min nd_max].
      rewrite (backs_phi phi u Hp). rewrite <- (map_length phi), rbacks_bez by apply Hm. f_equal. unfold u. field. lra.
  Qed.
  Lemma split_total cv t : nd_ok cv -> nd_min cv < t -> MARGIN <= nd_max cv - t ->
    exists c1 c2, nd_split A add scal cv t = Ok (c1, c2).
  Proof.
    intros Hok Ht Hm. assert (HM : 0 < MARGIN) by (unfold MARGIN; lra). unfold nd_split.
    destruct (close t (nd_max cv)) eqn:E.
    { apply close_spec in E. rewrite Rabs_left1 in E by lra. lra. }
    pose proof (u_range cv t Hok ltac:(lra)) as Hu. cbv zeta.
    destruct (Rlt_dec _ 0); [lra|]. destruct (Rlt_dec 1 _); [lra|]. destruct Hok as [Hne _].
    rewrite nd_make_ok; [|intros E0; apply (f_equal (@length A)) in E0; rewrite fronts_len in E0 by reflexivity; destruct (nd_pts cv); [congruence|discriminate]|lra].
    cbn [bind].
    rewrite nd_make_ok; [|intros E0; apply (f_equal (@length A)) in E0; rewrite backs_len in E0 by reflexivity; destruct (nd_pts cv); [congruence|discriminate]|lra].
    cbn [bind]. eauto.
  Qed.

  Lemma extract_ok cv t1 t2 cv' : nd_ok cv -> nd_extract A add scal cv t1 t2 = Ok cv' ->
    piece cv' cv /\ nd_min cv' <= t1 /\ t2 <= nd_max cv' /\
    (t1 = nd_min cv \/ MARGIN <= t1 - nd_min cv -> nd_min cv' = t1) /\
    (t2 = nd_max cv \/ MARGIN <= nd_max cv - t2 -> nd_max cv' = t2).
  Proof.
    intros Hok H. unfold nd_extract in H.
    assert (HM : 0 < MARGIN) by (unfold MARGIN; lra).
    destruct (Rlt_dec t1 (nd_min cv)); [discriminate|]. destruct (Rlt_dec (nd_max cv) t1); [discriminate|].
    destruct (Rlt_dec t2 (nd_min cv)); [discriminate|]. destruct (Rlt_dec (nd_max cv) t2); [discriminate|].
    assert (C1 : close t1 (nd_min cv) = true -> t1 = nd_min cv \/ MARGIN <= t1 - nd_min cv -> nd_min cv = t1).
    { intros Hc. apply close_spec in Hc. rewrite Rabs_right in Hc by lra. lra. }
    assert (C2 : close t2 (nd_max cv) = true -> t2 = nd_max cv \/ MARGIN <= nd_max cv - t2 -> nd_max cv = t2).
    { intros Hc. apply close_spec in Hc. rewrite Rabs_left1 in Hc by lra. lra. }
    destruct (close t1 (nd_min cv)) eqn:E1.
    - destruct (close t2 (nd_max cv)) eqn:E2.
      + injection H as <-. split; [apply piece_refl, Hok|]. split; [lra|]. split; [lra|]. auto.
      + destruct (nd_split A add scal cv t2) as [[a b]| |] eqn:E; try discriminate. cbn [bind fst] in H. injection H as <-.
        destruct (split_ok _ _ _ _ Hok E) as (P1 & _ & M1 & M2 & _). rewrite M1, M2. split; [exact P1|]. split; [lra|]. split; [lra|].
        split; [auto|]. reflexivity.
    - destruct (nd_split A add scal cv t1) as [[a b]| |] eqn:E; try discriminate. cbn [bind fst snd] in H.
      destruct (split_ok _ _ _ _ Hok E) as (_ & P2 & _ & _ & M3 & M4 & _).
      destruct (close t2 (nd_max cv)) eqn:E2.
      + injection H as <-. rewrite M3, M4. split; [exact P2|]. split; [lra|]. split; [lra|]. split; [reflexivity|auto].
      + destruct (nd_split A add scal b t2) as [[a' b']| |] eqn:E'; try discriminate. cbn [bind fst snd] in H. injection H as <-.
        destruct (split_ok _ _ _ _ (proj1 P2) E') as (P1' & _ & M1' & M2' & _). rewrite M1', M2', M3.
        split; [eapply piece_trans; eassumption|]. split; [lra|]. split; [lra|]. split; reflexivity.
  Qed.
  Lemma extract_total cv t1 t2 : nd_ok cv -> nd_min cv <= t1 -> t1 < t2 -> t2 <= nd_max cv ->
    (t1 - nd_min cv < MARGIN \/ MARGIN <= nd_max cv - t1) -> exists cv', nd_extract A add scal cv t1 t2 = Ok cv'.
  Proof.
    intros Hok H1 H2 H3 H4. assert (HM : 0 < MARGIN) by (unfold MARGIN; lra). unfold nd_extract.
    destruct (Rlt_dec t1 (nd_min cv)); [lra|]. destruct (Rlt_dec (nd_max cv) t1); [lra|].
    destruct (Rlt_dec t2 (nd_min cv)); [lra|]. destruct (Rlt_dec (nd_max cv) t2); [lra|].
    assert (C2 : close t2 (nd_max cv) = false -> MARGIN <= nd_max cv - t2).
    { intros Hc. apply close_false in Hc. rewrite Rabs_left1 in Hc by lra. lra. }
    destruct (close t1 (nd_min cv)) eqn:E1.
    - destruct (close t2 (nd_max cv)) eqn:E2; [eauto|].
      destruct (split_total cv t2 Hok ltac:(lra) (C2 eq_refl)) as (a & b & ->). cbn [bind]. eauto.
    - apply close_false in E1. rewrite Rabs_right in E1 by lra.
      destruct (split_total cv t1 Hok ltac:(lra) ltac:(lra)) as (a & b & E). rewrite E. cbn [bind snd].
      destruct (close t2 (nd_max cv)) eqn:E2; [eauto|].
      destruct (split_ok _ _ _ _ Hok E) as (_ & P2 & _ & _ & M3 & M4 & _).
      destruct (split_total b t2 (proj1 P2) ltac:(lra) ltac:(rewrite M4; auto)) as (a' & b' & ->). cbn [bind]. eauto.
  Qed.

  (** hull *)
  Lemma bezl_le P s b : P <> [] -> 0 <= s <= 1 -> Forall (fun a => a <= b) P -> bezl P s <= b.
  Proof.
    intros Hne Hs HF. unfold bezl. apply bez_le; [exact Hs|]. intros i Hi. rewrite Forall_forall in HF. apply HF, nth_In.
    destruct P; [congruence|cbn in *; lia].
  Qed.
  Lemma val_le phi cv t b : nd_ok cv -> nd_min cv <= t <= nd_max cv ->
    Forall (fun p => phi p <= b) (nd_pts cv) -> nd_val phi cv t <= b.
  Proof.
    intros Hok Ht HF. apply bezl_le; [destruct Hok as [H _]; destruct (nd_pts cv); [congruence|discriminate]|apply u_range; assumption|].
    rewrite Forall_map. exact HF.
  Qed.
End Lin.
