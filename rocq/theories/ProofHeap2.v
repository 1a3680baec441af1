(** The contacts of a problem belong to it. *)
From Coq Require Import List Reals ZArith Lia.
From Verif Require Import Vec ModelData ModelHeap SpecHeap ProofHeap.
Import ListNotations.
Local Open Scope nat_scope.

Definition sep (s : world) : Prop :=
  wf s /\
  (forall i j c, pelt s i j c -> exists p x, o_ptr c = Some p /\ nth_error (heap s) p = Some (Some x)) /\
  (forall i j p, pptr s i j p -> (forall k, ~ cdptr s k p) /\ (forall k, ~ hptr s k p)) /\
  (forall i j i' j' p, pptr s i j p -> pptr s i' j' p -> i = i' /\ j = j').

Lemma sep_0 : sep w0.
Proof.
  split; [apply wf_0|]. repeat split; intros.
  - destruct H as (v & N & _). destruct i; discriminate.
  - destruct H as (c & (v & N & _) & _). destruct i; discriminate.
  - destruct H as (c & (v & N & _) & _). destruct i; discriminate.
  - destruct H as (c & (v & N & _) & _). destruct i; discriminate.
  - destruct H as (c & (v & N & _) & _). destruct i; discriminate.
Qed.

(** Two new pointers are in different places. *)
Lemma step_inj : forall grow s o s' r i j i' j' p, wf s -> step grow s o = Ok (s', r) ->
  pptr s' i j p -> pptr s' i' j' p -> length (heap s) <= p -> i = i' /\ j = j'.
Proof.
  intros grow s o s' r i j i' j' p W H (c & (v & N & M) & P) (c' & (v' & N' & M') & P') F.
  assert (OLD : forall i j v c q, nth_error (probs s) i = Some v -> nth_error (p_list v) j = Some c -> o_ptr c = Some q -> q < length (heap s)).
  { intros. destruct W as (_ & _ & W). apply (W i0 j0 q). exists c0. split; [exists v0; auto|auto]. }
  assert (SAME : probs s' = probs s -> i = i' /\ j = j').
  { intros Z. rewrite Z in N. pose proof (OLD _ _ _ _ _ N M P). lia. }
  destruct o; try (match type of H with step _ _ (DropPhase _) = _ => idtac | step _ _ (DropCD _) = _ => idtac end; drop_case H; apply SAME; assumption; fail); simpl in H; cases H; try (apply SAME; reflexivity); try (done_eq H; apply SAME; reflexivity).
  - destruct a0 as [h c1]. done_eq H. apply SAME; reflexivity.
  - destruct (o_ptr x); done_eq H; apply SAME; reflexivity.
  - destruct (negb _); done_eq H; apply SAME; reflexivity.
  - destruct (negb _); done_eq H; apply SAME; reflexivity.
  - done_eq H. simpl in N. apply nth_app_inv in N. destruct N as [N|(-> & ->)]; [|destruct j; discriminate].
    pose proof (OLD _ _ _ _ _ N M P). lia.
  - destruct a0 as [h c1]. cases H. destruct a0 as [h' c2]. done_eq H. simpl in N, N'.
    apply set_nth_inv in N. destruct N as [(-> & -> & _)|(_ & N)]; [|pose proof (OLD _ _ _ _ _ N M P); lia].
    apply set_nth_inv in N'. destruct N' as [(-> & -> & _)|(_ & N')]; [|pose proof (OLD _ _ _ _ _ N' M' P'); lia].
    split; auto. apply copy_cd_ok in E. destruct E as (y & L & -> & ->).
    assert (GG : length (heap s ++ [Some y]) <= p).
    { destruct (push_back_elt _ _ _ _ _ _ _ _ E0 M) as [Q|(q & Q & B & _)]; [pose proof (OLD _ _ _ _ _ H0 Q P); lia|].
      assert (q = p) by congruence. subst. lia. }
    eapply push_back_inj; eauto. intros j0 d q A B. pose proof (OLD _ _ _ _ _ H0 A B). rewrite app_length. simpl. lia.
  - done_eq H. simpl in N. apply set_nth_inv in N. destruct N as [(-> & -> & _)|(_ & N)]; [destruct j; discriminate|].
    pose proof (OLD _ _ _ _ _ N M P). lia.
  - destruct a as [h l]. done_eq H. simpl in N, N'.
    apply nth_app_inv in N. destruct N as [N|(-> & ->)]; [pose proof (OLD _ _ _ _ _ N M P); lia|].
    apply nth_app_inv in N'. destruct N' as [N'|(-> & ->)]; [pose proof (OLD _ _ _ _ _ N' M' P'); lia|].
    split; auto. simpl in M, M'. destruct (copy_list_elt _ _ _ _ _ _ E M) as (Q & _). destruct (copy_list_elt _ _ _ _ _ _ E M') as (Q' & _).
    assert (Some (length (heap s) + j) = Some (length (heap s) + j')) as Z by congruence. inversion Z. lia.
  - destruct (Nat.eqb p0 q) eqn:Q; [done_eq H; apply SAME; reflexivity|]. cases H. destruct a as [h l]. done_eq H. simpl in N, N'.
    apply set_nth_inv in N. destruct N as [(-> & -> & _)|(_ & N)]; [|pose proof (OLD _ _ _ _ _ N M P); lia].
    apply set_nth_inv in N'. destruct N' as [(-> & -> & _)|(_ & N')]; [|pose proof (OLD _ _ _ _ _ N' M' P'); lia].
    split; auto.
    destruct (assign_vector_elt _ _ _ _ _ _ _ E M) as [(A & _)|(p1 & A & B & _ & C & D)]; [pose proof (OLD _ _ _ _ _ H1 A P); lia|].
    destruct (assign_vector_elt _ _ _ _ _ _ _ E M') as [(A' & _)|(p1' & A' & B' & _ & C' & D')]; [pose proof (OLD _ _ _ _ _ H1 A' P'); lia|].
    assert (E1 : p1 = p) by congruence. assert (E1' : p1' = p) by congruence. rewrite E1 in C, B. rewrite E1' in C', B'.
    destruct (p_cap x <? length (p_list x0)) eqn:K; cbv iota in C, C'; [lia|].
    specialize (D eq_refl). specialize (D' eq_refl). rewrite firstn_length in D, D'.
    destruct (le_lt_dec (length (p_list x0)) (length (p_list x))) as [LE|LT].
    + unfold assign_vector in E. rewrite K in E. rewrite skipn_all2 in E by auto. simpl in E. inversion E; subst. simpl in M.
      rewrite app_nil_r in M. rewrite firstn_all2 in M by auto. pose proof (OLD _ _ _ _ _ H1 M P). lia.
    + rewrite Nat.min_l in D, D' by lia. lia.
Qed.

Lemma step_view : forall grow s o s' r i j c, sep s -> step grow s o = Ok (s', r) -> pelt s i j c ->
  (forall i j v, o <> ModContact i j v) -> view (heap s') c = view (heap s) c.
Proof.
  intros grow s o s' r i j c ((_ & _ & W) & S1 & S2 & S3) H X NM.
  destruct (S1 _ _ _ X) as (p & x & P & A). assert (Y : pptr s i j p) by (exists c; auto).
  destruct (step_heap _ _ _ _ _ H) as [(vs & ->)|(q & y & E & Z & _)].
  - apply view_app. intros q Q. assert (q = p) by congruence. subst. eapply nth_lt; eauto.
  - unfold view. rewrite P, E. rewrite set_nth_other; auto. intros ->.
    destruct (S2 _ _ _ Y) as (B & C). destruct o; simpl in Z; try contradiction; try (eapply C; eauto; fail); try (eapply B; eauto; fail); try (destruct Z as (hh & Z); eapply C; eauto; fail).
    eapply NM; eauto.
Qed.

Lemma step_sep : forall grow s o s' r, sep s -> ~ shares s o -> step grow s o = Ok (s', r) -> sep s'.
Proof.
  intros grow s o s' r S NS H. pose proof S as (W & S1 & S2 & S3). pose proof (step_wf _ _ _ _ _ H W) as W'.
  split; auto.
  assert (PP : forall i j p, pptr s' i j p -> pptr s i j p \/ fresh s s' p).
  { intros i j p (c & X & P). destruct (step_p _ _ _ _ _ _ _ _ H X) as [Y|[(q & Q & F & _)|(i' & _ & _ & Z)]]; [left; exists c; auto|right|contradiction].
    assert (q = p) by congruence. subst. auto. }
  assert (B : forall i j p, pptr s i j p -> p < length (heap s)) by (destruct W as (_ & _ & W); auto).
  split; [|split].
  - intros i j c X. destruct (step_p _ _ _ _ _ _ _ _ H X) as [Y|[(q & Q & F & x & A)|(i' & _ & _ & Z)]]; [|eauto|contradiction].
    destruct (S1 _ _ _ Y) as (p & x & P & A). assert (Y' : pptr s i j p) by (exists c; auto).
    destruct (step_heap _ _ _ _ _ H) as [(vs & ->)|(q & y & E & Z & _ & NN & _)].
    + exists p, x. split; auto. apply nth_app_l; auto.
    + rewrite E. destruct (Nat.eq_dec q p) as [->|NE].
      * destruct y as [y|]; [exists p, y; rewrite set_nth_same by (eapply nth_lt; eauto); auto|].
        destruct (NN eq_refl) as (h & HP). exfalso. eapply (proj2 (S2 _ _ _ Y')); eauto.
      * exists p, x. rewrite set_nth_other by auto. auto.
  - intros i j p X. destruct (PP _ _ _ X) as [Y|F].
    + destruct (S2 _ _ _ Y) as (C & D). pose proof (B _ _ _ Y) as BB. split; intros k K.
      * destruct (step_cd _ _ _ _ _ _ _ H K) as [Z|[(Z & _)|[(h & Z & _)|(b & _ & Z)]]];
          [eapply C; eauto|unfold fresh in Z; lia|eapply D; eauto|eapply C; eauto].
      * destruct (step_h _ _ _ _ _ _ _ H K) as [Z|[Z|(a & _ & Z & _)]];
          [eapply D; eauto|unfold fresh in Z; lia|eapply C; eauto].
    + (* a new pointer of a problem: the operation makes no other new pointer *)
      destruct W as (Wc & Wh & _). unfold fresh in F.
      assert (OP : forall a v, o <> CopyCD a /\ o <> NewPhase v).
      { intros a v. destruct X as (c & (w & N & M) & P). split; intros ->; simpl in H; cases H.
        - assert (pptr s i j p) as Z by (exists c; split; [exists w; auto|auto]). apply B in Z. lia.
        - destruct a0 as [h c1]. done_eq H. assert (pptr s i j p) as Z by (exists c; split; [exists w; auto|auto]). apply B in Z. lia.
        - done_eq H. assert (pptr s i j p) as Z by (exists c; split; [exists w; auto|auto]). apply B in Z. lia. }
      split; intros k K.
      * destruct (step_cd _ _ _ _ _ _ _ H K) as [Z|[(_ & a & -> & _)|[(h & Z & _)|(b & _ & Z)]]].
        -- apply Wc in Z. lia.
        -- destruct (OP a (CPhase [] 0 vzero [])) as (Q & _). congruence.
        -- apply Wh in Z. lia.
        -- apply Wc in Z. lia.
      * destruct (step_h _ _ _ _ _ _ _ H K) as [Z|[Z|(a & _ & Z & _)]].
        -- apply Wh in Z. lia.
        -- destruct K as (b & K). assert (NH : forall k q b, nth_error (hnds s') k = Some (q, b) -> q < length (heap s)).
           { intros k0 q0 b0 K0. destruct o; try (match type of H with step _ _ (DropPhase _) = _ => idtac | step _ _ (DropCD _) = _ => idtac end; drop_case H; apply (Wh k0); exists b0; congruence; fail); simpl in H; cases H; try (apply (Wh k0); exists b0; auto; fail); try (done_eq H; apply (Wh k0); exists b0; auto; fail).
             - destruct (OP 0 v) as (_ & Q). congruence.
             - destruct (OP a (CPhase [] 0 vzero [])) as (Q & _). congruence.
             - destruct (o_ptr x) eqn:EP; done_eq H; [|apply (Wh k0); exists b0; auto]. simpl in K0. apply nth_app_inv in K0.
               destruct K0 as [K0|(_ & K0)]; [apply (Wh k0); exists b0; auto|]. inversion K0; subst. apply (Wc a). exists x; auto.
             - destruct (negb _); done_eq H; apply (Wh k0); exists b0; auto.
             - destruct (negb _); done_eq H; apply (Wh k0); exists b0; auto.
             - destruct a0 as [h c1]. cases H. destruct a0 as [h' c2]. done_eq H. apply (Wh k0); exists b0; auto.
             - destruct a as [h c1]. done_eq H. apply (Wh k0); exists b0; auto.
             - destruct (Nat.eqb _ _); [done_eq H; apply (Wh k0); exists b0; auto|]. cases H. destruct a as [h c1]. done_eq H. apply (Wh k0); exists b0; auto. }
           apply NH in K. lia.
        -- apply Wc in Z. lia.
  - intros i j i' j' p X X'. destruct (PP _ _ _ X) as [Y|F]; destruct (PP _ _ _ X') as [Y'|F'].
    + eapply S3; eauto.
    + apply B in Y. unfold fresh in F'. lia.
    + apply B in Y'. unfold fresh in F. lia.
    + apply (step_inj _ _ _ _ _ _ _ _ _ p W H X X'). unfold fresh in F. lia.
Qed.
Lemma reach_sep : forall grow s, reach grow s -> sep s.
Proof. intros grow s H. induction H; [apply sep_0|eapply step_sep; eauto]. Qed.

(** * The contents of the problems *)
Lemma alter_map : forall A B (g : A -> B) (f : B -> B) l k x, nth_error l k = Some x ->
  alter k f (map g l) = set_nth (map g l) k (f (g x)).
Proof. intros. unfold alter. rewrite nth_error_map, H. reflexivity. Qed.
Lemma alter_none : forall A B (g : A -> B) (f : B -> B) l k, nth_error l k = None -> alter k f (map g l) = map g l.
Proof. intros. unfold alter. rewrite nth_error_map, H. reflexivity. Qed.
Lemma map_views : forall s h', (forall i j c, pelt s i j c -> view h' c = view (heap s) c) ->
  map (fun p => map (view h') (p_list p)) (probs s) = problem_views s.
Proof.
  intros s h' H. unfold problem_views. apply map_ext_in. intros v I. apply map_ext_in. intros c J.
  apply In_nth_error in I. apply In_nth_error in J. destruct I as (i & I). destruct J as (j & J). apply (H i j). exists v; auto.
Qed.
Lemma map_views1 : forall s h' i v, nth_error (probs s) i = Some v ->
  (forall i j c, pelt s i j c -> view h' c = view (heap s) c) -> map (view h') (p_list v) = map (view (heap s)) (p_list v).
Proof.
  intros s h' i v N H. apply map_ext_in. intros c J. apply In_nth_error in J. destruct J as (j & J). apply (H i j). exists v; auto.
Qed.
Lemma push_back_view : forall grow h v c h' v', push_back grow h v c = Ok (h', v') ->
  (forall d p, In d (p_list v) -> o_ptr d = Some p -> p < length h) ->
  map (view h') (p_list v') = map (view h) (p_list v) ++ [view h c].
Proof.
  intros grow h v c h' v' H B. destruct (push_back_ok _ _ _ _ _ _ H) as (x & L & l & C & E). rewrite E, map_app. simpl. f_equal.
  - destruct C as [(-> & ->)|C].
    + apply map_ext_in. intros d I. apply view_app. intros p. apply B. auto.
    + rewrite (copy_list_view _ _ _ _ C).
      * apply map_ext_in. intros d I. apply view_app. intros p. apply B. auto.
      * intros d p I P. rewrite app_length. pose proof (B _ _ I P). lia.
  - f_equal. rewrite (view_load _ _ _ L). unfold view. simpl.
    assert (M : nth_error h' (length h) = Some (Some x)).
    { destruct C as [(-> & ->)|C]; [apply nth_app_last|]. destruct (copy_list_grows _ _ _ _ C) as (vs & -> & _). apply nth_app_l, nth_app_last. }
    rewrite M. reflexivity.
Qed.
Lemma assign_vector_view : forall h v w h' v', assign_vector h v w = Ok (h', v') ->
  (forall d p, In d (p_list w) -> o_ptr d = Some p -> p < length h) ->
  map (view h') (p_list v') = map (view h) (p_list w).
Proof.
  intros h v w h' v' H B. unfold assign_vector in H. destruct (p_cap v <? length (p_list w)).
  - bsplit H. destruct a as [h2 l]. done_eq H. simpl. eapply copy_list_view; eauto.
  - bsplit H. destruct a as [h2 l]. done_eq H. simpl. rewrite map_app.
    rewrite (copy_list_view _ _ _ _ E).
    + destruct (copy_list_grows _ _ _ _ E) as (vs & -> & _).
      rewrite <- (firstn_skipn (length (p_list v)) (p_list w)) at 3. rewrite map_app. f_equal.
      apply map_ext_in. intros d I. apply view_app. intros p. apply B.
      rewrite <- (firstn_skipn (length (p_list v)) (p_list w)). apply in_or_app. auto.
    + intros d p I. apply B. rewrite <- (firstn_skipn (length (p_list v)) (p_list w)). apply in_or_app. auto.
Qed.

Lemma step_views : forall grow s o s' r, sep s -> step grow s o = Ok (s', r) -> problem_views s' = after s o.
Proof.
  intros grow s o s' r S H. pose proof S as (W & S1 & S2 & S3).
  assert (V : (forall i j v, o <> ModContact i j v) -> forall i j c, pelt s i j c -> view (heap s') c = view (heap s) c).
  { intros NM i j c X. eapply step_view; eauto. }
  assert (SAME : (forall i j v, o <> ModContact i j v) -> probs s' = probs s -> problem_views s' = problem_views s).
  { intros NM E. unfold problem_views at 1. rewrite E. apply map_views. apply V. auto. }
  assert (BD : forall i v d p, nth_error (probs s) i = Some v -> In d (p_list v) -> o_ptr d = Some p -> p < length (heap s)).
  { intros i v d p N I P. apply In_nth_error in I. destruct I as (j & J). destruct W as (_ & _ & W). apply (W i j). exists d. split; [exists v; auto|auto]. }
  destruct o; try (match type of H with step _ _ (DropPhase _) = _ => idtac | step _ _ (DropCD _) = _ => idtac end; drop_case H; cbn [after]; apply SAME; [intros; discriminate|assumption]; fail); cbn [after]; try (apply SAME; [intros; discriminate|]; simpl in H; cases H; try reflexivity; done_eq H; try reflexivity; fail).
  - apply SAME; [intros; discriminate|]; simpl in H; cases H; try reflexivity. destruct a0. done_eq H. reflexivity.
  - apply SAME; [intros; discriminate|]; simpl in H; cases H; try reflexivity. destruct (o_ptr x); done_eq H; reflexivity.
  - apply SAME; [intros; discriminate|]; simpl in H; cases H; try reflexivity. destruct (negb _); done_eq H; reflexivity.
  - apply SAME; [intros; discriminate|]; simpl in H; cases H; try reflexivity. destruct (negb _); done_eq H; reflexivity.
  - simpl in H. done_eq H. unfold problem_views. simpl. rewrite map_app. reflexivity.
  - simpl in H. cases H.
    + destruct H as [H|H]; [discriminate|]. destruct (cd_view s a); auto. symmetry. apply alter_none. auto.
    + unfold cd_view. destruct (existsb _ (cgone s)); [reflexivity|]. destruct H as [H|H]; [discriminate|]. rewrite H. reflexivity.
    + destruct a0 as [h c1]. cases H. destruct a0 as [h' v']. 
      pose proof H as HH. done_eq H. unfold cd_view. rewrite G0, H1. simpl option_map.
      unfold problem_views at 2. rewrite (alter_map _ _ _ _ _ _ _ H0).
      unfold problem_views at 1. simpl. rewrite set_nth_map.
      rewrite map_views by (apply V; intros; discriminate). f_equal.
      apply copy_cd_ok in E. destruct E as (y & L & -> & ->).
      rewrite (push_back_view _ _ _ _ _ _ E0).
      * f_equal.
        -- apply map_ext_in. intros d I. apply view_app. intros q. eapply BD; eauto.
        -- f_equal. rewrite (view_load _ _ _ L). unfold view. simpl. rewrite nth_app_last. reflexivity.
      * intros d q I P. rewrite app_length. pose proof (BD _ _ _ _ H0 I P). lia.
  - simpl in H. cases H.
    + symmetry. apply alter_none. destruct H as [H|H]; [discriminate|auto].
    + done_eq H. unfold problem_views at 2. rewrite (alter_map _ _ _ _ _ _ _ H0). unfold problem_views. simpl. rewrite set_nth_map. reflexivity.
  - simpl in H. unfold problem_views at 2. rewrite nth_error_map. cases H; [destruct H as [H|H]; [discriminate|]; rewrite H; reflexivity|]. rewrite H0.
    destruct a as [h l]. done_eq H. simpl option_map. unfold problem_views at 1. simpl. rewrite map_app. simpl.
    rewrite map_views by (apply V; intros; discriminate). f_equal. f_equal. eapply copy_list_view; eauto.
  - simpl in H. unfold problem_views at 2. rewrite nth_error_map. cases H.
    + destruct H as [H|H]; [discriminate|]. destruct (nth_error (probs s) q); simpl; auto. symmetry. apply alter_none. auto.
    + destruct H as [H|H]; [discriminate|]. rewrite H. reflexivity.
    + rewrite H1. simpl option_map. unfold problem_views at 2. rewrite (alter_map _ _ _ _ _ _ _ H0).
      destruct (Nat.eqb p q) eqn:Q.
      * apply Nat.eqb_eq in Q. subst. done_eq H. assert (x = x0) by congruence. subst.
        symmetry. apply set_nth_id. unfold problem_views. rewrite nth_error_map, H0. reflexivity.
      * cases H. destruct a as [h v']. done_eq H. unfold problem_views at 1. simpl. rewrite set_nth_map.
        rewrite map_views by (apply V; intros; discriminate). f_equal. eapply assign_vector_view; eauto.
  - clear V SAME. simpl in H. cases H.
    + symmetry. apply alter_none. destruct H as [H|H]; [discriminate|auto].
    + destruct H as [H|H]; [discriminate|]. unfold problem_views. rewrite (alter_map _ _ _ _ _ _ _ H0). rewrite (alter_none _ _ _ _ _ _ H). symmetry.
      apply set_nth_id. rewrite nth_error_map, H0. reflexivity.
    + unfold problem_views at 2. rewrite (alter_map _ _ _ _ _ _ _ H0). rewrite (alter_map _ _ _ _ _ _ _ H1).
      unfold problem_views. simpl.
      assert (PE : pptr s p i x1) by (exists x0; split; [exists x; auto|auto]).
      assert (OTH : forall i' j' c, pelt s i' j' c -> (i', j') <> (p, i) -> view (set_nth (heap s) x1 (Some v)) c = view (heap s) c).
      { intros i' j' c X NE. unfold view. destruct (o_ptr c) as [q|] eqn:Q; auto. rewrite set_nth_other; auto. intros ->.
        apply NE. assert (pptr s i' j' q) as Z by (exists c; auto). destruct (S3 _ _ _ _ _ PE Z). subst. reflexivity. }
      clear - H0 H1 H H2 OTH.
      assert (EXT : forall A B (f g : A -> B) l k x y, nth_error l k = Some x -> f x = y ->
         (forall j z, j <> k -> nth_error l j = Some z -> f z = g z) -> map f l = set_nth (map g l) k y).
      { clear. induction l as [|a l IH]; intros [|k] x y N E O; simpl in *; try discriminate.
        - inversion N; subst. f_equal. apply map_ext_in. intros z I. apply In_nth_error in I. destruct I as (j & J). apply (O (S j)); auto.
        - rewrite (O 0 a) by auto. f_equal. eapply IH; eauto. }
      eapply EXT; [exact H0| |].
      * eapply EXT; [exact H1| |].
        -- unfold view. rewrite H, set_nth_same by (eapply nth_lt; eauto). rewrite H2. reflexivity.
        -- intros j z NE J. apply (OTH p j); [exists x; auto|congruence].
      * intros i' z NE J. apply map_ext_in. intros c I. apply In_nth_error in I. destruct I as (j & I). apply (OTH i' j); [exists z; auto|congruence].
Qed.
