(** Copies and assignments of ContactData. *)
From Coq Require Import List Reals ZArith Lia.
From Verif Require Import Vec ModelData ModelHeap SpecHeap ProofHeap ProofHeap2.
Import ListNotations.
Local Open Scope nat_scope.

Lemma mem_in : forall i l, existsb (Nat.eqb i) l = true <-> In i l.
Proof.
  intros i l. rewrite existsb_exists. split.
  - intros (x & I & E). apply Nat.eqb_eq in E. subst. auto.
  - intros I. exists i. split; auto. apply Nat.eqb_refl.
Qed.
Lemma mem_cons : forall i j l, i <> j -> existsb (Nat.eqb i) (j :: l) = existsb (Nat.eqb i) l.
Proof. intros. simpl. apply Nat.eqb_neq in H. rewrite H. reflexivity. Qed.

(** Which ContactData an operation changes. *)
Lemma step_cds : forall grow s o s' r k c, step grow s o = Ok (s', r) -> ~ uses o k -> nth_error (cds s) k = Some c ->
  nth_error (cds s') k = Some c /\ existsb (Nat.eqb k) (cgone s') = existsb (Nat.eqb k) (cgone s).
Proof.
  intros grow s o s' r k c H U N. destruct o; cbn [uses] in U; simpl in H; cases H; auto; try (done_eq H; auto; fail);
    try (done_eq H; simpl; split; [apply nth_app_l; auto|auto]; fail).
  - done_eq H. destruct (release_rest (World (heap s) (hnds s) (h :: hgone s) (cds s) (cgone s) (wards s) (probs s)) h) as (A & _ & _ & B & _).
    rewrite A, B. auto.
  - done_eq H. assert (existsb (Nat.eqb k) (a :: cgone s) = existsb (Nat.eqb k) (cgone s)) as E by (apply mem_cons; auto).
    destruct (find _ _) as [w|]; [|split; [auto|exact E]].
    destruct (release_rest (World (heap s) (hnds s) (hgone s) (cds s) (a :: cgone s) (wards s) (probs s)) (snd w)) as (A & _ & _ & B & _).
    rewrite A, B. auto.
  - destruct a0 as [h c1]. done_eq H. simpl. split; [apply nth_app_l; auto|auto].
  - done_eq H. simpl. rewrite set_nth_other by tauto. auto.
  - done_eq H. simpl. rewrite set_nth_other by tauto. auto.
  - destruct (o_ptr x); done_eq H; auto.
  - destruct (negb _); done_eq H; auto. simpl. rewrite set_nth_other by tauto. auto.
  - destruct (negb _); done_eq H; auto. simpl. rewrite set_nth_other by tauto. auto.
  - destruct a0 as [h c1]. cases H. destruct a0 as [h' c']. done_eq H. auto.
  - destruct a as [h c1]. done_eq H. auto.
  - destruct (Nat.eqb _ _); [done_eq H; auto|]. cases H. destruct a as [h c1]. done_eq H. auto.
Qed.

(** * A copy *)
Definition priv (s : world) (b p : nat) (c : cdata) : Prop :=
  wf s /\ nth_error (cds s) b = Some c /\ o_ptr c = Some p /\ (forall k, k <> b -> ~ cdptr s k p) /\
  (forall k, ~ hptr s k p) /\ (forall i j, ~ pptr s i j p).
Lemma priv_step : forall grow s o s' r b p c, priv s b p c -> ~ uses o b -> step grow s o = Ok (s', r) ->
  priv s' b p c /\ nth_error (heap s') p = nth_error (heap s) p /\ existsb (Nat.eqb b) (cgone s') = existsb (Nat.eqb b) (cgone s).
Proof.
  intros grow s o s' r b p c (W & N & P & A & B & C) U H.
  assert (L : p < length (heap s)) by (destruct W as (W & _); apply (W b); exists c; auto).
  destruct (step_cds _ _ _ _ _ _ _ H U N) as (N' & G).
  split; [|split; auto].
  - split; [eapply step_wf; eauto|]. split; [auto|]. split; [auto|]. split; [|split].
    + intros k NE X. destruct (step_cd _ _ _ _ _ _ _ H X) as [Y|[(Y & _)|[(h & Y & _)|(b' & -> & Y)]]].
      * eapply A; eauto.
      * unfold fresh in Y. lia.
      * eapply B; eauto.
      * destruct (Nat.eq_dec b' b) as [->|NB]; [apply U; simpl; auto|eapply A; eauto].
    + intros k X. destruct (step_h _ _ _ _ _ _ _ H X) as [Y|[Y|(a & -> & Y & _)]].
      * eapply B; eauto.
      * unfold fresh in Y. lia.
      * destruct (Nat.eq_dec a b) as [->|NB]; [apply U; simpl; auto|eapply A; eauto].
    + intros i j (d & X & Q). destruct (step_p _ _ _ _ _ _ _ _ H X) as [Y|[(q & Q' & F & _)|(i' & _ & Y & _)]].
      * apply (C i j). exists d; auto.
      * unfold fresh in F. assert (q = p) by congruence. lia.
      * apply (C i' j). exists d; auto.
  - destruct (step_heap _ _ _ _ _ H) as [(vs & ->)|(q & y & E & Z & _)].
    + rewrite nth_error_app1; auto.
    + rewrite E, set_nth_other; auto. intros ->. destruct o; simpl in Z; try contradiction; try (eapply B; eauto; fail); try (eapply C; eauto; fail).
      * destruct Z as (hh & Z). eapply B; eauto.
      * destruct (Nat.eq_dec a b) as [->|NB]; [apply U; simpl; auto|eapply A; eauto].
Qed.
Lemma priv_view : forall s s' b p c, nth_error (cds s) b = Some c -> nth_error (cds s') b = Some c -> o_ptr c = Some p ->
  nth_error (heap s') p = nth_error (heap s) p -> existsb (Nat.eqb b) (cgone s') = existsb (Nat.eqb b) (cgone s) -> cd_view s' b = cd_view s b.
Proof.
  intros s s' b p c A B P E G. unfold cd_view. rewrite A, B, G. destruct (existsb (Nat.eqb b) (cgone s)); auto. simpl. unfold view. rewrite P, E. reflexivity.
Qed.
Lemma priv_run : forall grow l s s' b p c, priv s b p c -> (forall o, In o l -> ~ uses o b) -> run grow s l = Ok s' ->
  cd_view s' b = cd_view s b.
Proof.
  induction l as [|o l IH]; simpl; intros s s' b p c V U H.
  - inversion H; auto.
  - destruct (step grow s o) as [[s1 r]| |] eqn:E; simpl in H; try discriminate.
    destruct (priv_step _ _ _ _ _ _ _ _ V (U o (or_introl eq_refl)) E) as (V1 & M & G).
    rewrite (IH _ _ _ _ _ V1 (fun o' I => U o' (or_intror I)) H).
    destruct V as (_ & N & P & _). destruct V1 as (_ & N1 & _). eapply priv_view; eauto.
Qed.

Definition copied (s s' : world) (c : cdata) : Prop :=
  exists v, load (heap s) (o_ptr c) = Ok v /\
  s' = World (heap s ++ [Some v]) (hnds s) (hgone s) (cds s ++ [CD (Some (length (heap s))) (o_Kin c) (o_kin c) (o_Ang c) (o_ang c)])
         (cgone s) (wards s) (probs s).
(** names that have been given up have been defined *)
Definition gone_ok (s : world) : Prop := forall k, In k (cgone s) -> k < length (cds s).
Lemma step_gone : forall grow s o s' r, gone_ok s -> step grow s o = Ok (s', r) -> gone_ok s'.
Proof.
  intros grow s o s' r G H. unfold gone_ok in *. destruct o; simpl in H; cases H; auto; try (done_eq H; auto; fail);
    try (done_eq H; simpl; intros k I; apply G in I; rewrite app_length; lia).
  - done_eq H. destruct (release_rest (World (heap s) (hnds s) (h :: hgone s) (cds s) (cgone s) (wards s) (probs s)) h) as (A & _ & _ & B & _).
    rewrite A, B. auto.
  - done_eq H. assert (X : forall k, In k (a :: cgone s) -> k < length (cds s)).
    { intros k [->|I]; auto. eapply nth_lt; eauto. }
    destruct (find _ _) as [w|]; [|exact X].
    destruct (release_rest (World (heap s) (hnds s) (hgone s) (cds s) (a :: cgone s) (wards s) (probs s)) (snd w)) as (A & _ & _ & B & _).
    rewrite A, B. exact X.
  - destruct a0 as [h c1]. done_eq H. simpl. intros k I. apply G in I. rewrite app_length. lia.
  - done_eq H. simpl. rewrite set_nth_length. auto.
  - done_eq H. simpl. rewrite set_nth_length. auto.
  - destruct (o_ptr x); done_eq H; auto.
  - destruct (negb _); done_eq H; auto. simpl. rewrite set_nth_length. auto.
  - destruct (negb _); done_eq H; auto. simpl. rewrite set_nth_length. auto.
  - destruct a0 as [h c1]. cases H. destruct a0 as [h' c']. done_eq H. auto.
  - destruct a as [h c1]. done_eq H. auto.
  - destruct (Nat.eqb _ _); [done_eq H; auto|]. cases H. destruct a as [h c1]. done_eq H. auto.
Qed.
Lemma run_gone : forall grow l s s', gone_ok s -> run grow s l = Ok s' -> gone_ok s'.
Proof.
  induction l as [|o l IH]; simpl; intros s s' W H.
  - inversion H; subst; auto.
  - destruct (step grow s o) as [[s1 r]| |] eqn:E; simpl in H; try discriminate. eapply IH; [|eauto]. eapply step_gone; eauto.
Qed.
Lemma gone_0 : gone_ok w0.
Proof. intros k []. Qed.

Lemma cd_view_some : forall s a x, cd_view s a = Some x -> exists c, nth_error (cds s) a = Some c /\ existsb (Nat.eqb a) (cgone s) = false /\ view (heap s) c = x.
Proof.
  intros s a x H. unfold cd_view in H. destruct (existsb _ _) eqn:E; [discriminate|]. destruct (nth_error (cds s) a) as [c|]; simpl in H; [|discriminate].
  inversion H; subst. eauto.
Qed.
Lemma copy_step : forall grow s a x s' r, cd_view s a = Some x -> step grow s (CopyCD a) = Ok (s', r) ->
  r = Nothing /\ exists c, nth_error (cds s) a = Some c /\ copied s s' c.
Proof.
  intros grow s a x s' r V H. destruct (cd_view_some _ _ _ V) as (c & N & G & _).
  simpl in H. unfold ncd, named in H. rewrite G, N in H. cases H. destruct a0 as [h c1]. apply copy_cd_ok in E.
  destruct E as (v & L & -> & ->). done_eq H. split; auto. exists c. split; auto. exists v. auto.
Qed.
Lemma copied_priv : forall s s' c, wf s -> copied s s' c ->
  priv s' (length (cds s)) (length (heap s)) (CD (Some (length (heap s))) (o_Kin c) (o_kin c) (o_Ang c) (o_ang c)).
Proof.
  intros s s' c (Wc & Wh & Wp) (v & L & ->). split; [|split; [|split; [|split; [|split]]]].
  - repeat split.
    + intros k p (d & N & P). simpl in *. rewrite app_length. simpl. apply nth_app_inv in N. destruct N as [N|(_ & ->)].
      * assert (cdptr s k p) as X by (exists d; auto). apply Wc in X. lia.
      * simpl in P. inversion P. lia.
    + intros k p (b & N). simpl in *. rewrite app_length. simpl. assert (hptr s k p) as X by (exists b; auto). apply Wh in X. lia.
    + intros i j p (d & N & P). simpl in *. rewrite app_length. simpl. assert (pptr s i j p) as X by (exists d; auto). apply Wp in X. lia.
  - simpl. apply nth_app_last.
  - reflexivity.
  - intros k NE (d & N & P). simpl in N. apply nth_app_inv in N. destruct N as [N|(-> & _)]; [|congruence].
    assert (cdptr s k (length (heap s))) as X by (exists d; auto). apply Wc in X. lia.
  - intros k (b & N). simpl in N. assert (hptr s k (length (heap s))) as X by (exists b; auto). apply Wh in X. lia.
  - intros i j (d & N & P). assert (pptr s i j (length (heap s))) as X by (exists d; auto). apply Wp in X. lia.
Qed.

(** what the copy is, and what it leaves *)
Lemma copied_views : forall s s' c, wf s -> gone_ok s -> copied s s' c ->
  cd_view s' (length (cds s)) = Some (view (heap s) c) /\
  (forall k, k <> length (cds s) -> cd_view s' k = cd_view s k) /\
  problem_views s' = problem_views s /\ (forall h, handle_view s' h = handle_view s h).
Proof.
  intros s s' c (Wc & Wh & Wp) G (v & L & ->). split; [|split; [|split]].
  - unfold cd_view. simpl. replace (existsb (Nat.eqb (length (cds s))) (cgone s)) with false.
    2: { symmetry. apply Bool.not_true_iff_false. intros X. apply mem_in in X. apply G in X. lia. }
    rewrite nth_app_last. simpl. f_equal. rewrite (view_load _ _ _ L). unfold view. simpl. rewrite nth_app_last. reflexivity.
  - intros k NE. unfold cd_view. simpl. destruct (existsb _ _); auto. destruct (lt_dec k (length (cds s))) as [LT|LT].
    + rewrite nth_error_app1 by auto. destruct (nth_error (cds s) k) as [d|] eqn:N; auto. simpl. f_equal. apply view_app.
      intros p P. apply (Wc k). exists d; auto.
    + replace (nth_error (cds s ++ _) k) with (@None cdata); [|symmetry; apply nth_error_None; rewrite app_length; simpl; lia].
      replace (nth_error (cds s) k) with (@None cdata); auto. symmetry. apply nth_error_None. lia.
  - unfold problem_views at 1. simpl. apply map_views. intros i j d X. apply view_app. intros p P. apply (Wp i j). exists d; auto.
  - intros h. unfold handle_view. simpl. destruct (existsb _ _); auto. destruct (nth_error (hnds s) h) as [[p b]|] eqn:N; auto.
    rewrite nth_error_app1; auto. apply (Wh h). exists b; auto.
Qed.

Lemma copy_independent : forall grow l s a x s' r, run grow w0 l = Ok s -> cd_view s a = Some x -> step grow s (CopyCD a) = Ok (s', r) ->
  let b := length (cds s) in
  (exists c, x = Some c /\ cd_phase c <> None) /\
  cd_view s b = None /\ cd_view s' b = Some x /\
  (forall k, k <> b -> cd_view s' k = cd_view s k) /\ problem_views s' = problem_views s /\ (forall h, handle_view s' h = handle_view s h) /\
  (forall l' s'', (forall o, In o l' -> ~ uses o b) -> run grow s' l' = Ok s'' -> cd_view s'' b = Some x).
Proof.
  intros grow l s a x s' r R V H b. pose proof (run_wf _ _ _ _ wf_0 R) as W. pose proof (run_gone _ _ _ _ gone_0 R) as G.
  destruct (copy_step _ _ _ _ _ _ V H) as (_ & c & N & C).
  destruct (cd_view_some _ _ _ V) as (c' & N' & _ & X). assert (c' = c) by congruence. subst c'.
  destruct (copied_views _ _ _ W G C) as (A1 & A2 & A3 & A4). rewrite X in A1.
  split; [|split; [|split; [auto|split; [auto|split; [auto|split; [auto|]]]]]].
  - destruct C as (v & L & _). rewrite (view_load _ _ _ L) in X. subst x. eexists. split; [reflexivity|]. simpl. discriminate.
  - unfold cd_view. replace (nth_error (cds s) b) with (@None cdata); [destruct (existsb (Nat.eqb b) (cgone s)); auto|].
    symmetry. apply nth_error_None. unfold b. lia.
  - intros l' s'' U R'. rewrite <- A1. exact (priv_run _ _ _ _ _ _ _ (copied_priv _ _ _ W C) U R').
Qed.

(** * Changes through the copy *)
Definition only (s0 : world) (b p : nat) (s : world) : Prop :=
  (forall q, q <> p -> nth_error (heap s) q = nth_error (heap s0) q) /\
  (forall k, k <> b -> nth_error (cds s) k = nth_error (cds s0) k) /\
  (exists c, nth_error (cds s) b = Some c /\ o_ptr c = Some p) /\
  probs s = probs s0 /\ cgone s = cgone s0 /\ hgone s = hgone s0 /\
  (forall h, h < length (hnds s0) -> nth_error (hnds s) h = nth_error (hnds s0) h) /\
  (forall h q f, length (hnds s0) <= h -> nth_error (hnds s) h = Some (q, f) -> q = p) /\
  length (hnds s0) <= length (hnds s).
Lemma only_store : forall s0 b p s v, only s0 b p s -> only s0 b p (with_heap s (set_nth (heap s) p v)).
Proof.
  intros s0 b p s v (A & B & C & D & E & F & G & I & J). split; [|auto 10]. intros q NE. simpl. rewrite set_nth_other by auto. auto.
Qed.
Lemma only_set : forall s0 b p s c, only s0 b p s -> o_ptr c = Some p -> only s0 b p (with_cds s (set_nth (cds s) b c)).
Proof.
  intros s0 b p s c (A & B & C & D & E & F & G & I & J) P. split; [auto|]. split; [|split; [|auto 10]].
  - intros k NE. simpl. rewrite set_nth_other by auto. auto.
  - simpl. exists c. split; auto. destruct C as (c0 & N & _). rewrite set_nth_same; auto. eapply nth_lt; eauto.
Qed.
Lemma only_step : forall grow s0 b p s o s' r, only s0 b p s -> through b (length (hnds s0)) o -> step grow s o = Ok (s', r) -> only s0 b p s'.
Proof.
  intros grow s0 b p s o s' r O T H. pose proof O as (A & B & (c & N & P) & D & E & F & G & I & J).
  destruct o; cbn [through] in T; try contradiction; subst; simpl in H; cases H; auto.
  - destruct x as [q f]. simpl in H. inversion H; subst. pose proof (I _ _ _ T H0). subst. apply only_store; auto.
  - done_eq H. destruct x as [q f]. pose proof (I _ _ _ T H0). subst. apply only_store; auto.
  - assert (x = c) by congruence. subst. rewrite P in H. done_eq H. split; [auto|]. split; [auto|]. split; [exists c; auto|].
    simpl. repeat split; auto.
    + intros h L. rewrite nth_error_app1 by lia. auto.
    + intros h q f L K. apply nth_app_inv in K. destruct K as [K|(_ & K)]; [eauto|]. congruence.
    + rewrite app_length. lia.
  - assert (x = c) by congruence. subst. rewrite P in H. inversion H; subst. apply only_store; auto.
  - destruct (negb _); done_eq H; auto. assert (x = c) by congruence. subst. apply only_set; auto.
  - destruct (negb _); done_eq H; auto. assert (x = c) by congruence. subst. apply only_set; auto.
Qed.
Lemma only_run : forall grow l s0 b p s s', only s0 b p s -> (forall o, In o l -> through b (length (hnds s0)) o) -> run grow s l = Ok s' -> only s0 b p s'.
Proof.
  induction l as [|o l IH]; simpl; intros s0 b p s s' O T H.
  - inversion H; subst; auto.
  - destruct (step grow s o) as [[s1 r]| |] eqn:E; simpl in H; try discriminate. eapply IH; [|intros; apply T; auto|eauto].
    eapply only_step; eauto.
Qed.
Lemma copy_changes : forall grow l s a x s' r, run grow w0 l = Ok s -> cd_view s a = Some x -> step grow s (CopyCD a) = Ok (s', r) ->
  let b := length (cds s) in
  forall l' s'', (forall o, In o l' -> through b (length (hnds s)) o) -> run grow s' l' = Ok s'' ->
  (forall k, k <> b -> cd_view s'' k = cd_view s k) /\ problem_views s'' = problem_views s /\
  (forall h, h < length (hnds s) -> handle_view s'' h = handle_view s h).
Proof.
  intros grow l s a x s' r R V H b l' s'' T R'. pose proof (run_wf _ _ _ _ wf_0 R) as W. pose proof (run_gone _ _ _ _ gone_0 R) as G.
  destruct (copy_step _ _ _ _ _ _ V H) as (_ & c & N & C).
  destruct (copied_views _ _ _ W G C) as (A1 & A2 & A3 & A4). pose proof (copied_priv _ _ _ W C) as (W' & P1 & P2 & P3 & P4 & P5).
  assert (HN : hnds s' = hnds s) by (destruct C as (v & _ & ->); auto).
  assert (O : only s' b (length (heap s)) s').
  { repeat split; auto.
    - eexists; split; [exact P1|reflexivity].
    - intros h q f L K. apply nth_lt in K. lia. }
  assert (T' : forall o, In o l' -> through b (length (hnds s')) o) by (rewrite HN; auto).
  pose proof (only_run _ _ _ _ _ _ _ O T' R') as (B1 & B2 & _ & B3 & B4 & B5 & B6 & B7 & _).
  split; [|split].
  - intros k NE. rewrite <- (A2 k NE). unfold cd_view. rewrite B4, (B2 k NE). destruct (existsb _ _); auto.
    destruct (nth_error (cds s') k) as [d|] eqn:K; auto. simpl. f_equal. unfold view. destruct (o_ptr d) as [q|] eqn:Q; auto.
    rewrite B1; auto. intros ->. apply (P3 k NE). exists d; auto.
  - rewrite <- A3. unfold problem_views at 1. rewrite B3. apply map_views. intros i j d X. unfold view. destruct (o_ptr d) as [q|] eqn:Q; auto.
    rewrite B1; auto. intros ->. apply (P5 i j). exists d; auto.
  - intros h L. rewrite <- A4. unfold handle_view. rewrite B5, B6 by (rewrite HN; auto). destruct (existsb _ _); auto.
    destruct (nth_error (hnds s') h) as [[q f]|] eqn:K; auto. rewrite B1; auto. intros ->. apply (P4 h). exists f; auto.
Qed.

(** * When copying is defined *)
Lemma phase_load : forall s a c, nth_error (cds s) a = Some c -> existsb (Nat.eqb a) (cgone s) = false ->
  (phase_of (cd_view s a) = None <-> load (heap s) (o_ptr c) = UB).
Proof.
  intros s a c N G. unfold cd_view. rewrite G, N. simpl. unfold view, load. destruct (o_ptr c) as [p|]; simpl; [|tauto].
  destruct (nth_error (heap s) p) as [[v|]|]; simpl; split; auto; discriminate.
Qed.
Lemma load_cases : forall h p, load h p = UB \/ exists v, load h p = Ok v.
Proof. intros h [p|]; simpl; auto. destruct (nth_error h p) as [[v|]|]; eauto. Qed.
Lemma copy_ub : forall grow s a x, cd_view s a = Some x -> (step grow s (CopyCD a) = UB <-> phase_of (cd_view s a) = None).
Proof.
  intros grow s a x V. destruct (cd_view_some _ _ _ V) as (c & N & G & _). rewrite (phase_load _ _ _ N G).
  simpl. unfold ncd, named. rewrite G, N. unfold copy_cd. destruct (load_cases (heap s) (o_ptr c)) as [E|(v & E)]; rewrite E; simpl; split; auto; discriminate.
Qed.
Lemma add_ub : forall grow s p a x, reach grow s -> p < length (probs s) -> cd_view s a = Some x ->
  (phase_of (cd_view s a) = None -> step grow s (AddContact p a) = UB) /\
  (phase_of (cd_view s a) <> None -> exists s', step grow s (AddContact p a) = Ok (s', Nothing)).
Proof.
  intros grow s p a x R L V. pose proof (reach_sep _ _ R) as (W & S1 & _). destruct (cd_view_some _ _ _ V) as (c & N & G & _).
  rewrite (phase_load _ _ _ N G). simpl. unfold nprob, ncd, named. simpl. rewrite G, N.
  destruct (nth_error (probs s) p) as [v|] eqn:P; [|apply nth_error_None in P; lia].
  unfold copy_cd. destruct (load_cases (heap s) (o_ptr c)) as [E|(y & E)]; rewrite E; simpl; split; auto; try discriminate; try tauto.
  intros _. unfold push_back, copy_cd. simpl. rewrite nth_app_last. simpl.
  destruct (_ <? _); [simpl; eauto|].
  destruct (copy_list_total (p_list v) ((heap s ++ [Some y]) ++ [Some y])) as ([h2 l2] & F).
  - intros j d J. destruct (S1 p j d) as (q & z & Q & A); [exists v; auto|]. exists z. do 2 apply load_app. apply load_ok. eauto.
  - rewrite F. simpl. eauto.
Qed.

(** * Assignment *)
Lemma step_ptr : forall grow s o s' r k c, step grow s o = Ok (s', r) -> ~ redirects o k -> nth_error (cds s) k = Some c ->
  exists c', nth_error (cds s') k = Some c' /\ o_ptr c' = o_ptr c /\ existsb (Nat.eqb k) (cgone s') = existsb (Nat.eqb k) (cgone s).
Proof.
  intros grow s o s' r k c H U N.
  assert (X : ~ uses o k -> exists c', nth_error (cds s') k = Some c' /\ o_ptr c' = o_ptr c /\ existsb (Nat.eqb k) (cgone s') = existsb (Nat.eqb k) (cgone s)).
  { intros NU. destruct (step_cds _ _ _ _ _ _ _ H NU N). eauto. }
  destruct o; try (apply X; exact U).
  - cbn [redirects] in U. simpl in H. cases H; eauto. done_eq H. simpl. rewrite set_nth_other by auto. eauto.
  - simpl in H. cases H; eauto. destruct (o_ptr x); done_eq H; simpl; eauto.
  - simpl in H. cases H; eauto.
  - simpl in H. cases H; eauto. destruct (negb _); done_eq H; eauto. simpl. destruct (Nat.eq_dec a k) as [->|NE].
    + rewrite set_nth_same by (eapply nth_lt; eauto). assert (x = c) by congruence. subst. eauto.
    + rewrite set_nth_other by auto. eauto.
  - simpl in H. cases H; eauto. destruct (negb _); done_eq H; eauto. simpl. destruct (Nat.eq_dec a k) as [->|NE].
    + rewrite set_nth_same by (eapply nth_lt; eauto). assert (x = c) by congruence. subst. eauto.
    + rewrite set_nth_other by auto. eauto.
Qed.
Definition same_ptr (s : world) a b := exists c d, nth_error (cds s) a = Some c /\ nth_error (cds s) b = Some d /\ o_ptr c = o_ptr d /\
  existsb (Nat.eqb a) (cgone s) = false /\ existsb (Nat.eqb b) (cgone s) = false.
Lemma same_ptr_run : forall grow l s s' a b, same_ptr s a b -> (forall o, In o l -> ~ redirects o a /\ ~ redirects o b) -> run grow s l = Ok s' -> same_ptr s' a b.
Proof.
  induction l as [|o l IH]; simpl; intros s s' a b V U H.
  - inversion H; subst; auto.
  - destruct (step grow s o) as [[s1 r]| |] eqn:E; simpl in H; try discriminate. eapply IH; [|intros; apply U; auto|eauto].
    destruct V as (c & d & A & B & C & D & F). destruct (U o (or_introl eq_refl)) as (U1 & U2).
    destruct (step_ptr _ _ _ _ _ _ _ E U1 A) as (c' & A' & P & G). destruct (step_ptr _ _ _ _ _ _ _ E U2 B) as (d' & B' & P' & G').
    exists c', d'. repeat split; congruence.
Qed.
Lemma same_ptr_phase : forall s a b, same_ptr s a b -> phase_of (cd_view s a) = phase_of (cd_view s b).
Proof.
  intros s a b (c & d & A & B & C & D & F). unfold cd_view. rewrite A, B, D, F. simpl. unfold view. rewrite C.
  destruct (o_ptr d) as [p|]; auto. destruct (nth_error (heap s) p) as [[v|]|]; reflexivity.
Qed.
Lemma assign_shares : forall grow s a b x y s' r, cd_view s a = Some x -> cd_view s b = Some y -> step grow s (AssignCD a b) = Ok (s', r) ->
  cd_view s' a = Some y /\ cd_view s' b = Some y /\
  forall l s'', (forall o, In o l -> ~ redirects o a /\ ~ redirects o b) -> run grow s' l = Ok s'' ->
    phase_of (cd_view s'' a) = phase_of (cd_view s'' b) /\
    forall v t r', step grow s'' (ModVia a v) = Ok (t, r') -> phase_of (cd_view t b) = Some v.
Proof.
  intros grow s a b x y s' r X Y H. destruct (cd_view_some _ _ _ X) as (c & N & G & _). destruct (cd_view_some _ _ _ Y) as (d & M & F & V).
  simpl in H. unfold ncd, named in H. rewrite G, N, F, M in H. done_eq H.
  assert (NA : nth_error (set_nth (cds s) a d) a = Some d) by (apply set_nth_same; eapply nth_lt; eauto).
  assert (NB : nth_error (set_nth (cds s) a d) b = Some d).
  { destruct (Nat.eq_dec a b) as [->|NE]; auto. rewrite set_nth_other by auto. auto. }
  split; [|split].
  - unfold cd_view. simpl. rewrite G, NA. simpl. reflexivity.
  - unfold cd_view. simpl. rewrite F, NB. simpl. reflexivity.
  - intros l s'' U R. assert (P : same_ptr s'' a b).
    { eapply same_ptr_run; [|eauto|eauto]. exists d, d. simpl. auto. }
    split; [apply same_ptr_phase; auto|]. intros v t r' H.
    destruct P as (c2 & d2 & A1 & B1 & C1 & D1 & F1). simpl in H. unfold ncd, named in H. rewrite D1, A1 in H.
    apply store_ok in H. destruct H as (q & w & Q & A & -> & _). unfold cd_view. simpl. rewrite F1, B1. simpl. unfold view.
    rewrite <- C1, Q. rewrite set_nth_same by (eapply nth_lt; eauto). reflexivity.
Qed.
