(** Lifetimes in python, and the constraint matrices. *)
From Coq Require Import List Reals ZArith Lia.
From Verif Require Import Vec ModelData ModelHeap SpecHeap ProofHeap ProofHeap2 ProofHeap3.
Import ListNotations.
Local Open Scope nat_scope.

Definition kept (s : world) (h : nat) : Prop := ~ In h (hgone s) \/ exists k, In (k, h) (wards s) /\ ~ In k (cgone s).
Definition live (s : world) : Prop :=
  sep s /\
  (forall k k' p f f', nth_error (hnds s) k = Some (p, f) -> nth_error (hnds s) k' = Some (p, f') -> k = k') /\
  (forall h p f, nth_error (hnds s) h = Some (p, f) -> kept s h -> exists v, nth_error (heap s) p = Some (Some v)) /\
  (forall k c, nth_error (cds s) k = Some c -> ~ In k (cgone s) ->
     exists h p f, In (k, h) (wards s) /\ nth_error (hnds s) h = Some (p, f) /\ o_ptr c = Some p).

Lemma live_0 : live w0.
Proof. split; [apply sep_0|]. repeat split; intros; try (destruct k; discriminate); destruct h; discriminate. Qed.

Lemma mem_false : forall i l, existsb (Nat.eqb i) l = false <-> ~ In i l.
Proof. intros. rewrite <- mem_in. destruct (existsb _ _); split; intros; try discriminate; try tauto; exfalso; apply H; auto. Qed.

Lemma release_cases : forall s h, (heap (release s h) = heap s) \/
  (exists p, heap (release s h) = set_nth (heap s) p None /\ nth_error (hnds s) h = Some (p, true) /\ ~ kept s h).
Proof.
  intros s h. unfold release. destruct (nth_error (hnds s) h) as [[p b]|] eqn:E; auto.
  destruct b; auto. destruct (_ && _)%bool eqn:X; auto. right. exists p. split; auto. split; auto.
  apply andb_prop in X. destruct X as (X & Y). apply mem_in in X. rewrite forallb_forall in Y.
  intros [K|(k & I & K)]; [tauto|]. specialize (Y _ I). simpl in Y. rewrite Nat.eqb_refl in Y. simpl in Y. apply mem_in in Y. tauto.
Qed.
(** releasing keeps what is kept *)
Lemma live_release : forall s h, live s -> sep (release s h) -> live (release s h).
Proof.
  intros s h (S & D & A & C) S'. destruct (release_rest s h) as (E1 & E2 & E3 & E4 & E5 & E6).
  split; auto. rewrite E1, E2, E4, E6. split; [auto|]. split; [|auto].
  intros h' p f N K. assert (K' : kept s h') by (unfold kept in *; rewrite E4, E5, E6 in K; auto).
  destruct (release_cases s h) as [->|(q & -> & Q & NK)]; [eauto|]. rewrite set_nth_other; [eauto|].
  intros ->. assert (h = h') by eauto. subst. tauto.
Qed.

Lemma with_sep : forall grow s o s' r, live s -> (forall p q, o <> AssignProblem p q) -> step grow s o = Ok (s', r) -> sep s'.
Proof.
  intros grow s o s' r (S & _) N H. eapply step_sep; eauto. destruct o; simpl; auto. exfalso. eapply N; eauto.
Qed.

Lemma live_step : forall grow s o, live s -> python_safe o -> exists s' r, step grow s o = Ok (s', r) /\ live s'.
Proof.
  intros grow s o L P. pose proof L as (S & D & A & C). pose proof S as (W & S1 & _). pose proof W as (Wc & Wh & Wp).
  assert (SEP : forall s' r, step grow s o = Ok (s', r) -> sep s').
  { intros s' r H. eapply with_sep; eauto. intros p q ->. exact P. }
  assert (RAISE : exists s' r, Ok (s, Raised) = Ok (s', r) /\ live s') by eauto.
  destruct o; cbn [python_safe] in P; try contradiction; simpl in SEP |- *; unfold held, ncd, nprob, named in *.
  - (* NewPhase *)
    do 2 eexists. split; [reflexivity|]. split; [eapply SEP; reflexivity|]. simpl. split; [|split].
    + intros k k' p f f' N N'. apply nth_app_inv in N. apply nth_app_inv in N'.
      destruct N as [N|(-> & E)], N' as [N'|(-> & E')]; auto.
      * eauto.
      * inversion E'; subst. assert (hptr s k (length (heap s))) as X by (exists f; auto). apply Wh in X. lia.
      * inversion E; subst. assert (hptr s k' (length (heap s))) as X by (exists f'; auto). apply Wh in X. lia.
    + intros h p f N K. apply nth_app_inv in N. destruct N as [N|(-> & E)].
      * destruct (A _ _ _ N K) as (x & X). exists x. apply nth_app_l; auto.
      * inversion E; subst. exists v. apply nth_app_last.
    + intros k c N G. destruct (C _ _ N G) as (h & p & f & I & M & Q). exists h, p, f. split; auto. split; auto. apply nth_app_l; auto.
  - (* ModPhase *)
    destruct (existsb (Nat.eqb h) (hgone s)) eqn:G; auto. destruct (nth_error (hnds s) h) as [[p f]|] eqn:N; auto. simpl in *.
    destruct (A _ _ _ N) as (x & X); [left; apply mem_false; auto|]. unfold store in *. simpl in *. rewrite X in *. simpl in *.
    do 2 eexists. split; [reflexivity|]. split; [eapply SEP; reflexivity|]. simpl. split; [auto|split; [|auto]].
    intros h' p' f' N' K. destruct (Nat.eq_dec p p') as [->|NE].
    + rewrite set_nth_same by (eapply nth_lt; eauto). eauto.
    + rewrite set_nth_other by auto. eapply A; eauto.
  - (* DropPhase *)
    destruct (existsb (Nat.eqb h) (hgone s)) eqn:G; auto. destruct (nth_error (hnds s) h) as [[p f]|] eqn:N; auto.
    do 2 eexists. split; [reflexivity|]. apply live_release; [|eapply SEP; reflexivity].
    split; [exact S|]. simpl. split; [auto|split; [|auto]].
    intros h' p' f' N' [K|K]; eapply A; eauto; [left|right; auto]. simpl in K. tauto.
  - (* NewWith *)
    destruct (existsb (Nat.eqb h) (hgone s)) eqn:G; auto. destruct (nth_error (hnds s) h) as [[p f]|] eqn:N; auto. simpl in *.
    do 2 eexists. split; [reflexivity|]. split; [eapply SEP; reflexivity|]. simpl. split; [auto|split].
    + intros h' p' f' N' K. destruct K as [K|(k & I & K)]; [eapply A; eauto; left; auto|]. simpl in I, K. apply in_app_or in I. destruct I as [I|[I|[]]].
      * eapply A; eauto. right. eauto.
      * inversion I; subst. eapply A; eauto. left. apply mem_false. auto.
    + intros k c M K. apply nth_app_inv in M. destruct M as [M|(-> & ->)].
      * destruct (C _ _ M K) as (h' & p' & f' & I & X & Y). exists h', p', f'. split; auto. apply in_or_app. auto.
      * exists h, p, f. split; [apply in_or_app; simpl; auto|auto].
  - (* DropCD *)
    destruct (existsb (Nat.eqb a) (cgone s)) eqn:G; auto. destruct (nth_error (cds s) a) as [c0|] eqn:N; auto.
    do 2 eexists. split; [reflexivity|].
    assert (L' : live (World (heap s) (hnds s) (hgone s) (cds s) (a :: cgone s) (wards s) (probs s))).
    { split; [exact S|]. simpl. split; [auto|split].
      - intros h p f M [K|(k & I & K)]; eapply A; eauto; [left; auto|right]. simpl in I, K. exists k. split; auto.
      - intros k c M K. apply C; auto. }
    specialize (SEP _ _ eq_refl). destruct (find _ _) as [w|]; [apply live_release; auto|auto].
  - (* SetKin *)
    destruct (existsb (Nat.eqb a) (cgone s)) eqn:G; auto. destruct (nth_error (cds s) a) as [c0|] eqn:N; auto.
    destruct (negb _); auto. do 2 eexists. split; [reflexivity|]. split; [eapply SEP; reflexivity|]. simpl. split; [auto|split; [exact A|]].
    intros kk c M KK. apply set_nth_inv in M. destruct M as [(-> & -> & _)|(_ & M)]; [|auto]. simpl. apply C; auto.
  - (* SetAng *)
    destruct (existsb (Nat.eqb a) (cgone s)) eqn:G; auto. destruct (nth_error (cds s) a) as [c0|] eqn:N; auto.
    destruct (negb _); auto. do 2 eexists. split; [reflexivity|]. split; [eapply SEP; reflexivity|]. simpl. split; [auto|split; [exact A|]].
    intros kk c M KK. apply set_nth_inv in M. destruct M as [(-> & -> & _)|(_ & M)]; [|auto]. simpl. apply C; auto.
  - destruct (existsb (Nat.eqb a) (cgone s)); auto. destruct (nth_error (cds s) a); eauto.
  - destruct (existsb (Nat.eqb a) (cgone s)); auto. destruct (nth_error (cds s) a); eauto.
  - do 2 eexists. split; [reflexivity|]. split; [eapply SEP; reflexivity|]. simpl. auto.
  - (* AddContact *)
    simpl in *. destruct (nth_error (probs s) p) as [v|] eqn:N; auto. destruct (existsb (Nat.eqb a) (cgone s)) eqn:G; auto.
    destruct (nth_error (cds s) a) as [c|] eqn:M; auto.
    destruct (C _ _ M) as (h & q & f & I & X & Q); [apply mem_false; auto|].
    destruct (A _ _ _ X) as (y & Y); [right; exists a; split; auto; apply mem_false; auto|].
    assert (LO : load (heap s) (o_ptr c) = Ok y) by (apply load_ok; eauto).
    unfold copy_cd in *. rewrite LO in *. simpl in *. unfold push_back, copy_cd in *. simpl in *. rewrite nth_app_last in *. simpl in *.
    assert (RES : forall h' v', sep (with_probs s h' (set_nth (probs s) p v')) -> (exists vs, h' = heap s ++ vs) -> live (with_probs s h' (set_nth (probs s) p v'))).
    { intros h' v' S' (vs & ->). split; auto. simpl. split; [auto|split; [|auto]]. intros h1 p1 f1 N1 K1.
      destruct (A _ _ _ N1 K1) as (z & Z). exists z. apply nth_app_l; auto. }
    destruct (length (p_list v) <? p_cap v).
    + do 2 eexists. split; [reflexivity|]. apply RES; [eapply SEP; reflexivity|]. rewrite <- app_assoc. eauto.
    + destruct (copy_list_total (p_list v) ((heap s ++ [Some y]) ++ [Some y])) as ([h2 l2] & F).
      { intros j d J. destruct (S1 p j d) as (q1 & z & Q1 & Z); [exists v; auto|]. exists z. do 2 apply load_app. apply load_ok. eauto. }
      rewrite F in *. simpl in *. do 2 eexists. split; [reflexivity|]. apply RES; [eapply SEP; reflexivity|].
      destruct (copy_list_grows _ _ _ _ F) as (vs & -> & _). rewrite <- !app_assoc. eauto.
  - (* ClearContacts *)
    simpl in *. destruct (nth_error (probs s) p) as [v|] eqn:N; auto.
    do 2 eexists. split; [reflexivity|]. split; [eapply SEP; reflexivity|]. simpl. auto.
Qed.

Lemma live_run : forall grow l s, live s -> Forall python_safe l -> exists s', run grow s l = Ok s' /\ live s'.
Proof.
  induction l as [|o l IH]; simpl; intros s L F; [eauto|].
  inversion F; subst. destruct (live_step grow s o L H1) as (s' & r & -> & L'). simpl. apply IH; auto.
Qed.
Lemma python_run : forall grow l, Forall python_safe l -> exists s, run grow w0 l = Ok s /\
  forall a x, cd_view s a = Some x -> phase_of (cd_view s a) <> None.
Proof.
  intros grow l F. destruct (live_run grow l w0 live_0 F) as (s & R & (S & D & A & C)). exists s. split; auto.
  intros a x V. destruct (cd_view_some _ _ _ V) as (c & N & G & E). intros Z. apply (phase_load _ _ _ N G) in Z.
  apply mem_false in G. destruct (C _ _ N G) as (h & p & f & I & M & Q).
  destruct (A _ _ _ M) as (v & Y); [right; eauto|]. rewrite Q in Z. simpl in Z. rewrite Y in Z. discriminate.
Qed.

(** * The matrices *)
Definition fits (c : cdata) : Prop :=
  (o_kin c = [] \/ length (o_Kin c) = length (o_kin c)) /\ (o_ang c = [] \/ length (o_Ang c) = length (o_ang c)).
Definition all_fit (s : world) : Prop :=
  (forall k c, nth_error (cds s) k = Some c -> fits c) /\ (forall i j c, pelt s i j c -> fits c).
Lemma copy_list_fit : forall l h h' l' j d, copy_list h l = Ok (h', l') -> nth_error l' j = Some d ->
  (forall j c, nth_error l j = Some c -> fits c) -> fits d.
Proof.
  intros l h h' l' j d H N F. destruct (copy_list_ok _ _ _ _ H) as (vs & _ & _ & _ & C). destruct (C _ _ N) as (_ & c & v & M & _ & _ & A & B & D & E).
  unfold fits. rewrite A, B, D, E. apply (F j); auto.
Qed.
Lemma step_fit : forall grow s o s' r, all_fit s -> step grow s o = Ok (s', r) -> all_fit s'.
Proof.
  intros grow s o s' r (A & B) H.
  assert (FR : forall p, fits (fresh_cd p)) by (intros p; split; left; reflexivity).
  assert (BL : forall i v, nth_error (probs s) i = Some v -> forall j c, nth_error (p_list v) j = Some c -> fits c).
  { intros i v N j c M. apply (B i j). exists v; auto. }
  assert (SC : cds s' = cds s -> forall k c, nth_error (cds s') k = Some c -> fits c) by (intros E; rewrite E; auto).
  assert (SP : probs s' = probs s -> forall i j c, pelt s' i j c -> fits c).
  { intros E i j c (v & N & M). rewrite E in N. eauto. }
  destruct o; try (match type of H with step _ _ (DropPhase _) = _ => idtac | step _ _ (DropCD _) = _ => idtac end;
      drop_case H; split; [apply SC; assumption|apply SP; assumption]; fail);
    simpl in H; cases H; try (split; [apply SC|apply SP]; reflexivity); try (done_eq H; split; [apply SC|apply SP]; reflexivity).
  - done_eq H. split; [|apply SP; reflexivity]. simpl. intros k c N. apply nth_app_inv in N. destruct N as [N|(_ & ->)]; eauto.
  - done_eq H. split; [|apply SP; reflexivity]. simpl. intros k c N. apply nth_app_inv in N. destruct N as [N|(_ & ->)]; eauto.
  - destruct a0 as [h c1]. apply copy_cd_ok in E. destruct E as (v & _ & _ & ->). done_eq H. split; [|apply SP; reflexivity].
    simpl. intros k c N. apply nth_app_inv in N. destruct N as [N|(_ & ->)]; eauto. apply A in H0. exact H0.
  - done_eq H. split; [|apply SP; reflexivity]. simpl. intros k c N. apply set_nth_inv in N. destruct N as [(_ & -> & _)|(_ & N)]; eauto.
  - done_eq H. split; [|apply SP; reflexivity]. simpl. intros k c N. apply set_nth_inv in N. destruct N as [(_ & -> & _)|(_ & N)]; eauto.
    apply A in H0. exact H0.
  - destruct (o_ptr x); done_eq H; (split; [apply SC|apply SP]; reflexivity).
  - destruct (negb _) eqn:E; done_eq H; [split; [apply SC|apply SP]; reflexivity|]. split; [|apply SP; reflexivity]. simpl. intros j c N.
    apply set_nth_inv in N. destruct N as [(_ & -> & _)|(_ & N)]; eauto. apply A in H0. apply Bool.negb_false_iff, Nat.eqb_eq in E.
    split; simpl; [right; auto|apply H0].
  - destruct (negb _) eqn:E; done_eq H; [split; [apply SC|apply SP]; reflexivity|]. split; [|apply SP; reflexivity]. simpl. intros j c N.
    apply set_nth_inv in N. destruct N as [(_ & -> & _)|(_ & N)]; eauto. apply A in H0. apply Bool.negb_false_iff, Nat.eqb_eq in E.
    split; simpl; [apply H0|right; auto].
  - done_eq H. split; [apply SC; reflexivity|]. intros i j c (v & N & M). simpl in N. apply nth_app_inv in N. destruct N as [N|(_ & ->)]; eauto.
    destruct j; discriminate.
  - destruct a0 as [h c1]. cases H. destruct a0 as [h' c']. apply copy_cd_ok in E. destruct E as (y & _ & -> & ->). done_eq H.
    split; [apply SC; reflexivity|]. intros i j c (v & N & M). simpl in N. apply set_nth_inv in N. destruct N as [(_ & -> & _)|(_ & N)]; eauto.
    destruct (push_back_ok _ _ _ _ _ _ E0) as (y' & _ & l & L & Q). rewrite Q in M. apply nth_app_inv in M. destruct M as [M|(_ & ->)].
    + destruct L as [(-> & _)|L]; [eauto|]. eapply copy_list_fit; eauto.
    + apply A in H1. exact H1.
  - done_eq H. split; [apply SC; reflexivity|]. intros i j c (v & N & M). simpl in N. apply set_nth_inv in N. destruct N as [(_ & -> & _)|(_ & N)]; eauto.
    destruct j; discriminate.
  - destruct a as [h l]. done_eq H. split; [apply SC; reflexivity|]. intros i j c (v & N & M). simpl in N. apply nth_app_inv in N.
    destruct N as [N|(_ & ->)]; eauto. eapply copy_list_fit; eauto.
  - destruct (Nat.eqb _ _); [done_eq H; split; [apply SC|apply SP]; reflexivity|]. cases H. destruct a as [h l]. done_eq H.
    split; [apply SC; reflexivity|]. intros i j c (v & N & M). simpl in N. apply set_nth_inv in N. destruct N as [(_ & -> & _)|(_ & N)]; eauto.
    unfold assign_vector in E. destruct (_ <? _); cases E; destruct a as [h2 l2]; inversion E; subst; simpl in M.
    + eapply copy_list_fit; eauto.
    + apply nth_app_split in M. destruct M as [(_ & M)|(_ & M)].
      * apply (BL _ _ H1 j). rewrite <- (firstn_skipn (length (p_list x)) (p_list x0)). apply nth_app_l. auto.
      * eapply copy_list_fit; eauto. intros j' c' K. apply (BL _ _ H1 (min (length (p_list x)) (length (p_list x0)) + j')).
        assert (Z : nth_error (firstn (length (p_list x)) (p_list x0) ++ skipn (length (p_list x)) (p_list x0))
                     (min (length (p_list x)) (length (p_list x0)) + j') = Some c').
        { rewrite nth_error_app2 by (rewrite firstn_length; lia). rewrite firstn_length. replace (_ + j' - _) with j' by lia. auto. }
        rewrite firstn_skipn in Z. exact Z.
Qed.
Lemma run_fit : forall grow l s s', all_fit s -> run grow s l = Ok s' -> all_fit s'.
Proof.
  induction l as [|o l IH]; simpl; intros s s' W H.
  - inversion H; subst; auto.
  - destruct (step grow s o) as [[s1 r]| |] eqn:E; simpl in H; try discriminate. eapply IH; [|eauto]. eapply step_fit; eauto.
Qed.
Lemma view_fit : forall h c x, fits c -> view h c = Some x -> consistent x.
Proof.
  intros h c x F V. unfold view in V. destruct (o_ptr c) as [p|]; [|inversion V; subst; exact F].
  destruct (nth_error h p) as [[v|]|]; inversion V; subst; exact F.
Qed.
Lemma run_consistent : forall grow l s, run grow w0 l = Ok s ->
  (forall a c, cd_view s a = Some (Some c) -> consistent c) /\
  (forall v c, In v (problem_views s) -> In (Some c) v -> consistent c).
Proof.
  intros grow l s R. assert (F : all_fit s).
  { eapply run_fit; [|eauto]. split; [intros k c N; destruct k; discriminate|intros i j c (v & N & _); destruct i; discriminate]. }
  destruct F as (A & B). split.
  - intros a c V. destruct (cd_view_some _ _ _ V) as (d & N & _ & X). eapply view_fit; eauto.
  - intros v c I J. unfold problem_views in I. apply in_map_iff in I. destruct I as (p & <- & I). apply in_map_iff in J. destruct J as (d & X & J).
    apply In_nth_error in I. apply In_nth_error in J. destruct I as (i & I). destruct J as (j & J). eapply view_fit; [apply (B i j); exists p; eauto|eauto].
Qed.
Lemma raised_same0 : forall grow s o s' r, step grow s o = Ok (s', r) -> r = Raised -> s' = s.
Proof.
  intros grow s o s' r H R. destruct o; simpl in H; cases H; auto; try discriminate; try (done_eq H; auto; discriminate).
  - destruct a0. done_eq H. discriminate.
  - destruct (o_ptr x); done_eq H; auto; discriminate.
  - destruct (negb _); done_eq H; auto; discriminate.
  - destruct (negb _); done_eq H; auto; discriminate.
  - destruct a0 as [h c1]. cases H. destruct a0 as [h' c']. done_eq H. discriminate.
  - destruct a as [h l]. done_eq H. discriminate.
  - destruct (Nat.eqb _ _); [done_eq H; auto|]. cases H. destruct a. done_eq H. discriminate.
Qed.
Lemma raised_same : forall grow s o s', step grow s o = Ok (s', Raised) -> s' = s.
Proof. intros. eapply raised_same0; eauto. Qed.
Lemma set_mismatch : forall grow s a K k, length k <> length K ->
  step grow s (SetKin a K k) = Ok (s, Raised) /\ step grow s (SetAng a K k) = Ok (s, Raised).
Proof.
  intros grow s a K k N. apply Nat.eqb_neq in N. simpl. unfold ncd, named. rewrite N. simpl.
  destruct (existsb _ _); auto. destruct (nth_error _ _); auto.
Qed.
Lemma set_get_kin : forall grow s a c K k, cd_view s a = Some (Some c) -> length k = length K ->
  exists s', step grow s (SetKin a K k) = Ok (s', Nothing) /\
    cd_view s' a = Some (Some (Contact (cd_phase c) K k (cd_Ang c) (cd_ang c))) /\ (forall b, b <> a -> cd_view s' b = cd_view s b) /\ problem_views s' = problem_views s.
Proof.
  intros grow s a c K k V L. destruct (cd_view_some _ _ _ V) as (d & N & G & X). apply Nat.eqb_eq in L.
  eexists. simpl. unfold ncd, named. rewrite G, N, L. simpl. split; [reflexivity|]. unfold cd_view. simpl.
  rewrite G, set_nth_same by (eapply nth_lt; eauto). split; [|split].
  - simpl. unfold view in *. simpl. destruct (o_ptr d) as [p|]; [|inversion X; subst; reflexivity].
    destruct (nth_error (heap s) p) as [[v|]|]; inversion X; subst; reflexivity.
  - intros b NE. rewrite set_nth_other by auto. reflexivity.
  - reflexivity.
Qed.
Lemma set_get_ang : forall grow s a c K k, cd_view s a = Some (Some c) -> length k = length K ->
  exists s', step grow s (SetAng a K k) = Ok (s', Nothing) /\
    cd_view s' a = Some (Some (Contact (cd_phase c) (cd_Kin c) (cd_kin c) K k)) /\ (forall b, b <> a -> cd_view s' b = cd_view s b) /\ problem_views s' = problem_views s.
Proof.
  intros grow s a c K k V L. destruct (cd_view_some _ _ _ V) as (d & N & G & X). apply Nat.eqb_eq in L.
  eexists. simpl. unfold ncd, named. rewrite G, N, L. simpl. split; [reflexivity|]. unfold cd_view. simpl.
  rewrite G, set_nth_same by (eapply nth_lt; eauto). split; [|split].
  - simpl. unfold view in *. simpl. destruct (o_ptr d) as [p|]; [|inversion X; subst; reflexivity].
    destruct (nth_error (heap s) p) as [[v|]|]; inversion X; subst; reflexivity.
  - intros b NE. rewrite set_nth_other by auto. reflexivity.
  - reflexivity.
Qed.
Lemma get_kin : forall grow s a c, cd_view s a = Some (Some c) ->
  (cd_kin c = [] -> step grow s (GetKin a) = Ok (s, Raised)) /\
  (cd_kin c <> [] -> step grow s (GetKin a) = Ok (s, Matrices (cd_Kin c) (cd_kin c))) /\
  (cd_ang c = [] -> step grow s (GetAng a) = Ok (s, Raised)) /\
  (cd_ang c <> [] -> step grow s (GetAng a) = Ok (s, Matrices (cd_Ang c) (cd_ang c))).
Proof.
  intros grow s a c V. destruct (cd_view_some _ _ _ V) as (d & N & G & X).
  assert (E : cd_Kin c = o_Kin d /\ cd_kin c = o_kin d /\ cd_Ang c = o_Ang d /\ cd_ang c = o_ang d).
  { unfold view in X. destruct (o_ptr d) as [p|]; [|inversion X; subst; auto]. destruct (nth_error (heap s) p) as [[v|]|]; inversion X; subst; auto. }
  destruct E as (-> & -> & -> & ->). simpl. unfold ncd, named. rewrite G, N.
  destruct (o_kin d); destruct (o_ang d); simpl; repeat split; intros; congruence.
Qed.
