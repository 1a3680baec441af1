(** What one operation does to the pointers and to the heap. *)
From Coq Require Import List Reals ZArith Lia.
From Verif Require Import Vec ModelData ModelHeap SpecHeap.
Import ListNotations.
Local Open Scope nat_scope.

Lemma set_nth_length : forall A (l : list A) k x, length (set_nth l k x) = length l.
Proof. induction l; intros [|k] x; simpl; auto. Qed.
Lemma set_nth_same : forall A (l : list A) k x, (k < length l) -> nth_error (set_nth l k x) k = Some x.
Proof. induction l; intros [|k] x H; simpl in *; try lia; auto. apply IHl; lia. Qed.
Lemma set_nth_other : forall A (l : list A) k j x, k <> j -> nth_error (set_nth l k x) j = nth_error l j.
Proof. induction l; intros [|k] [|j] x H; simpl; auto; try congruence. Qed.
Lemma nth_lt : forall A (l : list A) k x, nth_error l k = Some x -> k < length l.
Proof. intros. apply nth_error_Some. congruence. Qed.
Lemma set_nth_inv : forall A (l : list A) k j x y, nth_error (set_nth l k x) j = Some y ->
  (j = k /\ y = x /\ k < length l) \/ (j <> k /\ nth_error l j = Some y).
Proof.
  intros A l k j x y H. destruct (Nat.eq_dec j k) as [->|N].
  - left. pose proof (nth_lt _ _ _ _ H) as L. rewrite set_nth_length in L. rewrite set_nth_same in H by auto.
    split; [auto|split; [congruence|auto]].
  - right. rewrite set_nth_other in H by congruence. auto.
Qed.
Lemma set_nth_map : forall A B (f : A -> B) l k x, map f (set_nth l k x) = set_nth (map f l) k (f x).
Proof. induction l; intros [|k] x; simpl; auto. f_equal. auto. Qed.
Lemma set_nth_id : forall A (l : list A) k x, nth_error l k = Some x -> set_nth l k x = l.
Proof. induction l; intros [|k] x H; simpl in *; try congruence. f_equal. auto. Qed.
Lemma nth_app_inv : forall A (l : list A) x k y, nth_error (l ++ [x]) k = Some y ->
  nth_error l k = Some y \/ (k = length l /\ y = x).
Proof.
  intros A l x k y H. destruct (lt_dec k (length l)) as [L|L].
  - left. rewrite nth_error_app1 in H by auto. auto.
  - right. pose proof (nth_lt _ _ _ _ H) as L2. rewrite app_length in L2. simpl in L2.
    assert (k = length l) by lia. subst. rewrite nth_error_app2, Nat.sub_diag in H by lia. simpl in H. split; congruence.
Qed.
Lemma nth_app_last : forall A (l : list A) x, nth_error (l ++ [x]) (length l) = Some x.
Proof. intros. rewrite nth_error_app2, Nat.sub_diag by lia. reflexivity. Qed.
Lemma nth_app_l : forall A (l m : list A) k x, nth_error l k = Some x -> nth_error (l ++ m) k = Some x.
Proof. intros. rewrite nth_error_app1; [auto|]. eapply nth_lt; eauto. Qed.

(** * Loading, copying *)
Lemma load_ok : forall h p v, load h p = Ok v <-> exists q, p = Some q /\ nth_error h q = Some (Some v).
Proof.
  intros h [q|] v; simpl; split.
  - destruct (nth_error h q) as [[w|]|] eqn:E; intros H; inversion H; subst; eauto.
  - intros (q' & E & N). inversion E; subst. rewrite N. reflexivity.
  - discriminate.
  - intros (q' & E & N). discriminate.
Qed.
Lemma copy_cd_ok : forall h c h' c', copy_cd h c = Ok (h', c') ->
  exists v, load h (o_ptr c) = Ok v /\ h' = h ++ [Some v] /\
            c' = CD (Some (length h)) (o_Kin c) (o_kin c) (o_Ang c) (o_ang c).
Proof.
  intros h c h' c' H. unfold copy_cd in H. destruct (load h (o_ptr c)) as [v| |] eqn:E; simpl in H; try discriminate.
  inversion H; subst. eauto.
Qed.
Lemma load_app : forall h m p v, load h p = Ok v -> load (h ++ m) p = Ok v.
Proof. intros h m p v H. apply load_ok in H. destruct H as (q & -> & N). apply load_ok. exists q. split; auto. apply nth_app_l; auto. Qed.
Lemma view_load : forall h c v, load h (o_ptr c) = Ok v -> view h c = Some (Contact (Some v) (o_Kin c) (o_kin c) (o_Ang c) (o_ang c)).
Proof. intros h c v H. apply load_ok in H. destruct H as (q & E & N). unfold view. rewrite E, N. reflexivity. Qed.
Lemma view_app : forall h m c, (forall p, o_ptr c = Some p -> p < length h) -> view (h ++ m) c = view h c.
Proof.
  intros h m c H. unfold view. destruct (o_ptr c) as [p|]; auto.
  rewrite nth_error_app1 by (apply H; auto). reflexivity.
Qed.
Lemma copy_list_ok : forall l h h' l', copy_list h l = Ok (h', l') ->
  exists vs, h' = h ++ vs /\ length vs = length l /\ length l' = length l /\
    (forall j c', nth_error l' j = Some c' -> o_ptr c' = Some (length h + j) /\
       exists c v, nth_error l j = Some c /\ load h' (o_ptr c') = Ok v /\ load h' (o_ptr c) = Ok v /\
         o_Kin c' = o_Kin c /\ o_kin c' = o_kin c /\ o_Ang c' = o_Ang c /\ o_ang c' = o_ang c).
Proof.
  induction l as [|c l IH]; simpl; intros h h' l' H.
  - inversion H; subst. exists []. rewrite app_nil_r. repeat split; auto; destruct j; discriminate.
  - destruct (copy_cd h c) as [[h1 c1]| |] eqn:E; simpl in H; try discriminate.
    destruct (copy_list h1 l) as [[h2 l2]| |] eqn:F; simpl in H; try discriminate.
    inversion H; subst. apply copy_cd_ok in E. destruct E as (v & L & -> & ->).
    destruct (IH _ _ _ F) as (vs & -> & A & B & C).
    exists (Some v :: vs). rewrite <- app_assoc. simpl. repeat split; auto.
    + destruct j; simpl in H0.
      * inversion H0; subst. simpl. f_equal. lia.
      * destruct (C _ _ H0) as (D & _). rewrite D, app_length. simpl. f_equal. lia.
    + destruct j; simpl in H0.
      * inversion H0; subst. exists c, v. simpl. repeat split; auto.
        -- rewrite nth_error_app2, Nat.sub_diag by lia. reflexivity.
        -- apply load_app; auto.
      * destruct (C _ _ H0) as (_ & c2 & v2 & D). exists c2, v2. simpl.
        rewrite <- app_assoc in D. simpl in D. auto.
Qed.
Lemma copy_list_total : forall l h, (forall j c, nth_error l j = Some c -> exists v, load h (o_ptr c) = Ok v) ->
  exists r, copy_list h l = Ok r.
Proof.
  induction l as [|c l IH]; intros h H; simpl; eauto.
  destruct (H 0 c eq_refl) as (v & L). unfold copy_cd. rewrite L. simpl.
  destruct (IH (h ++ [Some v])) as ([h2 l2] & E).
  - intros j d N. destruct (H (S j) d N) as (w & M). exists w. apply load_app; auto.
  - rewrite E. simpl. eauto.
Qed.
Lemma copy_list_view : forall l h h' l', copy_list h l = Ok (h', l') ->
  (forall c p, In c l -> o_ptr c = Some p -> p < length h) -> map (view h') l' = map (view h) l.
Proof.
  induction l as [|c l IH]; simpl; intros h h' l' H B.
  - inversion H; subst. reflexivity.
  - destruct (copy_cd h c) as [[h1 c1]| |] eqn:E; simpl in H; try discriminate.
    destruct (copy_list h1 l) as [[h2 l2]| |] eqn:F; simpl in H; try discriminate.
    inversion H; subst. apply copy_cd_ok in E. destruct E as (v & L & -> & ->).
    simpl. f_equal.
    + rewrite (view_load _ _ _ L). destruct (copy_list_ok _ _ _ _ F) as (vs & -> & _).
      unfold view. simpl. rewrite <- app_assoc. rewrite nth_error_app2, Nat.sub_diag by lia. reflexivity.
    + rewrite (IH _ _ _ F).
      * apply map_ext_in. intros d I. apply view_app. intros p P. apply (B d p); auto.
      * intros d p I P. rewrite app_length. simpl. pose proof (B d p (or_intror I) P). lia.
Qed.

(** * Inverting a step *)
Lemma named_ok : forall A s (l : list A) g i k s' r, named s l g i k = Ok (s', r) ->
  ((existsb (Nat.eqb i) g = true \/ nth_error l i = None) /\ s' = s /\ r = Raised) \/
  exists x, (existsb (Nat.eqb i) g = false /\ nth_error l i = Some x) /\ k x = Ok (s', r).
Proof.
  intros A s l g i k s' r H. unfold named in H. destruct (existsb (Nat.eqb i) g); [left; inversion H; auto|].
  destruct (nth_error l i) eqn:E; [right; eauto|left]. inversion H; auto.
Qed.
Lemma store_ok : forall s p v s' r, store s p v = Ok (s', r) ->
  exists q w, p = Some q /\ nth_error (heap s) q = Some (Some w) /\ s' = with_heap s (set_nth (heap s) q (Some v)) /\ r = Nothing.
Proof.
  intros s p v s' r H. unfold store in H. destruct (load (heap s) p) eqn:E; simpl in H; try discriminate.
  apply load_ok in E. destruct E as (q & -> & N). inversion H; subst. exists q, a. auto.
Qed.
Lemma push_back_ok : forall grow h v c h' v', push_back grow h v c = Ok (h', v') ->
  exists x, load h (o_ptr c) = Ok x /\
  exists l, (l = p_list v /\ h' = h ++ [Some x] \/ copy_list (h ++ [Some x]) (p_list v) = Ok (h', l)) /\
    p_list v' = l ++ [CD (Some (length h)) (o_Kin c) (o_kin c) (o_Ang c) (o_ang c)].
Proof.
  intros grow h v c h' v' H. unfold push_back in H.
  destruct (copy_cd h c) as [[h1 c1]| |] eqn:E; simpl in H; try discriminate.
  apply copy_cd_ok in E. destruct E as (x & L & -> & ->). exists x. split; auto.
  destruct (length (p_list v) <? p_cap v).
  - inversion H; subst. exists (p_list v). simpl. auto.
  - destruct (copy_list _ (p_list v)) as [[h2 l2]| |] eqn:F; simpl in H; try discriminate.
    inversion H; subst. exists l2. simpl. auto.
Qed.

Definition cdptr (s : world) k p := exists c, nth_error (cds s) k = Some c /\ o_ptr c = Some p.
Definition hptr (s : world) k p := exists b, nth_error (hnds s) k = Some (p, b).
Definition pelt (s : world) i j c := exists v, nth_error (probs s) i = Some v /\ nth_error (p_list v) j = Some c.
Definition pptr (s : world) i j p := exists c, pelt s i j c /\ o_ptr c = Some p.
Definition fresh (s s' : world) p := length (heap s) <= p < length (heap s').
Definition writes (s : world) (o : op) p :=
  match o with
  | ModPhase h _ | DropPhase h | DeletePhase h => hptr s h p
  | ModVia a _ => cdptr s a p
  | ModContact i j _ => pptr s i j p
  | DropCD _ => exists h, hptr s h p
  | _ => False
  end.

Ltac bsplit H :=
  match type of H with
  | bind ?m _ = Ok _ => let E := fresh "E" in destruct m as [?| |] eqn:E; simpl in H; [|discriminate|discriminate]
  end.
(** Cases of a successful step. *)
Ltac cases H :=
  repeat first
  [ match type of H with ncd _ _ _ = _ => unfold ncd in H end
  | match type of H with held _ _ _ = _ => unfold held in H end
  | match type of H with nprob _ _ _ = _ => unfold nprob in H end
  | match type of H with named _ _ _ _ _ = _ => apply named_ok in H; destruct H as [(? & -> & ->)|(? & (?G & ?) & H)]; cbv beta in H end
  | match type of H with store _ _ _ = _ => apply store_ok in H; destruct H as (? & ? & ? & ? & -> & ->) end
  | bsplit H ].
Ltac done_eq H := inversion H; subst; clear H.

Lemma copy_list_grows : forall l h h' l', copy_list h l = Ok (h', l') -> exists vs, h' = h ++ vs /\ length vs = length l.
Proof. intros l h h' l' H. destruct (copy_list_ok _ _ _ _ H) as (vs & A & B & _). eauto. Qed.
Lemma push_back_grows : forall grow h v c h' v', push_back grow h v c = Ok (h', v') -> exists vs, h' = h ++ vs.
Proof.
  intros. destruct (push_back_ok _ _ _ _ _ _ H) as (x & _ & l & [(_ & ->)|C] & _); eauto.
  destruct (copy_list_grows _ _ _ _ C) as (vs & -> & _). exists ([Some x] ++ vs). rewrite app_assoc. reflexivity.
Qed.
Lemma assign_vector_grows : forall h v w h' v', assign_vector h v w = Ok (h', v') -> exists vs, h' = h ++ vs.
Proof.
  intros h v w h' v' H. unfold assign_vector in H. destruct (p_cap v <? length (p_list w)).
  - bsplit H. destruct a as [h2 l]. done_eq H. destruct (copy_list_grows _ _ _ _ E) as (vs & -> & _). eauto.
  - bsplit H. destruct a as [h2 l]. done_eq H. destruct (copy_list_grows _ _ _ _ E) as (vs & -> & _). eauto.
Qed.

Lemma release_heap : forall s h, (heap (release s h) = heap s) \/
  (exists p, heap (release s h) = set_nth (heap s) p None /\ hptr s h p).
Proof.
  intros s h. unfold release. destruct (nth_error (hnds s) h) as [[p b]|] eqn:E; auto.
  destruct b; auto. destruct (_ && _)%bool; auto. right. exists p. split; auto. exists true. auto.
Qed.
Lemma release_rest : forall s h, cds (release s h) = cds s /\ hnds (release s h) = hnds s /\ probs (release s h) = probs s /\
  cgone (release s h) = cgone s /\ hgone (release s h) = hgone s /\ wards (release s h) = wards s.
Proof.
  intros s h. unfold release. destruct (nth_error (hnds s) h) as [[p [|]]|]; auto 10. destruct (_ && _)%bool; auto 10.
Qed.
Lemma step_heap : forall grow s o s' r, step grow s o = Ok (s', r) ->
  (exists vs, heap s' = heap s ++ vs) \/
  (exists p x, heap s' = set_nth (heap s) p x /\ writes s o p /\ length (heap s') = length (heap s) /\
     (x = None -> exists h, hptr s h p) /\ (forall i j v, o = ModContact i j v -> x = Some v)).
Proof.
  assert (R : forall s : world, exists vs, heap s = heap s ++ vs) by (intros; exists []; rewrite app_nil_r; auto).
  assert (R' : forall h : list (option cphase), exists vs, h = h ++ vs) by (intros; exists []; rewrite app_nil_r; auto).
  intros grow s o s' r H. destruct o; simpl in H; cases H; try (left; apply R); try (done_eq H; simpl; left; solve [eauto]).
  - right. destruct x as [x xb]. simpl in H. inversion H; subst.
    do 2 eexists. simpl. split; [reflexivity|]. split; [exists xb; auto|]. split; [apply set_nth_length|].
    split; [intros X; discriminate X|intros ? ? ? X; inversion X].
  - done_eq H. destruct (release_heap (World (heap s) (hnds s) (h :: hgone s) (cds s) (cgone s) (wards s) (probs s)) h) as [E|(p & E & P)];
      simpl in E; rewrite E; [left; auto|right]. exists p, None. split; auto. split; [exact P|]. split; [apply set_nth_length|].
    split; [intros _; exists h; exact P|intros ? ? ? X; inversion X].
  - done_eq H. destruct x as [x xb]. simpl. right. do 2 eexists. split; [reflexivity|]. split; [exists xb; auto|]. split; [apply set_nth_length|].
    split; [intros _; exists h; exists xb; auto|intros ? ? ? X; inversion X].
  - done_eq H. destruct (find _ _) as [w|]; [|left; auto].
    destruct (release_heap (World (heap s) (hnds s) (hgone s) (cds s) (a :: cgone s) (wards s) (probs s)) (snd w)) as [E|(p & E & P)];
      simpl in E; rewrite E; [left; auto|right]. exists p, None. split; auto. split; [exists (snd w); exact P|]. split; [apply set_nth_length|].
    split; [intros _; exists (snd w); exact P|intros ? ? ? X; inversion X].
  - destruct a0 as [h c]. done_eq H. simpl. left. apply copy_cd_ok in E. destruct E as (v & _ & -> & _). eauto.
  - destruct (o_ptr x); done_eq H; left; simpl; auto.
  - right. do 2 eexists. simpl. split; [reflexivity|]. split; [exists x; auto|]. split; [apply set_nth_length|].
    split; [intros X; discriminate X|intros ? ? ? X; inversion X].
  - destruct (negb _); done_eq H; left; simpl; auto.
  - destruct (negb _); done_eq H; left; simpl; auto.
  - destruct a0 as [h c]. simpl in H. cases H. destruct a0 as [h' c']. done_eq H. simpl. left.
    apply copy_cd_ok in E. destruct E as (v & _ & -> & _).
    destruct (push_back_grows _ _ _ _ _ _ E0) as (vs & ->). exists ([Some v] ++ vs). rewrite app_assoc. reflexivity.
  - destruct a as [h l]. done_eq H. simpl. left. destruct (copy_list_grows _ _ _ _ E) as (vs & -> & _). eauto.
  - destruct (Nat.eqb p q); [done_eq H; left; auto|]. cases H. destruct a as [h l]. done_eq H. simpl. left.
    eapply assign_vector_grows; eauto.
  - right. do 2 eexists. simpl. split; [reflexivity|]. split; [exists x0; split; [exists x; eauto|auto]|]. split; [apply set_nth_length|].
    split; [intros X; discriminate X|intros ? ? ? X; inversion X; auto].
Qed.

(** What dropping a name leaves. *)
Lemma step_drop : forall grow s o s' r, step grow s o = Ok (s', r) -> (exists h, o = DropPhase h) \/ (exists a, o = DropCD a) ->
  cds s' = cds s /\ hnds s' = hnds s /\ probs s' = probs s.
Proof.
  intros grow s o s' r H [(h & ->)|(a & ->)]; simpl in H; cases H; auto.
  - done_eq H. destruct (release_rest (World (heap s) (hnds s) (h :: hgone s) (cds s) (cgone s) (wards s) (probs s)) h) as (A & B & C & _). auto.
  - done_eq H. destruct (find _ _) as [w|]; [|auto].
    destruct (release_rest (World (heap s) (hnds s) (hgone s) (cds s) (a :: cgone s) (wards s) (probs s)) (snd w)) as (A & B & C & _). auto.
Qed.
Ltac drop_case H := let A := fresh in let B := fresh in let C := fresh in
  destruct (step_drop _ _ _ _ _ H) as (A & B & C); [solve [eauto]|].

Lemma step_cd : forall grow s o s' r k p, step grow s o = Ok (s', r) -> cdptr s' k p ->
  cdptr s k p \/ (fresh s s' p /\ exists a, o = CopyCD a /\ k = length (cds s)) \/
  (exists h, hptr s h p /\ (o = NewWith h /\ k = length (cds s) \/ o = SetPhase k h)) \/ (exists b, o = AssignCD k b /\ cdptr s b p).
Proof.
  intros grow s o s' r k p H (c & N & P). destruct o;
    try (match type of H with step _ _ (DropPhase _) = _ => idtac | step _ _ (DropCD _) = _ => idtac end; drop_case H; left; exists c; split; [congruence|auto]; fail); simpl in H; cases H; try (left; exists c; auto; fail);
    try (done_eq H; left; exists c; auto; fail).
  - done_eq H. simpl in N. apply nth_app_inv in N. destruct N as [N|(-> & ->)]; [left; exists c; auto|discriminate].
  - done_eq H. simpl in N. apply nth_app_inv in N. destruct N as [N|(-> & ->)]; [left; exists c; auto|].
    simpl in P. inversion P; subst. right; right; left. exists h. destruct x as [x xb]. split; [exists xb; auto|auto].
  - destruct a0 as [h c1]. apply copy_cd_ok in E. destruct E as (v & _ & -> & ->). done_eq H. simpl in N.
    apply nth_app_inv in N. destruct N as [N|(-> & ->)]; [left; exists c; auto|]. simpl in P. inversion P; subst.
    right; left. split; [|eauto]. unfold fresh. simpl. rewrite app_length. simpl. lia.
  - done_eq H. simpl in N. apply set_nth_inv in N. destruct N as [(-> & -> & _)|(_ & N)]; [|left; exists c; auto].
    right; right; right. exists b. split; auto. exists x0; auto.
  - done_eq H. simpl in N. apply set_nth_inv in N. destruct N as [(-> & -> & _)|(_ & N)]; [|left; exists c; auto].
    simpl in P. inversion P; subst. right; right; left. exists h. destruct x0 as [x0 xb]. split; [exists xb; auto|auto].
  - left. destruct (o_ptr x); done_eq H; exists c; auto.
  - destruct (negb _); done_eq H; [left; exists c; auto|]. simpl in N. apply set_nth_inv in N.
    destruct N as [(-> & -> & _)|(_ & N)]; [|left; exists c; auto]. left. exists x. auto.
  - destruct (negb _); done_eq H; [left; exists c; auto|]. simpl in N. apply set_nth_inv in N.
    destruct N as [(-> & -> & _)|(_ & N)]; [|left; exists c; auto]. left. exists x. auto.
  - destruct a0 as [h c1]. cases H. destruct a0 as [h' c']. done_eq H. left. exists c; auto.
  - destruct a as [h c1]. done_eq H. left. exists c; auto.
  - destruct (Nat.eqb _ _); [done_eq H; left; exists c; auto|]. cases H. destruct a as [h c1]. done_eq H. left. exists c; auto.
Qed.

Lemma step_h : forall grow s o s' r k p, step grow s o = Ok (s', r) -> hptr s' k p ->
  hptr s k p \/ (fresh s s' p) \/ (exists a, o = GetPhase a /\ cdptr s a p /\ k = length (hnds s)).
Proof.
  intros grow s o s' r k p H (b & N). destruct o;
    try (match type of H with step _ _ (DropPhase _) = _ => idtac | step _ _ (DropCD _) = _ => idtac end; drop_case H; left; exists b; congruence); simpl in H; cases H; try (left; exists b; auto; fail);
    try (done_eq H; left; exists b; auto; fail).
  - done_eq H. simpl in N. apply nth_app_inv in N. destruct N as [N|(-> & E)]; [left; exists b; auto|].
    inversion E; subst. right; left. unfold fresh. simpl. rewrite app_length. simpl. lia.
  - destruct a0 as [h c1]. done_eq H. left. exists b; auto.
  - destruct (o_ptr x) eqn:P; done_eq H; [|left; exists b; auto]. simpl in N. apply nth_app_inv in N.
    destruct N as [N|(-> & E)]; [left; exists b; auto|]. inversion E; subst. right; right. exists a. split; auto. split; auto. exists x; auto.
  - destruct (negb _); done_eq H; left; exists b; auto.
  - destruct (negb _); done_eq H; left; exists b; auto.
  - destruct a0 as [h c1]. cases H. destruct a0 as [h' c']. done_eq H. left. exists b; auto.
  - destruct a as [h c1]. done_eq H. left. exists b; auto.
  - destruct (Nat.eqb _ _); [done_eq H; left; exists b; auto|]. cases H. destruct a as [h c1]. done_eq H. left. exists b; auto.
Qed.

(** Where the elements of the vectors come from. *)
Lemma nth_app_split : forall A (l m : list A) j x, nth_error (l ++ m) j = Some x ->
  (j < length l /\ nth_error l j = Some x) \/ (length l <= j /\ nth_error m (j - length l) = Some x).
Proof.
  intros A l m j x H. destruct (lt_dec j (length l)).
  - left. rewrite nth_error_app1 in H by auto. auto.
  - right. rewrite nth_error_app2 in H by lia. split; [lia|auto].
Qed.
Lemma push_back_elt : forall grow h v c h' v' j d, push_back grow h v c = Ok (h', v') -> nth_error (p_list v') j = Some d ->
  (nth_error (p_list v) j = Some d) \/
  (exists p, o_ptr d = Some p /\ length h <= p < length h' /\ exists x, nth_error h' p = Some (Some x)).
Proof.
  intros grow h v c h' v' j d H N. destruct (push_back_ok _ _ _ _ _ _ H) as (x & L & l & C & E). rewrite E in N.
  apply nth_app_split in N. destruct N as [(B & N)|(B & N)].
  - destruct C as [(-> & ->)|C]; [left; auto|right].
    destruct (copy_list_ok _ _ _ _ C) as (vs & -> & L1 & L2 & D). destruct (D _ _ N) as (P & c1 & v1 & _ & M & _).
    rewrite app_length in P. simpl in P. exists (length h + 1 + j). split; [auto|]. rewrite P in M. apply load_ok in M.
    destruct M as (q & Q & M). inversion Q; subst. split; [|eauto]. apply nth_lt in M. lia.
  - right. destruct (j - length l) as [|n]; [|destruct n; discriminate]. simpl in N. inversion N; subst. simpl. exists (length h).
    split; auto. assert (M : nth_error h' (length h) = Some (Some x)).
    { destruct C as [(-> & ->)|C]; [apply nth_app_last|]. destruct (copy_list_grows _ _ _ _ C) as (vs & -> & _).
      apply nth_app_l. apply nth_app_last. }
    split; [|eauto]. apply nth_lt in M. lia.
Qed.
Lemma push_back_inj : forall grow h v c h' v' j1 j2 d1 d2 p, push_back grow h v c = Ok (h', v') ->
  nth_error (p_list v') j1 = Some d1 -> nth_error (p_list v') j2 = Some d2 -> o_ptr d1 = Some p -> o_ptr d2 = Some p ->
  length h <= p -> (forall j d q, nth_error (p_list v) j = Some d -> o_ptr d = Some q -> q < length h) -> j1 = j2.
Proof.
  intros grow h v c h' v' j1 j2 d1 d2 p H N1 N2 P1 P2 B W. destruct (push_back_ok _ _ _ _ _ _ H) as (x & L & l & C & E).
  rewrite E in N1, N2. apply nth_app_split in N1. apply nth_app_split in N2.
  assert (X : forall j d, j < length l -> nth_error l j = Some d -> o_ptr d = Some p -> p = length h + 1 + j).
  { intros j d LT N P. destruct C as [(-> & ->)|C].
    - pose proof (W _ _ _ N P). lia.
    - destruct (copy_list_ok _ _ _ _ C) as (vs & -> & _ & _ & D). destruct (D _ _ N) as (Q & _).
      rewrite app_length in Q. simpl in Q. congruence. }
  assert (Y : forall j d, length l <= j -> nth_error [CD (Some (length h)) (o_Kin c) (o_kin c) (o_Ang c) (o_ang c)] (j - length l) = Some d ->
     o_ptr d = Some p -> p = length h /\ j = length l).
  { intros j d LT N P. destruct (j - length l) as [|n] eqn:J; [|destruct n; discriminate]. simpl in N. inversion N; subst. simpl in P.
    inversion P. split; lia. }
  destruct N1 as [(A1 & N1)|(A1 & N1)], N2 as [(A2 & N2)|(A2 & N2)].
  - pose proof (X _ _ A1 N1 P1). pose proof (X _ _ A2 N2 P2). lia.
  - pose proof (X _ _ A1 N1 P1). pose proof (Y _ _ A2 N2 P2). lia.
  - pose proof (Y _ _ A1 N1 P1). pose proof (X _ _ A2 N2 P2). lia.
  - pose proof (Y _ _ A1 N1 P1). pose proof (Y _ _ A2 N2 P2). lia.
Qed.
Lemma copy_list_elt : forall l h h' l' j d, copy_list h l = Ok (h', l') -> nth_error l' j = Some d ->
  o_ptr d = Some (length h + j) /\ length h + j < length h' /\ exists x, nth_error h' (length h + j) = Some (Some x).
Proof.
  intros l h h' l' j d H N. destruct (copy_list_ok _ _ _ _ H) as (vs & -> & L1 & L2 & D).
  destruct (D _ _ N) as (P & c1 & v1 & _ & M & _). rewrite P in M. apply load_ok in M. destruct M as (q & Q & M). inversion Q; subst.
  split; auto. split; [|eauto]. apply nth_lt in M. auto.
Qed.
Lemma assign_vector_elt : forall h v w h' v' j d, assign_vector h v w = Ok (h', v') -> nth_error (p_list v') j = Some d ->
  (nth_error (p_list w) j = Some d /\ p_list v <> [] /\ p_list w <> [] /\ length (p_list w) <= p_cap v) \/
  (exists p, o_ptr d = Some p /\ length h <= p < length h' /\ (exists x, nth_error h' p = Some (Some x)) /\
     p = length h + (if p_cap v <? length (p_list w) then j else j - length (p_list v)) /\
     (p_cap v <? length (p_list w) = false -> length (firstn (length (p_list v)) (p_list w)) <= j)).
Proof.
  intros h v w h' v' j d H N. unfold assign_vector in H. destruct (p_cap v <? length (p_list w)) eqn:C.
  - bsplit H. destruct a as [h2 l]. done_eq H. simpl in N. right. destruct (copy_list_elt _ _ _ _ _ _ E N) as (P & Q & X).
    eexists. repeat split; eauto; try lia.
  - apply Nat.ltb_ge in C. bsplit H. destruct a as [h2 l]. done_eq H. simpl in N. apply nth_app_split in N.
    destruct N as [(B & N)|(B & N)].
    + left. assert (p_list v <> []). { intros Z. rewrite Z in B. simpl in B. lia. }
      assert (p_list w <> []). { intros Z. rewrite Z, firstn_nil in B. simpl in B. lia. }
      repeat split; auto. rewrite <- (firstn_skipn (length (p_list v)) (p_list w)). apply nth_app_l. auto.
    + right. destruct (copy_list_elt _ _ _ _ _ _ E N) as (P & Q & X).
      assert (LL : length (firstn (length (p_list v)) (p_list w)) = length (p_list v)).
      { rewrite firstn_length. destruct (copy_list_ok _ _ _ _ E) as (vs & _ & _ & L2 & _). rewrite skipn_length in L2.
        apply nth_lt in N. rewrite L2 in N. rewrite firstn_length in N. lia. }
      rewrite LL in *. eexists. split; [eauto|]. split; [lia|]. split; [auto|]. split; auto.
Qed.

Lemma step_p : forall grow s o s' r i j c, step grow s o = Ok (s', r) -> pelt s' i j c ->
  pelt s i j c \/
  (exists p, o_ptr c = Some p /\ fresh s s' p /\ exists x, nth_error (heap s') p = Some (Some x)) \/
  (exists i', o = AssignProblem i i' /\ pelt s i' j c /\ shares s o).
Proof.
  intros grow s o s' r i j c H (v0 & N & M). destruct o;
    try (match type of H with step _ _ (DropPhase _) = _ => idtac | step _ _ (DropCD _) = _ => idtac end; drop_case H; left; exists v0; split; [congruence|auto]; fail); simpl in H; cases H; try (left; exists v0; auto; fail);
    try (done_eq H; left; exists v0; auto; fail).
  - destruct a0 as [h c1]. done_eq H. left. exists v0; auto.
  - destruct (o_ptr x) eqn:P; done_eq H; left; exists v0; auto.
  - destruct (negb _); done_eq H; left; exists v0; auto.
  - destruct (negb _); done_eq H; left; exists v0; auto.
  - done_eq H. simpl in N. apply nth_app_inv in N. destruct N as [N|(-> & ->)]; [left; exists v0; auto|].
    destruct j; discriminate.
  - destruct a0 as [h c1]. cases H. destruct a0 as [h' c']. done_eq H. simpl in N.
    apply set_nth_inv in N. destruct N as [(-> & -> & _)|(_ & N)]; [|left; exists v0; auto].
    apply copy_cd_ok in E. destruct E as (y & L & -> & ->).
    destruct (push_back_elt _ _ _ _ _ _ _ _ E0 M) as [Q|(q & P & B & X)]; [left; exists x; auto|].
    right; left. exists q. split; auto. split; auto. unfold fresh. simpl. rewrite app_length in B. simpl in B. lia.
  - done_eq H. simpl in N. apply set_nth_inv in N. destruct N as [(-> & -> & _)|(_ & N)]; [|left; exists v0; auto].
    destruct j; discriminate.
  - destruct a as [h l]. done_eq H. simpl in N. apply nth_app_inv in N. destruct N as [N|(-> & ->)]; [left; exists v0; auto|].
    simpl in M. right; left. destruct (copy_list_elt _ _ _ _ _ _ E M) as (P & Q & X). eexists. split; eauto. split; auto.
    unfold fresh. simpl. lia.
  - destruct (Nat.eqb p q) eqn:Q; [done_eq H; left; exists v0; auto|]. apply Nat.eqb_neq in Q. cases H. destruct a as [h l]. done_eq H.
    simpl in N. apply set_nth_inv in N. destruct N as [(-> & -> & _)|(_ & N)]; [|left; exists v0; auto].
    destruct (assign_vector_elt _ _ _ _ _ _ _ E M) as [(A & B & C & D)|(p1 & A & B & X & _)].
    + right; right. exists q. split; auto. split; [exists x0; auto|]. simpl. split; auto. exists x, x0. auto.
    + right; left. exists p1. auto.
Qed.

Definition wf (s : world) : Prop :=
  (forall k p, cdptr s k p -> p < length (heap s)) /\
  (forall k p, hptr s k p -> p < length (heap s)) /\
  (forall i j p, pptr s i j p -> p < length (heap s)).
Lemma step_len : forall grow s o s' r, step grow s o = Ok (s', r) -> length (heap s) <= length (heap s').
Proof.
  intros. destruct (step_heap _ _ _ _ _ H) as [(vs & E)|(p & x & E & _ & L & _)]; [|lia]. rewrite E, app_length. lia.
Qed.
Lemma step_wf : forall grow s o s' r, step grow s o = Ok (s', r) -> wf s -> wf s'.
Proof.
  intros grow s o s' r H (A & B & C). pose proof (step_len _ _ _ _ _ H) as L. repeat split.
  - intros k p X. destruct (step_cd _ _ _ _ _ _ _ H X) as [Y|[(Y & _)|[(h & Y & _)|(b & _ & Y)]]];
      try (apply A in Y; lia); try (apply B in Y; lia). unfold fresh in Y. lia.
  - intros k p X. destruct (step_h _ _ _ _ _ _ _ H X) as [Y|[Y|(a & _ & Y & _)]].
    + apply B in Y; lia.
    + unfold fresh in Y. lia.
    + apply A in Y; lia.
  - intros i j p (c & X & P). destruct (step_p _ _ _ _ _ _ _ _ H X) as [Y|[(q & Q & F & _)|(i' & _ & Y & _)]].
    + assert (pptr s i j p) as Z by (exists c; auto). apply C in Z. lia.
    + unfold fresh in F. assert (q = p) by congruence. subst. lia.
    + assert (pptr s i' j p) as Z by (exists c; auto). apply C in Z. lia.
Qed.
Lemma wf_0 : wf w0.
Proof.
  repeat split.
  - intros k p (c & N & _). destruct k; discriminate.
  - intros k p (c & N). destruct k; discriminate.
  - intros i j p (c & (v & N & _) & _). destruct i; discriminate.
Qed.
Lemma run_wf : forall grow l s s', wf s -> run grow s l = Ok s' -> wf s'.
Proof.
  induction l as [|o l IH]; simpl; intros s s' W H.
  - inversion H; subst; auto.
  - destruct (step grow s o) as [[s1 r]| |] eqn:E; simpl in H; try discriminate. eapply IH; [|eauto]. eapply step_wf; eauto.
Qed.
