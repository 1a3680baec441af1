(** Proofs for the attribute constraints_ of python's ProblemData. *)
From Coq Require Import List Lia Bool.
From Verif Require Import Vec ModelData ModelHeap ModelPy SpecPy2.
Import ListNotations.

Lemma sn_same {A} (l : list A) i x y : nth_error l i = Some y -> nth_error (set_nth l i x) i = Some x.
Proof. revert i. induction l as [|a l IH]; intros [|i] H; try discriminate; [reflexivity|]. exact (IH i H). Qed.
Lemma sn_other {A} (l : list A) i j x : i <> j -> nth_error (set_nth l i x) j = nth_error l j.
Proof. revert i j. induction l as [|a l IH]; intros [|i] [|j] H; try reflexivity; [congruence|]. apply (IH i j). congruence. Qed.
Lemma sn_len {A} (l : list A) i x : length (set_nth l i x) = length l.
Proof. revert i. induction l as [|a l IH]; intros [|i]; try reflexivity. cbn. f_equal. apply IH. Qed.
Lemma bound_iff e o n : bound e o n = true <-> exists m, (m < n)%nat /\ e m = Some o.
Proof.
  induction n as [|n IH]; cbn [bound].
  - split; [discriminate|]. intros (m & H & _). lia.
  - rewrite orb_true_iff, IH. split.
    + intros [H|(m & H1 & H2)].
      * exists n. split; [lia|]. destruct (e n) as [p|]; [|discriminate]. apply Nat.eqb_eq in H. congruence.
      * exists m. split; [lia|exact H2].
    + intros (m & H1 & H2). destruct (Nat.eq_dec m n) as [->|]; [left; rewrite H2; apply Nat.eqb_refl|right; exists m; split; [lia|exact H2]].
Qed.

Section Machine.
  Variable top : nat.
  Definition inv (s : pyst) : Prop :=
    (forall x o, env s x = Some o -> (x < top)%nat /\ (o < length (objs s))%nat) /\
    (forall v p, nth_error (objs s) v = Some (PView p) -> exists b k, nth_error (objs s) p = Some (PProb b k)) /\
    (forall p b k, nth_error (objs s) p = Some (PProb b k) -> (b = true <-> exists x, env s x = Some p)).

  (** what rebinding a name does *)
  Definition env' (s : pyst) x v := fun y => if Nat.eqb y x then v else env s y.
  Lemma rebind_env s x v : env (rebind top s x v) = env' s x v.
  Proof. unfold rebind. destruct (env s x) as [o|]; [|reflexivity]. destruct (bound _ _ _); [reflexivity|]. destruct (nth_error _ _) as [[]|]; reflexivity. Qed.
  Lemma rebind_objs s x v p : 
    nth_error (objs (rebind top s x v)) p = nth_error (objs s) p \/
    (env s x = Some p /\ bound (env' s x v) p top = false /\ exists b k, nth_error (objs s) p = Some (PProb b k) /\ nth_error (objs (rebind top s x v)) p = Some (PProb false k)).
  Proof.
    unfold rebind. fold (env' s x v). destruct (env s x) as [o|] eqn:E; [|left; reflexivity]. destruct (bound _ _ _) eqn:B; [left; reflexivity|].
    destruct (nth_error (objs s) o) as [[b k|k|q]|] eqn:N; try (left; reflexivity). cbn [objs].
    destruct (Nat.eq_dec o p) as [->|H]; [|left; apply sn_other; exact H]. right. split; [reflexivity|]. split; [exact B|].
    exists b, k. split; [exact N|]. exact (sn_same _ _ _ _ N).
  Qed.
  Lemma rebind_len s x v : length (objs (rebind top s x v)) = length (objs s).
  Proof. unfold rebind. destruct (env s x) as [o|]; [|reflexivity]. destruct (bound _ _ _); [reflexivity|]. destruct (nth_error _ _) as [[]|]; try reflexivity. apply sn_len. Qed.
  (** kinds of objects are kept, and the values of problems *)
  Lemma rebind_kind s x v p b : nth_error (objs s) p = Some b ->
    nth_error (objs (rebind top s x v)) p = Some b \/ exists c k, b = PProb c k /\ nth_error (objs (rebind top s x v)) p = Some (PProb false k).
  Proof.
    intros H. destruct (rebind_objs s x v p) as [E|(_ & _ & c & k & E1 & E2)]; [left; congruence|]. right. exists c, k. split; congruence.
  Qed.
  Lemma rebind_back s x v p b : nth_error (objs (rebind top s x v)) p = Some b ->
    nth_error (objs s) p = Some b \/ exists c k, b = PProb false k /\ nth_error (objs s) p = Some (PProb c k).
  Proof.
    intros H. destruct (rebind_objs s x v p) as [E|(_ & _ & c & k & E1 & E2)]; [left; congruence|]. right. exists c, k. split; congruence.
  Qed.
  Lemma rebind_inv s x v : (x < top)%nat ->
    (forall y o, env s y = Some o -> (y < top)%nat /\ (o < length (objs s))%nat) ->
    (forall w p, nth_error (objs s) w = Some (PView p) -> exists b k, nth_error (objs s) p = Some (PProb b k)) ->
    (forall q, v = Some q -> (q < length (objs s))%nat) ->
    (forall p b k, nth_error (objs s) p = Some (PProb b k) -> (b = true <-> (exists y, env s y = Some p) \/ v = Some p)) ->
    inv (rebind top s x v).
  Proof.
    intros Hx Ha Hb Hv Hc.
    assert (HE : forall y o, env' s x v y = Some o -> (y < top)%nat /\ (o < length (objs s))%nat).
    { intros y o. unfold env'. destruct (Nat.eqb_spec y x) as [->|]; [intros E; split; [exact Hx|exact (Hv o E)]|apply Ha]. }
    split; [|split].
    - rewrite rebind_env, rebind_len. exact HE.
    - intros w p H. destruct (rebind_back _ _ _ _ _ H) as [H'|(c & k & H' & _)]; [|discriminate].
      destruct (Hb _ _ H') as (b & k & E). destruct (rebind_kind s x v _ _ E) as [E'|(c & k' & _ & E')]; eauto.
    - intros p b k H. rewrite rebind_env.
      destruct (rebind_objs s x v p) as [E|(E0 & B & c & k' & E1 & E2)].
      + rewrite E in H. rewrite (Hc _ _ _ H). split.
        * intros [(y & Hy)|Hp].
          -- destruct (Nat.eq_dec y x) as [->|Hn]; [|exists y; unfold env'; destruct (Nat.eqb_spec y x); [congruence|exact Hy]].
             (* the last name of p may have been x: then rebind marked p *)
             destruct (bound (env' s x v) p top) eqn:B; [apply bound_iff in B; destruct B as (m & _ & Hm); eauto|].
             exfalso. revert E. unfold rebind. fold (env' s x v). rewrite Hy, B, H. cbn [objs]. rewrite (sn_same _ _ _ _ H).
             intros E. injection E as <-. assert (F : false = true) by (apply (Hc _ _ _ H); left; eauto). discriminate.
          -- exists x. unfold env'. rewrite Nat.eqb_refl. exact Hp.
        * intros (y & Hy). unfold env' in Hy. destruct (Nat.eqb y x); [right; exact Hy|left; eauto].
      + rewrite E2 in H. injection H as <- _. split; [discriminate|]. intros (y & Hy). exfalso.
        assert (B' : bound (env' s x v) p top = true) by (apply bound_iff; exists y; split; [exact (proj1 (HE _ _ Hy))|exact Hy]). congruence.
  Qed.
  Lemma new_nth {A} (l : list A) a p b : nth_error (l ++ [a]) p = Some b -> (nth_error l p = Some b /\ (p < length l)%nat) \/ (p = length l /\ b = a).
  Proof.
    intros H. destruct (lt_dec p (length l)) as [L|L]; [left; rewrite nth_error_app1 in H by exact L; auto|].
    assert (p < length (l ++ [a]))%nat by (apply nth_error_Some; congruence). rewrite app_length in *. cbn in *. assert (E : p = length l) by lia.
    right. split; [exact E|]. rewrite nth_error_app2, E, Nat.sub_diag in H by lia. cbn in H. congruence.
  Qed.
  Lemma old_nth {A} (l : list A) a p b : nth_error l p = Some b -> nth_error (l ++ [a]) p = Some b.
  Proof. intros H. rewrite nth_error_app1; [exact H|]. apply nth_error_Some. congruence. Qed.
  (** a new object, bound to x *)
  Lemma mk_inv s x a : inv s -> (x < top)%nat ->
    (forall p, a = PView p -> exists b k, nth_error (objs s) p = Some (PProb b k)) -> (forall b k, a = PProb b k -> b = true) ->
    inv (rebind top (with_objs s (objs s ++ [a])) x (Some (length (objs s)))).
  Proof.
    intros (Ha & Hb & Hc) Hx HV HP. apply rebind_inv; cbn [objs env with_objs]; try assumption.
    - intros y o H. destruct (Ha _ _ H). rewrite app_length. split; [assumption|lia].
    - intros w p H. destruct (new_nth _ _ _ _ H) as [[H' _]|[_ H']].
      + destruct (Hb _ _ H') as (b & k & E). exists b, k. apply old_nth. exact E.
      + destruct (HV p (eq_sym H')) as (b & k & E). exists b, k. apply old_nth. exact E.
    - intros q H. injection H as <-. rewrite app_length. cbn. lia.
    - intros p b k H. destruct (new_nth _ _ _ _ H) as [[H' L]|[-> H']].
      + rewrite (Hc _ _ _ H'). split; [tauto|]. intros [E|E]; [exact E|]. injection E as E. lia.
      + split; [intros _; right; reflexivity|intros _; exact (HP b k (eq_sym H'))].
  Qed.
  (** an object is replaced by one of the same kind *)
  Definition kind (a b : pyobj) : Prop :=
    match a, b with PProb x _, PProb y _ => x = y | POwn _, POwn _ => True | PView p, PView q => p = q | _, _ => False end.
  Lemma put_inv s c a b : inv s -> nth_error (objs s) c = Some a -> kind a b -> inv (with_objs s (set_nth (objs s) c b)).
  Proof.
    intros (Ha & Hb & Hc) HA K. split; [|split]; cbn [objs env with_objs].
    - rewrite sn_len. exact Ha.
    - intros v p H. assert (HV : nth_error (objs s) v = Some (PView p)).
      { destruct (Nat.eq_dec c v) as [->|N]; [|rewrite sn_other in H by exact N; exact H]. rewrite (sn_same _ _ _ _ HA) in H. injection H as ->.
        destruct a; cbn in K; try contradiction. subst. exact HA. }
      destruct (Hb _ _ HV) as (d & k & E). destruct (Nat.eq_dec c p) as [->|N]; [|exists d, k; rewrite sn_other by exact N; exact E].
      rewrite (sn_same _ _ _ _ HA). rewrite E in HA. injection HA as <-. destruct b; cbn in K; try contradiction. eauto.
    - intros p d k H. destruct (Nat.eq_dec c p) as [->|N]; [|rewrite sn_other in H by exact N; exact (Hc _ _ _ H)].
      rewrite (sn_same _ _ _ _ HA) in H. injection H as ->. destruct a; cbn in K; try contradiction. subst. exact (Hc _ _ _ HA).
  Qed.
  Lemma lookup_spec s x o b : lookup s x = Some (o, b) <-> env s x = Some o /\ nth_error (objs s) o = Some b.
  Proof.
    unfold lookup. destruct (env s x) as [p|]; [|split; [discriminate|intros [H _]; discriminate]].
    destruct (nth_error (objs s) p) as [c|] eqn:E.
    - split; [intros H; injection H as <- <-; auto|intros [H1 H2]; injection H1 as <-; congruence].
    - split; [discriminate|intros [H1 H2]; injection H1 as <-; congruence].
  Qed.
  Lemma target_spec s p k : target s p = Ok k <-> nth_error (objs s) p = Some (PProb true k).
  Proof.
    unfold target. destruct (nth_error (objs s) p) as [[[] c|c|q]|]; split; intros H; try discriminate; try (injection H as <-; reflexivity).
  Qed.

  Lemma step_inv s o s' r : inv s -> names_below top o -> pystep top s o = Ok (s', r) -> inv s'.
  Proof.
    intros HI HN. assert (HI' := HI). destruct HI' as (Ha & Hb & Hc). destruct o as [x|x|x y|x|x y|y z|z f|y f|z|y]; cbn [pystep names_below] in *.
    - intros H. injection H as <- _. apply mk_inv; [exact HI|exact HN|discriminate|congruence].
    - intros H. injection H as <- _. apply mk_inv; [exact HI|exact HN|discriminate|discriminate].
    - destruct (env s y) as [p|] eqn:E; intros H; injection H as <- _; [|exact HI]. apply rebind_inv; try tauto.
      + intros q Q. injection Q as <-. exact (proj2 (Ha _ _ E)).
      + intros q b k Q. rewrite (Hc _ _ _ Q). split; [tauto|]. intros [F|F]; [exact F|]. injection F as <-. eauto.
    - destruct (env s x) as [p|] eqn:E; intros H; injection H as <- _; [|exact HI]. apply rebind_inv; try tauto.
      + discriminate.
      + intros q b k Q. rewrite (Hc _ _ _ Q). split; [tauto|]. intros [F|F]; [exact F|discriminate].
    - destruct (lookup s y) as [[p [b k|k|q]]|] eqn:E; intros H; injection H as <- _; try exact HI. apply lookup_spec in E.
      apply mk_inv; [exact HI|tauto| |discriminate]. intros q Q. injection Q as <-. exists b, k. tauto.
    - destruct (lookup s y) as [[p [b k|k|q]]|] eqn:E; try (intros H; injection H as <- _; exact HI). apply lookup_spec in E.
      destruct (lookup s z) as [[c [b' k'|k'|q]]|] eqn:E'; try (intros H; injection H as <- _; exact HI).
      + intros H; injection H as <- _. apply (put_inv _ _ (PProb b k)); [exact HI|tauto|reflexivity].
      + destruct (target s q) as [k'| |] eqn:T; try discriminate. intros H; injection H as <- _. apply (put_inv _ _ (PProb b k)); [exact HI|tauto|reflexivity].
    - destruct (lookup s z) as [[c [b k|k|q]]|] eqn:E; try (intros H; injection H as <- _; exact HI); apply lookup_spec in E.
      + intros H; injection H as <- _. apply (put_inv _ _ (POwn k)); [exact HI|tauto|exact I].
      + destruct (target s q) as [k'| |] eqn:T; try discriminate. apply target_spec in T. intros H; injection H as <- _. apply (put_inv _ _ (PProb true k')); [exact HI|exact T|reflexivity].
    - destruct (lookup s y) as [[c [b k|k|q]]|] eqn:E; try (intros H; injection H as <- _; exact HI); apply lookup_spec in E.
      intros H; injection H as <- _. apply (put_inv _ _ (PProb b k)); [exact HI|tauto|reflexivity].
    - destruct (lookup s z) as [[c [b k|k|q]]|] eqn:E; try (intros H; injection H as <- _; exact HI).
      destruct (target s q) as [k'| |] eqn:T; try discriminate. intros H; injection H as <- _; exact HI.
    - destruct (lookup s y) as [[c [b k|k|q]]|] eqn:E; intros H; injection H as <- _; exact HI.
  Qed.
  Lemma run_inv : forall l s s', inv s -> Forall (names_below top) l -> pyrun top s l = Ok s' -> inv s'.
  Proof.
    induction l as [|o l IH]; cbn [pyrun]; intros s s' HI HF H; [injection H as <-; exact HI|].
    destruct (pystep top s o) as [[s1 r]| |] eqn:E; try discriminate. cbn [bind fst] in H. inversion HF; subst.
    apply (IH s1 s'); try assumption. eapply step_inv; eassumption.
  Qed.
  Lemma inv0 : inv py0.
  Proof. split; [|split]; cbn; try discriminate; intros; destruct v || destruct p; discriminate. Qed.
  Lemma reach_inv s : reachable top s -> inv s.
  Proof. intros (l & HF & H). exact (run_inv l py0 s inv0 HF H). Qed.

  (** the value that is read, from the state *)
  Definition val (s : pyst) (y : nat) : option constraints :=
    match lookup s y with
    | Some (_, PProb _ k) | Some (_, POwn k) => Some k
    | Some (_, PView p) => match nth_error (objs s) p with Some (PProb true k) => Some k | _ => None end
    | None => None
    end.
  Lemma value_val s y : value top s y = val s y.
  Proof.
    unfold value, val, pystep, target. destruct (lookup s y) as [[c [b k|k|q]]|]; try reflexivity.
    destruct (nth_error (objs s) q) as [[[] k|k|r]|]; reflexivity.
  Qed.
  Lemma alive s p b k x : inv s -> env s x = Some p -> nth_error (objs s) p = Some (PProb b k) -> b = true.
  Proof. intros (_ & _ & Hc) E N. apply (Hc _ _ _ N). eauto. Qed.
  Lemma dangling_iff s z : inv s -> (dangling s z <-> exists v p k, lookup s z = Some (v, PView p) /\ nth_error (objs s) p = Some (PProb false k)).
  Proof.
    intros (Ha & Hb & Hc). split.
    - intros (v & p & E & H). assert (N := E). apply lookup_spec in N. destruct (Hb _ _ (proj2 N)) as (b & k & Np). exists v, p, k. split; [exact E|].
      destruct b; [|exact Np]. destruct (proj1 (Hc _ _ _ Np) eq_refl) as (x & Hx). exfalso. exact (H x Hx).
    - intros (v & p & k & E & N). exists v, p. split; [exact E|]. intros x Hx. assert (F : false = true) by (apply (Hc _ _ _ N); eauto). discriminate.
  Qed.
  Lemma dangling_val s z : inv s -> is_constraints s z -> (dangling s z <-> val s z = None).
  Proof.
    intros HI HC. rewrite (dangling_iff _ _ HI). unfold val. destruct HC as [(c & k & E)|(v & p & E)]; rewrite E.
    - split; [intros (v & p & k' & F & _); discriminate|discriminate].
    - apply lookup_spec in E. destruct HI as (_ & Hb & _). destruct (Hb _ _ (proj2 E)) as (b & k & N). rewrite N. split.
      + intros (v' & p' & k' & F & N'). injection F as <- <-. rewrite N in N'. injection N' as -> _. reflexivity.
      + destruct b; [discriminate|]. intros _. exists v, p, k. split; [reflexivity|exact N].
  Qed.

  (** the statements that read or write *)
  Lemma write_env s c b y : env (with_objs s (set_nth (objs s) c b)) y = env s y.
  Proof. reflexivity. Qed.
  Lemma write_lookup s c a b y o d : nth_error (objs s) c = Some a -> lookup s y = Some (o, d) ->
    lookup (with_objs s (set_nth (objs s) c b)) y = Some (o, if Nat.eqb o c then b else d).
  Proof.
    intros HA H. apply lookup_spec in H. apply lookup_spec. cbn [with_objs env objs]. split; [tauto|].
    destruct (Nat.eqb_spec o c) as [->|N]; [exact (sn_same _ _ _ _ HA)|]. rewrite sn_other by congruence. tauto.
  Qed.
  Lemma write_lookup_none s c b y : lookup s y = None -> lookup (with_objs s (set_nth (objs s) c b)) y = None.
  Proof.
    intros H. destruct (lookup (with_objs _ _) y) as [[o d]|] eqn:E; [|reflexivity]. exfalso. apply lookup_spec in E. cbn [with_objs env objs] in E.
    unfold lookup in H. destruct E as [E1 E2]. rewrite E1 in H. destruct (nth_error (objs s) o) eqn:N; [discriminate|].
    apply nth_error_None in N. assert (o < length (set_nth (objs s) c b))%nat by (apply nth_error_Some; congruence). rewrite sn_len in *. lia.
  Qed.
  Definition new_of (b : pyobj) : option constraints := match b with PProb _ k | POwn k => Some k | PView _ => None end.
  (** replacing the object c, not a view, by b of the same kind *)
  Lemma write_spec s c a b : inv s -> nth_error (objs s) c = Some a -> kind a b -> new_of a <> None ->
    (match a with PProb x _ => x = true | _ => True end) ->
    let s' := with_objs s (set_nth (objs s) c b) in
    (forall y, cell s' y = cell s y) /\
    (forall y, cell s y = Some c -> val s' y = new_of b) /\
    (forall y, cell s y <> Some c -> val s' y = val s y).
  Proof.
    intros HI HA K NV AL s'.
    assert (C : forall y, cell s' y = cell s y).
    { intros y. unfold cell. destruct (lookup s y) as [[o d]|] eqn:E; [|unfold s'; rewrite (write_lookup_none _ _ _ _ E); reflexivity].
      unfold s'. rewrite (write_lookup _ _ _ _ _ _ _ HA E). destruct (Nat.eqb_spec o c) as [->|N]; [|reflexivity].
      apply lookup_spec in E. rewrite HA in E. destruct E as [_ E]. injection E as <-. destruct a, b; cbn in K; try contradiction; subst; reflexivity. }
    split; [exact C|]. split.
    - intros y H. unfold val, cell in *. destruct (lookup s y) as [[o d]|] eqn:E; [|discriminate].
      unfold s'. rewrite (write_lookup _ _ _ b _ _ _ HA E). assert (E2 := E). apply lookup_spec in E2. destruct E2 as [_ E2].
      destruct d as [x k|k|q]; injection H as ->; try rewrite Nat.eqb_refl.
      + rewrite HA in E2. injection E2 as ->. destruct b; cbn in K; try contradiction. reflexivity.
      + rewrite HA in E2. injection E2 as ->. destruct b; cbn in K; try contradiction. reflexivity.
      + destruct (Nat.eqb_spec o c) as [->|N].
        * exfalso. rewrite HA in E2. injection E2 as ->. apply NV. reflexivity.
        * cbn [with_objs objs]. rewrite (sn_same _ _ _ _ HA). destruct a, b; cbn in K; try contradiction; subst; try reflexivity.
          exfalso. destruct HI as (_ & Hb & _). destruct (Hb _ _ E2) as (b & k' & F). congruence.
    - intros y H. unfold val, cell in *. destruct (lookup s y) as [[o d]|] eqn:E; [|unfold s'; rewrite (write_lookup_none _ _ _ _ E); reflexivity].
      unfold s'. rewrite (write_lookup _ _ _ b _ _ _ HA E). assert (E2 := E). apply lookup_spec in E2. destruct E2 as [_ E2].
      destruct d as [x k|k|q].
      + destruct (Nat.eqb_spec o c) as [->|N]; [exfalso; apply H; reflexivity|reflexivity].
      + destruct (Nat.eqb_spec o c) as [->|N]; [exfalso; apply H; reflexivity|reflexivity].
      + destruct (Nat.eqb_spec o c) as [->|N].
        * exfalso. rewrite HA in E2. injection E2 as ->. apply NV. reflexivity.
        * cbn [with_objs objs]. rewrite sn_other by congruence. reflexivity.
  Qed.

  (** ** Writes *)
  Lemma not_same_cell s y z c : cell s z = Some c -> ~ same_cell s y z -> cell s y <> Some c.
  Proof. intros Hz H E. apply H. exists c. auto. Qed.
  Lemma same_cell_of s y z c : cell s z = Some c -> same_cell s y z -> cell s y = Some c.
  Proof. intros Hz (d & A & B). congruence. Qed.
  (** the effect of a write of k0 into the cell of z *)
  Definition wrote (s s' : pyst) (z : nat) (k0 : constraints) : Prop :=
    (forall y, cell s' y = cell s y) /\
    (forall y, same_cell s y z -> value top s' y = Some k0) /\ (forall y, ~ same_cell s y z -> value top s' y = value top s y).
  Lemma wrote_spec s c a b k0 z : inv s -> nth_error (objs s) c = Some a -> kind a b -> new_of a <> None -> new_of b = Some k0 ->
    (match a with PProb x _ => x = true | _ => True end) -> cell s z = Some c -> wrote s (with_objs s (set_nth (objs s) c b)) z k0.
  Proof.
    intros HI HA K NV NB AL HZ. destruct (write_spec s c a b HI HA K NV AL) as (W1 & W2 & W3). split; [exact W1|]. split.
    - intros y Hy. rewrite value_val, <- NB. apply W2. exact (same_cell_of _ _ _ _ HZ Hy).
    - intros y Hy. rewrite !value_val. apply W3. exact (not_same_cell _ _ _ _ HZ Hy).
  Qed.
  Lemma via_wrote s y f : inv s -> is_problem s y -> exists k s', value top s y = Some k /\
    pystep top s (SetVia y f) = Ok (s', Done) /\ wrote s s' y (set_field f k).
  Proof.
    intros HI (p & b & k & E). assert (N := E). apply lookup_spec in N. destruct N as [N1 N2]. pose proof (alive _ _ _ _ _ HI N1 N2) as ->.
    exists k. cbn [pystep]. rewrite value_val. unfold val. rewrite E. eexists. split; [reflexivity|]. split; [reflexivity|].
    apply (wrote_spec s p (PProb true k)); try assumption; try reflexivity; [discriminate|]. unfold cell. rewrite E. reflexivity.
  Qed.
  Lemma attr_wrote s z f k : inv s -> is_constraints s z -> value top s z = Some k -> exists s',
    pystep top s (SetAttr z f) = Ok (s', Done) /\ wrote s s' z (set_field f k).
  Proof.
    intros HI HC. rewrite value_val. unfold val. cbn [pystep]. destruct HC as [(c & k' & E)|(v & p & E)]; rewrite E; assert (N := E); apply lookup_spec in N.
    - intros H. injection H as ->. eexists. split; [reflexivity|]. apply (wrote_spec s c (POwn k)); try reflexivity; try tauto; [discriminate|]. unfold cell. rewrite E. reflexivity.
    - unfold target. destruct (nth_error (objs s) p) as [[[] k'|k'|q]|] eqn:P; try discriminate. intros H. injection H as ->. cbn [bind].
      eexists. split; [reflexivity|]. apply (wrote_spec s p (PProb true k)); try reflexivity; try tauto; [discriminate|]. unfold cell. rewrite E. reflexivity.
  Qed.
  Lemma put_wrote s y z k : inv s -> is_problem s y -> is_constraints s z -> value top s z = Some k -> exists s',
    pystep top s (Put y z) = Ok (s', Done) /\ wrote s s' y k.
  Proof.
    intros HI (p & b & k0 & E) HC. assert (N := E). apply lookup_spec in N. destruct N as [N1 N2]. pose proof (alive _ _ _ _ _ HI N1 N2) as ->.
    rewrite value_val. unfold val. cbn [pystep]. rewrite E. destruct HC as [(c & k' & F)|(v & q & F)]; rewrite F.
    - intros H. injection H as ->. eexists. split; [reflexivity|]. apply (wrote_spec s p (PProb true k0)); try reflexivity; try tauto; [discriminate|]. unfold cell. rewrite E. reflexivity.
    - unfold target. destruct (nth_error (objs s) q) as [[[] k'|k'|q']|] eqn:P; try discriminate. intros H. injection H as ->. cbn [bind].
      eexists. split; [reflexivity|]. apply (wrote_spec s p (PProb true k0)); try reflexivity; try tauto; [discriminate|]. unfold cell. rewrite E. reflexivity.
  Qed.

  (** ** Names *)
  Definition kept (s s' : pyst) (w : nat) : Prop := cell s' w = cell s w /\ (dangling s' w \/ value top s' w = value top s w).
  Lemma rebind_kept s x v w : inv (rebind top s x v) -> w <> x -> kept s (rebind top s x v) w.
  Proof.
    intros HI Hw. assert (EW : env (rebind top s x v) w = env s w).
    { rewrite rebind_env. unfold env'. destruct (Nat.eqb_spec w x); [contradiction|reflexivity]. }
    unfold kept. rewrite (dangling_iff _ _ HI), !value_val. unfold cell, val, lookup. rewrite EW. destruct (env s w) as [o|] eqn:EO; [|split; [|right]; reflexivity].
    destruct (nth_error (objs s) o) as [d|] eqn:N.
    - destruct (rebind_kind s x v o d N) as [N'|(c & k & -> & N')]; rewrite N'; [|split; [|right]; reflexivity].
      split; [reflexivity|]. destruct d as [b k|k|q]; try (right; reflexivity).
      destruct (nth_error (objs s) q) as [e|] eqn:M.
      + destruct (rebind_kind s x v q e M) as [M'|(c & k & -> & M')]; rewrite M'; [right; reflexivity|left; exists o, q, k; split; [reflexivity|exact M']].
      + assert (nth_error (objs (rebind top s x v)) q = None) as -> by (apply nth_error_None; rewrite rebind_len; apply nth_error_None; exact M). right. reflexivity.
    - assert (nth_error (objs (rebind top s x v)) o = None) as -> by (apply nth_error_None; rewrite rebind_len; apply nth_error_None; exact N). split; [|right]; reflexivity.
  Qed.
  Lemma app_same s a w : inv s -> lookup (with_objs s (objs s ++ [a])) w = lookup s w /\ cell (with_objs s (objs s ++ [a])) w = cell s w /\ val (with_objs s (objs s ++ [a])) w = val s w.
  Proof.
    intros (Ha & Hb & _). assert (L : lookup (with_objs s (objs s ++ [a])) w = lookup s w).
    { unfold lookup. cbn [with_objs env objs]. destruct (env s w) as [o|] eqn:E; [|reflexivity]. rewrite nth_error_app1 by exact (proj2 (Ha _ _ E)). reflexivity. }
    split; [exact L|]. unfold cell, val. rewrite L. split; [reflexivity|]. destruct (lookup s w) as [[o [b k|k|q]]|] eqn:E; try reflexivity.
    apply lookup_spec in E. destruct (Hb _ _ (proj2 E)) as (b & k & N). cbn [with_objs objs]. rewrite (old_nth _ _ _ _ N), N. reflexivity.
  Qed.
  Lemma rebinds_kept s o s' r x : inv s -> names_below top o -> rebinds o x -> pystep top s o = Ok (s', r) ->
    forall w, w <> x -> kept s s' w.
  Proof.
    intros HI HN HR HS w Hw. pose proof (step_inv _ _ _ _ HI HN HS) as HI'.
    assert (R0 : kept s s w) by (split; [reflexivity|right; reflexivity]).
    assert (RA : forall a, inv (rebind top (with_objs s (objs s ++ [a])) x (Some (length (objs s)))) -> kept s (rebind top (with_objs s (objs s ++ [a])) x (Some (length (objs s)))) w).
    { intros a IA. destruct (rebind_kept _ _ _ _ IA Hw) as [K1 K2]. destruct (app_same s a w HI) as (_ & A2 & A3). split; [congruence|].
      destruct K2 as [K2|K2]; [left; exact K2|right]. rewrite !value_val in *. congruence. }
    destruct o as [y|y|y z|y|y z|y z|z f|y f|z|y]; cbn [rebinds] in HR; try contradiction; subst y; cbn [pystep] in HS.
    - injection HS as <- _. apply RA. exact HI'.
    - injection HS as <- _. apply RA. exact HI'.
    - destruct (env s z) as [p|]; injection HS as <- _; [|exact R0]. apply rebind_kept; assumption.
    - destruct (env s x) as [p|]; injection HS as <- _; [|exact R0]. apply rebind_kept; assumption.
    - destruct (lookup s z) as [[p [b k|k|q]]|]; injection HS as <- _; try exact R0. apply RA. exact HI'.
  Qed.
  Lemma rebind_self s x v : env (rebind top s x v) x = v.
  Proof. rewrite rebind_env. unfold env'. rewrite Nat.eqb_refl. reflexivity. Qed.
  Lemma ref_view s x y : inv s -> is_problem s y -> (x < top)%nat -> (y < top)%nat -> exists s', pystep top s (Ref x y) = Ok (s', Done) /\
    exists v p, lookup s' x = Some (v, PView p) /\ cell s y = Some p.
  Proof.
    intros HI (p & b & k & E) Hx Hy. cbn [pystep]. rewrite E. eexists. split; [reflexivity|]. exists (length (objs s)), p.
    split; [|unfold cell; rewrite E; reflexivity]. apply lookup_spec. rewrite rebind_self. split; [reflexivity|].
    assert (N : nth_error (objs s ++ [PView p]) (length (objs s)) = Some (PView p)) by (rewrite nth_error_app2, Nat.sub_diag by lia; reflexivity).
    destruct (rebind_kind (with_objs s (objs s ++ [PView p])) x (Some (length (objs s))) _ _ N) as [N'|(c & k' & F & _)]; [exact N'|discriminate].
  Qed.

  (** ** Undefined behaviour *)
  Lemma target_ub s q : target s q = UB <-> forall k, nth_error (objs s) q <> Some (PProb true k).
  Proof.
    unfold target. destruct (nth_error (objs s) q) as [[[] k|k|r]|]; split; intros H; try reflexivity; try discriminate; try (intros k'; discriminate).
    exfalso. apply (H k). reflexivity.
  Qed.
  Lemma target_dangling s z v q : inv s -> lookup s z = Some (v, PView q) -> (target s q = UB <-> dangling s z).
  Proof.
    intros HI E. rewrite (dangling_iff _ _ HI). assert (N := E). apply lookup_spec in N. destruct HI as (_ & Hb & _). destruct (Hb _ _ (proj2 N)) as (b & k & M).
    unfold target. rewrite M. split.
    - destruct b; [discriminate|]. intros _. exists v, q, k. auto.
    - intros (v' & q' & k' & E' & M'). rewrite E in E'. injection E' as <- <-. rewrite M in M'. injection M' as -> _. reflexivity.
  Qed.
  Lemma target_no_throw s q : target s q <> Throw.
  Proof. unfold target. destruct (nth_error (objs s) q) as [[[] k|k|r]|]; discriminate. Qed.
  Lemma not_dangling s z c b : lookup s z = Some (c, b) -> (forall q, b <> PView q) -> ~ dangling s z.
  Proof. intros E H (v & p & F & _). rewrite E in F. injection F as -> F. exact (H p F). Qed.
  Lemma none_dangling s z : lookup s z = None -> ~ dangling s z.
  Proof. intros E (v & p & F & _). congruence. Qed.
  Lemma c70_ub s o : inv s -> (pystep top s o = UB <-> exists z, uses s o z /\ dangling s z) /\ pystep top s o <> Throw.
  Proof.
    intros HI.
    assert (D : forall z (K : constraints -> outcome (pyst * pyreply)) v q, (forall k, exists a, K k = Ok a) -> lookup s z = Some (v, PView q) ->
      (bind (target s q) K = UB <-> dangling s z) /\ bind (target s q) K <> Throw).
    { intros z K v q HK E. rewrite <- (target_dangling s z v q HI E). pose proof (target_no_throw s q). destruct (target s q) as [k| |]; cbn [bind].
      - destruct (HK k) as (a & ->). split; [split; discriminate|discriminate].
      - contradiction.
      - split; [tauto|discriminate]. }
    assert (N : forall z c b, lookup s z = Some (c, b) -> (forall q, b <> PView q) -> ~ dangling s z) by (intros; eapply not_dangling; eauto).
    destruct o as [y|y|y z|y|y z|y z|z f|y f|z|y]; cbn [pystep uses].
    - split; [split; [discriminate|intros (w & [] & _)]|discriminate].
    - split; [split; [discriminate|intros (w & [] & _)]|discriminate].
    - destruct (env s z); (split; [split; [discriminate|intros (w & [] & _)]|discriminate]).
    - destruct (env s y); (split; [split; [discriminate|intros (w & [] & _)]|discriminate]).
    - destruct (lookup s z) as [[p [b k|k|q]]|]; (split; [split; [discriminate|intros (w & [] & _)]|discriminate]).
    - assert (A : forall w, ((z = w /\ is_problem s y) /\ dangling s w) -> dangling s z /\ is_problem s y) by (intros w [[<- A] B]; auto).
      destruct (lookup s y) as [[p [b k|k|q]]|] eqn:E.
      + assert (P : is_problem s y) by (exists p, b, k; exact E).
        destruct (lookup s z) as [[c [b' k'|k'|q]]|] eqn:F.
        * split; [|discriminate]. split; [discriminate|]. intros (w & U & W). exfalso. apply (N z _ _ F); [discriminate|]. exact (proj1 (A w (conj U W))).
        * split; [|discriminate]. split; [discriminate|]. intros (w & U & W). exfalso. apply (N z _ _ F); [discriminate|]. exact (proj1 (A w (conj U W))).
        * destruct (D z (fun k0 => Ok (with_objs s (set_nth (objs s) p (PProb b k0)), Done)) c q) as [D1 D2]; [eauto|exact F|]. split; [|exact D2]. rewrite D1.
          split; [intros W; exists z; auto|]. intros (w & U & W). exact (proj1 (A w (conj U W))).
        * split; [|discriminate]. split; [discriminate|]. intros (w & U & W). exfalso. apply (none_dangling _ _ F). exact (proj1 (A w (conj U W))).
      + split; [|discriminate]. split; [discriminate|]. intros (w & U & W). destruct (proj2 (A w (conj U W))) as (p' & b' & k' & E'). congruence.
      + split; [|discriminate]. split; [discriminate|]. intros (w & U & W). destruct (proj2 (A w (conj U W))) as (p' & b' & k' & E'). congruence.
      + split; [|discriminate]. split; [discriminate|]. intros (w & U & W). destruct (proj2 (A w (conj U W))) as (p' & b' & k' & E'). congruence.
    - destruct (lookup s z) as [[c [b' k'|k'|q]]|] eqn:F.
      + split; [|discriminate]. split; [discriminate|]. intros (w & <- & W). exfalso. apply (N z _ _ F); [discriminate|exact W].
      + split; [|discriminate]. split; [discriminate|]. intros (w & <- & W). exfalso. apply (N z _ _ F); [discriminate|exact W].
      + destruct (D z (fun k0 => Ok (with_objs s (set_nth (objs s) q (PProb true (set_field f k0))), Done)) c q) as [D1 D2]; [eauto|exact F|]. split; [|exact D2]. rewrite D1.
        split; [intros W; exists z; auto|]. intros (w & <- & W). exact W.
      + split; [|discriminate]. split; [discriminate|]. intros (w & <- & W). exfalso. exact (none_dangling _ _ F W).
    - destruct (lookup s y) as [[p [b k|k|q]]|]; (split; [split; [discriminate|intros (w & [] & _)]|discriminate]).
    - destruct (lookup s z) as [[c [b' k'|k'|q]]|] eqn:F.
      + split; [|discriminate]. split; [discriminate|]. intros (w & <- & W). exfalso. apply (N z _ _ F); [discriminate|exact W].
      + split; [|discriminate]. split; [discriminate|]. intros (w & <- & W). exfalso. apply (N z _ _ F); [discriminate|exact W].
      + destruct (D z (fun k0 => Ok (s, Value k0)) c q) as [D1 D2]; [eauto|exact F|]. split; [|exact D2]. rewrite D1.
        split; [intros W; exists z; auto|]. intros (w & <- & W). exact W.
      + split; [|discriminate]. split; [discriminate|]. intros (w & <- & W). exfalso. exact (none_dangling _ _ F W).
    - destruct (lookup s y) as [[p [b k|k|q]]|]; (split; [split; [discriminate|intros (w & [] & _)]|discriminate]).
  Qed.
End Machine.
