(** Proofs for the attribute constraints_ of python's ProblemData: histories. *)
From Coq Require Import List Lia Bool.
From Verif Require Import Vec ModelData ModelHeap ModelPy SpecPy2 ProofPy3.
Import ListNotations.

Section Histories.
  Variable top : nat.
  Notation inv := (inv top).

  Lemma step_env s o s' r x : pystep top s o = Ok (s', r) -> ~ rebinds o x -> env s' x = env s x.
  Proof.
    assert (R : forall s0 y v, y <> x -> env (rebind top s0 y v) x = env s0 x).
    { intros s0 y v H. rewrite rebind_env. unfold env'. destruct (Nat.eqb_spec x y); [congruence|reflexivity]. }
    destruct o as [y|y|y z|y|y z|y z|z f|y f|z|y]; cbn [pystep rebinds]; intros H N.
    - injection H as <- _. rewrite R by exact N. reflexivity.
    - injection H as <- _. rewrite R by exact N. reflexivity.
    - destruct (env s z); injection H as <- _; [apply R; exact N|reflexivity].
    - destruct (env s y); injection H as <- _; [apply R; exact N|reflexivity].
    - destruct (lookup s z) as [[p [b k|k|q]]|]; injection H as <- _; try reflexivity. rewrite R by exact N. reflexivity.
    - destruct (lookup s y) as [[p [b k|k|q]]|]; try (injection H as <- _; reflexivity).
      destruct (lookup s z) as [[c [b' k'|k'|q]]|]; try (injection H as <- _; reflexivity).
      destruct (target s q); try discriminate. injection H as <- _. reflexivity.
    - destruct (lookup s z) as [[c [b' k'|k'|q]]|]; try (injection H as <- _; reflexivity).
      destruct (target s q); try discriminate. injection H as <- _. reflexivity.
    - destruct (lookup s y) as [[p [b k|k|q]]|]; injection H as <- _; reflexivity.
    - destruct (lookup s z) as [[c [b' k'|k'|q]]|]; try (injection H as <- _; reflexivity).
      destruct (target s q); try discriminate. injection H as <- _. reflexivity.
    - destruct (lookup s y) as [[p [b k|k|q]]|]; injection H as <- _; reflexivity.
  Qed.
  (** kinds are kept; a problem may be destroyed *)
  Definition akin (a b : pyobj) : Prop :=
    match a, b with PProb _ _, PProb _ _ => True | POwn _, POwn _ => True | PView p, PView q => p = q | _, _ => False end.
  Lemma akin_refl a : akin a a.
  Proof. destruct a; cbn; auto. Qed.
  Lemma rebind_akin s x v c a : nth_error (objs s) c = Some a -> exists b, nth_error (objs (rebind top s x v)) c = Some b /\ akin a b.
  Proof. intros H. destruct (rebind_kind top s x v c a H) as [E|(d & k & -> & E)]; eexists; (split; [exact E|]); [apply akin_refl|exact I]. Qed.
  Lemma set_akin l c d a b e : nth_error l c = Some a -> nth_error l d = Some e -> akin e b -> exists b', nth_error (set_nth l d b) c = Some b' /\ akin a b'.
  Proof.
    intros H He K. destruct (Nat.eq_dec d c) as [->|N].
    - exists b. rewrite (sn_same _ _ _ _ H). rewrite H in He. injection He as ->. auto.
    - exists a. rewrite sn_other by exact N. split; [exact H|apply akin_refl].
  Qed.
  Lemma step_akin s o s' r c a : pystep top s o = Ok (s', r) -> nth_error (objs s) c = Some a -> exists b, nth_error (objs s') c = Some b /\ akin a b.
  Proof.
    intros H HA. assert (S0 : exists b, nth_error (objs s) c = Some b /\ akin a b) by (exists a; split; [exact HA|apply akin_refl]).
    destruct o as [y|y|y z|y|y z|y z|z f|y f|z|y]; cbn [pystep] in H.
    - injection H as <- _. apply rebind_akin. apply old_nth. exact HA.
    - injection H as <- _. apply rebind_akin. apply old_nth. exact HA.
    - destruct (env s z); injection H as <- _; [apply rebind_akin; exact HA|exact S0].
    - destruct (env s y); injection H as <- _; [apply rebind_akin; exact HA|exact S0].
    - destruct (lookup s z) as [[p [b k|k|q]]|]; injection H as <- _; try exact S0. apply rebind_akin. apply old_nth. exact HA.
    - destruct (lookup s y) as [[p [b k|k|q]]|] eqn:E; try (injection H as <- _; exact S0). apply lookup_spec in E. destruct E as [_ E].
      destruct (lookup s z) as [[d [b' k'|k'|q]]|]; try (injection H as <- _; exact S0).
      + injection H as <- _. apply (set_akin _ _ _ _ _ _ HA E). exact I.
      + destruct (target s q); try discriminate. injection H as <- _. apply (set_akin _ _ _ _ _ _ HA E). exact I.
    - destruct (lookup s z) as [[d [b' k'|k'|q]]|] eqn:E; try (injection H as <- _; exact S0); apply lookup_spec in E; destruct E as [_ E].
      + injection H as <- _. apply (set_akin _ _ _ _ _ _ HA E). exact I.
      + destruct (target s q) eqn:T; try discriminate. apply target_spec in T. injection H as <- _. apply (set_akin _ _ _ _ _ _ HA T). exact I.
    - destruct (lookup s y) as [[p [b k|k|q]]|] eqn:E; injection H as <- _; try exact S0. apply lookup_spec in E. destruct E as [_ E].
      apply (set_akin _ _ _ _ _ _ HA E). exact I.
    - destruct (lookup s z) as [[d [b' k'|k'|q]]|]; try (injection H as <- _; exact S0).
      destruct (target s q); try discriminate. injection H as <- _. exact S0.
    - destruct (lookup s y) as [[p [b k|k|q]]|]; injection H as <- _; exact S0.
  Qed.

  (** ** What constraints_ returned stays connected *)
  Definition linked (s : pyst) (x y p : nat) : Prop := (exists v, lookup s x = Some (v, PView p)) /\ (exists b k, lookup s y = Some (p, PProb b k)).
  Lemma linked_value s x y p : inv s -> linked s x y p -> exists k, value top s x = Some k /\ value top s y = Some k.
  Proof.
    intros HI [(v & X) (b & k & Y)]. assert (N := Y). apply lookup_spec in N. destruct N as [N1 N2]. pose proof (alive _ _ _ _ _ _ HI N1 N2) as ->.
    exists k. rewrite !value_val. unfold val. rewrite X, Y, N2. auto.
  Qed.
  Lemma step_linked s o s' r x y p : pystep top s o = Ok (s', r) -> ~ rebinds o x -> ~ rebinds o y -> linked s x y p -> linked s' x y p.
  Proof.
    intros H Nx Ny [(v & X) (b & k & Y)]. apply lookup_spec in X. apply lookup_spec in Y. destruct X as [X1 X2], Y as [Y1 Y2].
    destruct (step_akin _ _ _ _ _ _ H X2) as (c & C1 & C2). destruct c; cbn in C2; try contradiction. subst p0.
    destruct (step_akin _ _ _ _ _ _ H Y2) as (d & D1 & D2). destruct d; cbn in D2; try contradiction.
    split; [exists v|exists alive, k0]; apply lookup_spec; rewrite (step_env _ _ _ _ _ H) by assumption; auto.
  Qed.
  Lemma run_linked x y p : forall l s s', pyrun top s l = Ok s' -> Forall (fun o => ~ rebinds o x /\ ~ rebinds o y) l -> linked s x y p -> linked s' x y p.
  Proof.
    induction l as [|o l IH]; cbn [pyrun]; intros s s' H F L; [injection H as <-; exact L|].
    destruct (pystep top s o) as [[s1 r]| |] eqn:E; try discriminate. inversion F; subst. apply (IH s1); try assumption. eapply step_linked; try eassumption; tauto.
  Qed.
  Lemma c70_live s x y l s' : reachable top s -> is_problem s y -> (x < top)%nat -> (y < top)%nat -> x <> y ->
    Forall (names_below top) l -> Forall (fun o => ~ rebinds o x /\ ~ rebinds o y) l ->
    pyrun top s (Ref x y :: l) = Ok s' -> exists k, value top s' x = Some k /\ value top s' y = Some k.
  Proof.
    intros HR HP Hx Hy Hn HB HF H. pose proof (reach_inv _ _ HR) as HI. cbn [pyrun] in H. destruct (pystep top s (Ref x y)) as [[s1 r]| |] eqn:E; try discriminate. cbn [bind fst] in H.
    destruct (ref_view top s x y HI HP Hx Hy) as (s2 & E2 & v & p & V & C). rewrite E in E2. injection E2 as <- ->.
    assert (I1 : inv s1) by (eapply step_inv; [exact HI| |exact E]; split; assumption).
    destruct HP as (p' & b & k & Y). assert (p' = p) by (unfold cell in C; rewrite Y in C; congruence). subst p'.
    assert (L1 : linked s1 x y p).
    { split; [exists v; exact V|]. apply lookup_spec in Y. destruct Y as [Y1 Y2]. destruct (step_akin _ _ _ _ _ _ E Y2) as (d & D1 & D2). destruct d; cbn in D2; try contradiction.
      exists alive, k0. apply lookup_spec. rewrite (step_env _ _ _ _ y E) by exact Hn. auto. }
    apply (linked_value s' x y p); [exact (run_inv top l s1 s' I1 HB H)|]. exact (run_linked x y p l s1 s' H HF L1).
  Qed.

  (** ** A problem without other names *)
  Definition private (s : pyst) (y p : nat) (k : constraints) : Prop :=
    env s y = Some p /\ nth_error (objs s) p = Some (PProb true k) /\ (forall x, x <> y -> env s x <> Some p) /\
    (forall v, nth_error (objs s) v <> Some (PView p)).
  Lemma private_put s y p k c a b : private s y p k -> c <> p -> nth_error (objs s) c = Some a -> akin a b -> private (with_objs s (set_nth (objs s) c b)) y p k.
  Proof.
    intros (P1 & P2 & P3 & P4) N HA K. split; [exact P1|]. split; [cbn [with_objs objs]; rewrite sn_other by exact N; exact P2|]. split; [exact P3|].
    intros v. cbn [with_objs objs]. destruct (Nat.eq_dec c v) as [->|Nv]; [|rewrite sn_other by exact Nv; apply P4].
    rewrite (sn_same _ _ _ _ HA). intros E. injection E as ->. destruct a; cbn in K; try contradiction. subst. exact (P4 _ HA).
  Qed.
  Lemma private_set s y p k k' : private s y p k -> private (with_objs s (set_nth (objs s) p (PProb true k'))) y p k'.
  Proof.
    intros (P1 & P2 & P3 & P4). split; [exact P1|]. split; [exact (sn_same _ _ _ _ P2)|]. split; [exact P3|]. intros v. cbn [with_objs objs].
    destruct (Nat.eq_dec p v) as [->|Nv]; [rewrite (sn_same _ _ _ _ P2); discriminate|rewrite sn_other by exact Nv; apply P4].
  Qed.
  Lemma private_rebind s y p k x v : private s y p k -> x <> y -> v <> Some p -> private (rebind top s x v) y p k.
  Proof.
    intros (P1 & P2 & P3 & P4) Hx Hv. split; [|split; [|split]].
    - rewrite rebind_env. unfold env'. destruct (Nat.eqb_spec y x); [congruence|exact P1].
    - destruct (rebind_objs top s x v p) as [E|(E & _)]; [congruence|]. exfalso. exact (P3 x Hx E).
    - intros w Hw. rewrite rebind_env. unfold env'. destruct (Nat.eqb_spec w x); [exact Hv|apply P3; exact Hw].
    - intros w H. destruct (rebind_back top s x v w _ H) as [E|(c & k' & E & _)]; [exact (P4 w E)|discriminate].
  Qed.
  Lemma private_new s y p k a : private s y p k -> a <> PView p -> private (with_objs s (objs s ++ [a])) y p k.
  Proof.
    intros (P1 & P2 & P3 & P4) Ha. split; [exact P1|]. split; [apply old_nth; exact P2|]. split; [exact P3|].
    intros v H. destruct (new_nth _ _ _ _ H) as [[E _]|[_ E]]; [exact (P4 v E)|congruence].
  Qed.
  Lemma private_len s y p k : private s y p k -> (p < length (objs s))%nat.
  Proof. intros (_ & P & _). apply nth_error_Some. congruence. Qed.
  Lemma step_private s o s' r y p k : private s y p k -> ~ rebinds o y -> ~ shares o y -> ~ assigns o y -> pystep top s o = Ok (s', r) ->
    private s' y p (fold_left (fun a f => set_field f a) (settings y [o]) k).
  Proof.
    intros P NR NS NA H. pose proof (private_len _ _ _ _ P) as LP. assert (P' := P). destruct P' as (P1 & P2 & P3 & P4).
    assert (OW : forall w c b, lookup s w = Some (c, b) -> w <> y -> c <> p).
    { intros w c b E Hw ->. apply lookup_spec in E. exact (P3 w Hw (proj1 E)). }
    destruct o as [x|x|x z|x|x z|w z|z f|w f|z|w]; cbn [pystep rebinds shares assigns] in *; cbn [settings fold_left].
    - injection H as <- _. apply private_rebind; [apply private_new; [exact P|discriminate]|exact NR|]. intros E. injection E as E. lia.
    - injection H as <- _. apply private_rebind; [apply private_new; [exact P|discriminate]|exact NR|]. intros E. injection E as E. lia.
    - destruct (env s z) as [q|] eqn:E; injection H as <- _; [|exact P]. apply private_rebind; [exact P|exact NR|]. intros F. injection F as ->. exact (P3 z NS E).
    - destruct (env s x) as [q|] eqn:E; injection H as <- _; [|exact P]. apply private_rebind; [exact P|exact NR|discriminate].
    - destruct (lookup s z) as [[q [b k'|k'|q']]|] eqn:E; injection H as <- _; try exact P. pose proof (OW _ _ _ E NS).
      apply private_rebind; [apply private_new; [exact P|congruence]|exact NR|]. intros F. injection F as F. lia.
    - destruct (lookup s w) as [[q [b k'|k'|q']]|] eqn:E; try (injection H as <- _; exact P). pose proof (OW _ _ _ E NA) as N. apply lookup_spec in E. destruct E as [_ E].
      destruct (lookup s z) as [[d [b2 k2|k2|q2]]|]; try (injection H as <- _; exact P).
      + injection H as <- _. apply (private_put _ _ _ _ _ _ _ P N E). exact I.
      + destruct (target s q2); try discriminate. injection H as <- _. apply (private_put _ _ _ _ _ _ _ P N E). exact I.
    - destruct (lookup s z) as [[d [b2 k2|k2|q2]]|] eqn:E; try (injection H as <- _; exact P); apply lookup_spec in E; destruct E as [_ E].
      + injection H as <- _. apply (private_put s y p k d (POwn k2)); [exact P| |exact E|exact I]. intros ->. congruence.
      + destruct (target s q2) eqn:T; try discriminate. apply target_spec in T. injection H as <- _. apply (private_put _ _ _ _ _ _ _ P) with (2 := T); [|exact I]. intros ->. exact (P4 _ E).
    - destruct (Nat.eqb_spec w y) as [->|Nw].
      + unfold lookup in H. rewrite P1, P2 in H. injection H as <- _. cbn [settings fold_left]. apply private_set with (k := k). exact P.
      + cbn [fold_left]. destruct (lookup s w) as [[q [b k'|k'|q']]|] eqn:E; injection H as <- _; try exact P. pose proof (OW _ _ _ E Nw) as N. apply lookup_spec in E. destruct E as [_ E].
        apply (private_put _ _ _ _ _ _ _ P N E). exact I.
    - destruct (lookup s z) as [[d [b2 k2|k2|q2]]|]; try (injection H as <- _; exact P). destruct (target s q2); try discriminate. injection H as <- _. exact P.
    - destruct (lookup s w) as [[d [b2 k2|k2|q2]]|]; injection H as <- _; exact P.
  Qed.
  Lemma settings_cons y o l : settings y (o :: l) = settings y [o] ++ settings y l.
  Proof. destruct o; try reflexivity. cbn. destruct (Nat.eqb _ _); reflexivity. Qed.
  Lemma run_private y p : forall l s s' k, private s y p k -> Forall (fun o => ~ rebinds o y /\ ~ shares o y /\ ~ assigns o y) l -> pyrun top s l = Ok s' ->
    private s' y p (fold_left (fun a f => set_field f a) (settings y l) k).
  Proof.
    induction l as [|o l IH]; intros s s' k P F H; [cbn in H; injection H as <-; exact P|]. cbn [pyrun] in H.
    destruct (pystep top s o) as [[s1 r]| |] eqn:E; try discriminate. cbn [bind fst] in H. inversion F as [|? ? [F1 [F2 F3]] F4]; subst.
    rewrite settings_cons, fold_left_app. apply (IH s1 s'); [|exact F4|exact H]. exact (step_private _ _ _ _ _ _ _ P F1 F2 F3 E).
  Qed.
  Lemma mk_private s y : inv s -> (y < top)%nat -> exists s', pystep top s (MkProblem y) = Ok (s', Done) /\ private s' y (length (objs s)) default_constraints.
  Proof.
    intros HI Hy. eexists. split; [reflexivity|]. set (s0 := with_objs s (objs s ++ [PProb true default_constraints])).
    assert (N : nth_error (objs s0) (length (objs s)) = Some (PProb true default_constraints)) by (cbn; rewrite nth_error_app2, Nat.sub_diag by lia; reflexivity).
    destruct HI as (Ha & Hb & Hc). split; [apply rebind_self|]. split; [|split].
    - destruct (rebind_objs top s0 y (Some (length (objs s))) (length (objs s))) as [E|(E & _)]; [congruence|]. exfalso. destruct (Ha _ _ E). lia.
    - intros x Hx. rewrite rebind_env. unfold env'. destruct (Nat.eqb_spec x y); [contradiction|]. intros E. destruct (Ha _ _ E). lia.
    - intros v H. destruct (rebind_back _ _ _ _ _ _ H) as [E|(c & k & E & _)]; [|discriminate]. destruct (new_nth _ _ _ _ E) as [[E' _]|[_ E']]; [|discriminate].
      destruct (Hb _ _ E') as (b & k & M). assert (length (objs s) < length (objs s))%nat by (apply nth_error_Some; congruence). lia.
  Qed.
  Lemma c70_private s y l s' : reachable top s -> (y < top)%nat ->
    Forall (fun o => ~ rebinds o y /\ ~ shares o y /\ ~ assigns o y) l -> pyrun top s (MkProblem y :: l) = Ok s' ->
    value top s' y = Some (fold_left (fun k f => set_field f k) (settings y l) default_constraints).
  Proof.
    intros HR Hy HF H. cbn [pyrun] in H. destruct (mk_private s y (reach_inv _ _ HR) Hy) as (s1 & E & P). rewrite E in H. cbn [bind fst] in H.
    destruct (run_private _ _ _ _ _ _ P HF H) as (P1 & P2 & _). rewrite value_val. unfold val, lookup. rewrite P1, P2. reflexivity.
  Qed.

  (** ** Programs without undefined behaviour *)
  Lemma no_ub s o : inv s -> (forall z, ~ dangling s z) -> exists s' r, pystep top s o = Ok (s', r).
  Proof.
    intros HI HD. destruct (c70_ub top s o HI) as [U T]. destruct (pystep top s o) as [[s' r]| |]; [eauto|contradiction|].
    destruct (proj1 U eq_refl) as (z & _ & D). exfalso. exact (HD z D).
  Qed.
  Definition viewless (s : pyst) : Prop := forall v p, nth_error (objs s) v <> Some (PView p).
  Lemma step_viewless s o s' r : viewless s -> ~ is_ref o -> pystep top s o = Ok (s', r) -> viewless s'.
  Proof.
    intros V N H.
    assert (RB : forall s0 x v, viewless s0 -> viewless (rebind top s0 x v)).
    { intros s0 x v V0 w p E. destruct (rebind_back _ _ _ _ _ _ E) as [F|(c & k & F & _)]; [exact (V0 _ _ F)|discriminate]. }
    assert (NW : forall a, (forall p, a <> PView p) -> viewless (with_objs s (objs s ++ [a]))).
    { intros a Ha w p E. destruct (new_nth _ _ _ _ E) as [[F _]|[_ F]]; [exact (V _ _ F)|exact (Ha p (eq_sym F))]. }
    assert (ST : forall c b, (forall p, b <> PView p) -> viewless (with_objs s (set_nth (objs s) c b))).
    { intros c b Hb w p E. cbn [with_objs objs] in E. destruct (Nat.eq_dec c w) as [->|Nw]; [|rewrite sn_other in E by exact Nw; exact (V _ _ E)].
      destruct (nth_error (objs s) w) as [d|] eqn:D; [rewrite (sn_same _ _ _ _ D) in E; injection E as E; exact (Hb _ E)|].
      apply nth_error_None in D. assert (w < length (set_nth (objs s) w b))%nat by (apply nth_error_Some; congruence). rewrite sn_len in *. lia. }
    destruct o as [x|x|x z|x|x z|w z|z f|w f|z|w]; cbn [pystep is_ref] in *.
    - injection H as <- _. apply RB, NW. discriminate.
    - injection H as <- _. apply RB, NW. discriminate.
    - destruct (env s z); injection H as <- _; [apply RB|]; exact V.
    - destruct (env s x); injection H as <- _; [apply RB|]; exact V.
    - exfalso. exact (N I).
    - destruct (lookup s w) as [[p [b k|k|q]]|]; try (injection H as <- _; exact V).
      destruct (lookup s z) as [[c [b' k'|k'|q]]|]; try (injection H as <- _; try exact V; apply ST; discriminate).
      destruct (target s q); try discriminate. injection H as <- _. apply ST. discriminate.
    - destruct (lookup s z) as [[c [b' k'|k'|q]]|]; try (injection H as <- _; try exact V; apply ST; discriminate).
      destruct (target s q); try discriminate. injection H as <- _. apply ST. discriminate.
    - destruct (lookup s w) as [[p [b k|k|q]]|]; injection H as <- _; try exact V. apply ST. discriminate.
    - destruct (lookup s z) as [[c [b' k'|k'|q]]|]; try (injection H as <- _; exact V). destruct (target s q); try discriminate. injection H as <- _. exact V.
    - destruct (lookup s w) as [[p [b k|k|q]]|]; injection H as <- _; exact V.
  Qed.
  Lemma viewless_ok s z : viewless s -> ~ dangling s z.
  Proof. intros V (v & p & E & _). apply lookup_spec in E. exact (V _ _ (proj2 E)). Qed.
  Lemma c70_no_ref l : Forall (names_below top) l -> Forall (fun o => ~ is_ref o) l -> exists s, pyrun top py0 l = Ok s.
  Proof.
    assert (G : forall l s, inv s -> viewless s -> Forall (names_below top) l -> Forall (fun o => ~ is_ref o) l -> exists s', pyrun top s l = Ok s').
    { clear l. induction l as [|o l IH]; intros s HI V HB HF; [exists s; reflexivity|]. inversion HB; subst. inversion HF; subst.
      destruct (no_ub s o HI (fun z => viewless_ok s z V)) as (s1 & r & E). cbn [pyrun]. rewrite E. cbn [bind fst].
      apply IH; try assumption; [eapply step_inv; eassumption|eapply step_viewless; eassumption]. }
    apply G; [apply inv0|intros [|v] p; discriminate].
  Qed.
  (** each name is bound once and never deleted *)
  Lemma step_once s o s' r : pystep top s o = Ok (s', r) -> ~ is_forget o -> (forall x, In x (targets [o]) -> env s x = None) ->
    forall x p, env s x = Some p -> env s' x = Some p.
  Proof.
    intros H F T x p E. rewrite <- E. apply (step_env _ _ _ _ _ H). intros R.
    assert (In x (targets [o])) by (destruct o; cbn in *; subst; tauto). rewrite (T x) in E by assumption. discriminate.
  Qed.
  Definition all_named (s : pyst) : Prop := forall p b k, nth_error (objs s) p = Some (PProb b k) -> exists x, env s x = Some p.
  Lemma named_ok s z : inv s -> all_named s -> ~ dangling s z.
  Proof. intros (Ha & Hb & _) A (v & p & E & H). apply lookup_spec in E. destruct (Hb _ _ (proj2 E)) as (b & k & N). destruct (A _ _ _ N) as (x & X). exact (H x X). Qed.
  Lemma step_named s o s' r : inv s -> all_named s -> pystep top s o = Ok (s', r) -> ~ is_forget o -> (forall x, In x (targets [o]) -> env s x = None) -> all_named s'.
  Proof.
    intros HI A H F T p b k N. pose proof (step_once _ _ _ _ H F T) as K.
    assert (OLD : forall a, nth_error (objs s) p = Some a -> exists x, env s' x = Some p).
    { intros a M. destruct (step_akin _ _ _ _ _ _ H M) as (d & D1 & D2). rewrite N in D1. injection D1 as <-. destruct a; cbn in D2; try contradiction.
      destruct (A _ _ _ M) as (x & X). exists x. exact (K _ _ X). }
    destruct (nth_error (objs s) p) as [a|] eqn:M; [exact (OLD a eq_refl)|]. apply nth_error_None in M.
    assert (NEW : (length (objs s) < length (objs s'))%nat) by (assert (p < length (objs s'))%nat by (apply nth_error_Some; congruence); lia).
    destruct o as [x|x|x z|x|x z|w z|z f|w f|z|w]; cbn [pystep] in H.
    - injection H as <- _. exists x. rewrite rebind_self. f_equal. assert (p < length (objs (rebind top (with_objs s (objs s ++ [PProb true default_constraints])) x (Some (length (objs s))))))%nat by (apply nth_error_Some; congruence).
      rewrite rebind_len in *. cbn [with_objs objs] in *. rewrite app_length in *. cbn in *. lia.
    - injection H as <- _. exfalso. destruct (rebind_back _ _ _ _ _ _ N) as [E|(c & k' & _ & E)]; destruct (new_nth _ _ _ _ E) as [[_ L]|[_ L]]; try lia; discriminate.
    - exfalso. destruct (env s z); injection H as <- _; rewrite ?rebind_len in NEW; lia.
    - exfalso. destruct (env s x); injection H as <- _; rewrite ?rebind_len in NEW; lia.
    - exfalso. destruct (lookup s z) as [[q [b' k'|k'|q']]|]; injection H as <- _; try lia.
      destruct (rebind_back _ _ _ _ _ _ N) as [E|(c & k2 & _ & E)]; destruct (new_nth _ _ _ _ E) as [[_ L]|[_ L]]; try lia; discriminate.
    - exfalso. destruct (lookup s w) as [[q [b' k'|k'|q']]|]; try (injection H as <- _; lia).
      destruct (lookup s z) as [[c [b2 k2|k2|q2]]|]; try (injection H as <- _; cbn [with_objs objs] in NEW; rewrite ?sn_len in NEW; lia).
      destruct (target s q2); try discriminate. injection H as <- _. cbn [with_objs objs] in NEW. rewrite sn_len in NEW. lia.
    - exfalso. destruct (lookup s z) as [[c [b2 k2|k2|q2]]|]; try (injection H as <- _; cbn [with_objs objs] in NEW; rewrite ?sn_len in NEW; lia).
      destruct (target s q2); try discriminate. injection H as <- _. cbn [with_objs objs] in NEW. rewrite sn_len in NEW. lia.
    - exfalso. destruct (lookup s w) as [[c [b2 k2|k2|q2]]|]; injection H as <- _; cbn [with_objs objs] in NEW; rewrite ?sn_len in NEW; lia.
    - exfalso. destruct (lookup s z) as [[c [b2 k2|k2|q2]]|]; try (injection H as <- _; lia). destruct (target s q2); try discriminate. injection H as <- _. lia.
    - exfalso. destruct (lookup s w) as [[c [b2 k2|k2|q2]]|]; injection H as <- _; lia.
  Qed.
  Lemma nodup_app (u t : list nat) : NoDup (u ++ t) -> NoDup t /\ forall x, In x u -> ~ In x t.
  Proof.
    induction u as [|a u IH]; cbn; intros H; [auto|]. inversion H as [|? ? H1 H2]; subst. destruct (IH H2) as [A B]. split; [exact A|].
    intros x [->|Hx]; [|exact (B x Hx)]. intros F. apply H1, in_or_app. auto.
  Qed.
  Lemma targets_cons o l : targets (o :: l) = targets [o] ++ targets l.
  Proof. destruct o; reflexivity. Qed.
  Lemma c70_once l : Forall (names_below top) l -> NoDup (targets l) -> Forall (fun o => ~ is_forget o) l -> exists s, pyrun top py0 l = Ok s.
  Proof.
    assert (G : forall l s, inv s -> all_named s -> (forall x, In x (targets l) -> env s x = None) -> Forall (names_below top) l -> NoDup (targets l) -> Forall (fun o => ~ is_forget o) l ->
      exists s', pyrun top s l = Ok s').
    { clear l. induction l as [|o l IH]; intros s HI A T HB ND HF; [exists s; reflexivity|]. inversion HB; subst. inversion HF; subst. rewrite targets_cons in *.
      destruct (no_ub s o HI (fun z => named_ok s z HI A)) as (s1 & r & E). cbn [pyrun]. rewrite E. cbn [bind fst].
      assert (T1 : forall x, In x (targets [o]) -> env s x = None) by (intros x Hx; apply T, in_or_app; auto).
      apply IH; try assumption.
      - eapply step_inv; eassumption.
      - eapply step_named; eassumption.
      - intros x Hx. rewrite (step_env _ _ _ _ _ E); [apply T, in_or_app; auto|]. intros R.
        apply (proj2 (nodup_app _ _ ND) x); [|exact Hx]. destruct o; cbn in *; subst; tauto.
      - exact (proj1 (nodup_app _ _ ND)). }
    intros HB ND HF. apply G; try assumption; [apply inv0| |reflexivity]. intros [|p] b k; discriminate.
  Qed.
End Histories.

Lemma c70_refuted : exists l, Forall (names_below 2) l /\ pyrun 2 py0 l = UB /\ l = [MkProblem 0; Ref 1 0; Forget 0; Read 1].
Proof. eexists. split; [|split; [|reflexivity]]; [repeat constructor; cbn; lia|reflexivity]. Qed.
Section Made.
  Variable top : nat.
  Lemma c70_made s x : reachable top s -> (x < top)%nat ->
    (exists s', pystep top s (MkProblem x) = Ok (s', Done) /\ is_problem s' x /\ value top s' x = Some default_constraints) /\
    (exists s', pystep top s (MkConstraints x) = Ok (s', Done) /\ is_constraints s' x /\ value top s' x = Some default_constraints) /\
    (forall y, (y < top)%nat -> x <> y -> (exists b, env s y = Some b) -> exists s', pystep top s (Bind x y) = Ok (s', Done) /\ same_cell s' x y) /\
    (forall y, (y < top)%nat -> x <> y -> is_problem s y -> exists s', pystep top s (Ref x y) = Ok (s', Done) /\ is_constraints s' x /\ same_cell s' x y).
  Proof.
    intros HR Hx. pose proof (reach_inv _ _ HR) as HI. assert (HI' := HI). destruct HI' as (Ha & _ & _). split; [|split; [|split]].
    - destruct (mk_private top s x HI Hx) as (s1 & E & P1 & P2 & _). exists s1. split; [exact E|].
      assert (L : lookup s1 x = Some (length (objs s), PProb true default_constraints)) by (apply lookup_spec; auto).
      split; [exists (length (objs s)), true, default_constraints; exact L|]. rewrite value_val. unfold val. rewrite L. reflexivity.
    - eexists. split; [reflexivity|].
      assert (N : nth_error (objs (with_objs s (objs s ++ [POwn default_constraints]))) (length (objs s)) = Some (POwn default_constraints)) by (cbn; rewrite nth_error_app2, Nat.sub_diag by lia; reflexivity).
      match goal with |- is_constraints ?a _ /\ _ => assert (L : lookup a x = Some (length (objs s), POwn default_constraints)) end.
      { apply lookup_spec. rewrite rebind_self. split; [reflexivity|]. destruct (rebind_kind top _ x (Some (length (objs s))) _ _ N) as [E|(c & k & F & _)]; [exact E|discriminate]. }
      split; [left; eauto|]. rewrite value_val. unfold val. rewrite L. reflexivity.
    - intros y Hy Hn (b & E). cbn [pystep]. rewrite E. eexists. split; [reflexivity|]. destruct (Ha _ _ E) as [_ L].
      destruct (nth_error (objs s) b) as [a|] eqn:N; [|apply nth_error_None in N; lia].
      destruct (rebind_akin top s x (Some b) b a N) as (a' & N' & _). set (s' := rebind top s x (Some b)) in *.
      assert (L1 : lookup s' x = Some (b, a')) by (apply lookup_spec; split; [apply rebind_self|exact N']).
      assert (L2 : lookup s' y = Some (b, a')).
      { apply lookup_spec. split; [|exact N']. unfold s'. rewrite rebind_env. unfold env'. destruct (Nat.eqb_spec y x); [congruence|exact E]. }
      unfold same_cell, cell. rewrite L1, L2. destruct a'; eauto.
    - intros y Hy Hn HP. destruct (ref_view top s x y HI HP Hx Hy) as (s1 & E & v & p & L & C). exists s1. split; [exact E|]. split; [right; eauto|].
      assert (K : kept top s s1 y) by (apply (rebinds_kept top s (Ref x y) s1 Done x HI); [split; assumption|reflexivity|exact E|congruence]).
      exists p. split; [unfold cell; rewrite L; reflexivity|]. rewrite (proj1 K). exact C.
  Qed.
  Lemma c70_names s o s' r x : reachable top s -> names_below top o -> rebinds o x -> pystep top s o = Ok (s', r) ->
    forall w, w <> x -> cell s' w = cell s w /\ (dangling s' w \/ value top s' w = value top s w).
  Proof. intros HR. exact (rebinds_kept top s o s' r x (reach_inv _ _ HR)). Qed.
  Lemma c70_write s : reachable top s ->
    (forall y f, is_problem s y -> exists k s', value top s y = Some k /\ pystep top s (SetVia y f) = Ok (s', Done) /\
       (forall w, same_cell s w y -> value top s' w = Some (set_field f k)) /\ (forall w, ~ same_cell s w y -> value top s' w = value top s w) /\ (forall w, cell s' w = cell s w)) /\
    (forall z f k, is_constraints s z -> value top s z = Some k -> exists s', pystep top s (SetAttr z f) = Ok (s', Done) /\
       (forall w, same_cell s w z -> value top s' w = Some (set_field f k)) /\ (forall w, ~ same_cell s w z -> value top s' w = value top s w) /\ (forall w, cell s' w = cell s w)) /\
    (forall y z k, is_problem s y -> is_constraints s z -> value top s z = Some k -> exists s', pystep top s (Put y z) = Ok (s', Done) /\
       (forall w, same_cell s w y -> value top s' w = Some k) /\ (forall w, ~ same_cell s w y -> value top s' w = value top s w) /\ (forall w, cell s' w = cell s w)).
  Proof.
    intros HR. pose proof (reach_inv _ _ HR) as HI. split; [|split].
    - intros y f HP. destruct (via_wrote top s y f HI HP) as (k & s' & V & E & W1 & W2 & W3). exists k, s'. auto.
    - intros z f k HC HV. destruct (attr_wrote top s z f k HI HC HV) as (s' & E & W1 & W2 & W3). exists s'. auto.
    - intros y z k HP HC HV. destruct (put_wrote top s y z k HI HP HC HV) as (s' & E & W1 & W2 & W3). exists s'. auto.
  Qed.
  Lemma c70_undefined s o : reachable top s ->
    (pystep top s o = UB <-> exists z, uses s o z /\ dangling s z) /\ pystep top s o <> Throw /\
    (forall z, is_constraints s z -> (dangling s z <-> value top s z = None)).
  Proof.
    intros HR. pose proof (reach_inv _ _ HR) as HI. destruct (c70_ub top s o HI) as [A B]. split; [exact A|]. split; [exact B|].
    intros z HC. rewrite value_val. exact (dangling_val top s z HI HC).
  Qed.
End Made.

Lemma set_updated f k : set_field f k = updated f k.
Proof. destruct f, k; reflexivity. Qed.
Lemma fold_updated l : forall k, fold_left (fun k f => set_field f k) l k = fold_left (fun k f => updated f k) l k.
Proof. induction l as [|f l IH]; intro k; cbn [fold_left]; [reflexivity|]. rewrite set_updated. apply IH. Qed.
Lemma c70_made2 top s x : reachable top s -> (x < top)%nat ->
  (exists s', pystep top s (MkProblem x) = Ok (s', Done) /\ is_problem s' x /\ value top s' x = Some fresh) /\
  (exists s', pystep top s (MkConstraints x) = Ok (s', Done) /\ is_constraints s' x /\ value top s' x = Some fresh) /\
  (forall y, (y < top)%nat -> x <> y -> (exists b, env s y = Some b) -> exists s', pystep top s (Bind x y) = Ok (s', Done) /\ same_cell s' x y) /\
  (forall y, (y < top)%nat -> x <> y -> is_problem s y -> exists s', pystep top s (Ref x y) = Ok (s', Done) /\ is_constraints s' x /\ same_cell s' x y).
Proof. exact (c70_made top s x). Qed.
Lemma c70_write2 top s : reachable top s ->
  (forall y f, is_problem s y -> exists k s', value top s y = Some k /\ pystep top s (SetVia y f) = Ok (s', Done) /\
     (forall w, same_cell s w y -> value top s' w = Some (updated f k)) /\ (forall w, ~ same_cell s w y -> value top s' w = value top s w) /\ (forall w, cell s' w = cell s w)) /\
  (forall z f k, is_constraints s z -> value top s z = Some k -> exists s', pystep top s (SetAttr z f) = Ok (s', Done) /\
     (forall w, same_cell s w z -> value top s' w = Some (updated f k)) /\ (forall w, ~ same_cell s w z -> value top s' w = value top s w) /\ (forall w, cell s' w = cell s w)) /\
  (forall y z k, is_problem s y -> is_constraints s z -> value top s z = Some k -> exists s', pystep top s (Put y z) = Ok (s', Done) /\
     (forall w, same_cell s w y -> value top s' w = Some k) /\ (forall w, ~ same_cell s w y -> value top s' w = value top s w) /\ (forall w, cell s' w = cell s w)).
Proof.
  intro HR. destruct (c70_write top s HR) as (A & B & C). split; [|split; [|exact C]].
  - intros y f H. destruct (A y f H) as (k & s' & H1 & H2 & H3). rewrite set_updated in H3. exists k, s'. auto.
  - intros z f k H1 H2. destruct (B z f k H1 H2) as (s' & H3 & H4). rewrite set_updated in H4. exists s'. auto.
Qed.
Lemma c70_private2 top s y l s' : reachable top s -> (y < top)%nat ->
  Forall (fun o => ~ rebinds o y /\ ~ shares o y /\ ~ assigns o y) l -> pyrun top s (MkProblem y :: l) = Ok s' ->
  value top s' y = Some (fold_left (fun k f => updated f k) (settings y l) fresh).
Proof. intros HR Hy HF H. rewrite (c70_private top s y l s' HR Hy HF H), fold_updated. reflexivity. Qed.
