(** Double arithmetic: time samples at a fixed step. *)
From Flocq Require Import Core BinarySingleNaN.
From Verif Require Import Vec Double ModelDouble SpecDouble ProofDouble ProofDouble2.
Open Scope R_scope.

(** * The while loop *)
Fixpoint chain (t stop dt : f64) (ts : list f64) : Prop :=
  match ts with
  | [] => flt t stop = false
  | x :: ts' => x = t /\ flt t stop = true /\ chain (fadd t dt) stop dt ts'
  end.

Lemma while_chain : forall fuel t stop dt i arr arr', while_push_f fuel t stop dt i arr = Some arr' ->
  exists ts, arr' = arr ++ map (fun t => (t, i)) ts /\ chain t stop dt ts.
Proof.
  induction fuel as [|f IH]; intros t stop dt i arr arr' H; [discriminate|]. cbn [while_push_f] in H.
  destruct (flt t stop) eqn:L.
  - destruct (IH _ _ _ _ _ _ H) as (ts & -> & C). exists (t :: ts). split.
    + cbn [map]. rewrite <- app_assoc. reflexivity.
    + cbn [chain]. auto.
  - injection H as <-. exists []. split; [apply eq_sym, app_nil_r|exact L].
Qed.
Lemma chain_while : forall ts fuel t stop dt i arr, chain t stop dt ts -> (length ts < fuel)%nat ->
  while_push_f fuel t stop dt i arr = Some (arr ++ map (fun t => (t, i)) ts).
Proof.
  induction ts as [|x ts IH]; intros fuel t stop dt i arr C L; (destruct fuel as [|f]; [cbn in L; lia|]); cbn [while_push_f].
  - cbn [chain] in C. rewrite C. cbn [map]. rewrite app_nil_r. reflexivity.
  - destruct C as (-> & E & C). rewrite E. cbn [length] in L. rewrite (IH f _ _ _ _ _ C) by lia.
    cbn [map]. rewrite <- app_assoc. reflexivity.
Qed.
Lemma chain_stuck : forall ts t stop dt, fadd t dt = t -> flt t stop = true -> ~ chain t stop dt ts.
Proof.
  induction ts as [|x ts IH]; intros t stop dt E L C; cbn [chain] in C; [congruence|].
  destruct C as (_ & _ & C). rewrite E in C. exact (IH t stop dt E L C).
Qed.

(** one step *)
Lemma fadd_over (t dt stop : f64) : is_finite t = true -> 0 <= B2R t -> posf dt ->
  bpow radix2 1024 <= Rabs (rnd (B2R t + B2R dt)) -> flt (fadd t dt) stop = false.
Proof.
  intros Ft Pt [Fd Pd] M.
  pose proof (Bplus_correct 53 1024 prec_pos prec_emax mode_NE t dt Ft Fd) as H.
  change (round_mode mode_NE) with ZnearestE in H. change (SpecFloat.fexp 53 1024) with (FLT_exp (-1074) 53) in H.
  rewrite Rlt_bool_false in H by exact M. destruct H as [H S].
  assert (Sd : Bsign dt = false).
  { destruct dt as [s|s| |s m e B]; try discriminate Fd; [simpl in Pd; lra|]. destruct s; [|reflexivity].
    exfalso. simpl in Pd. unfold F2R in Pd. simpl in Pd. pose proof (bpow_gt_0 radix2 e) as G. 
    assert (IZR (Z.neg m) < 0) by (apply IZR_lt; reflexivity). nra. }
  unfold flt, fadd. rewrite S, Sd in H. unfold binary_overflow in H. simpl in H.
  destruct (Bplus mode_NE t dt) as [s|s| |s m e B]; simpl in H; try discriminate H. injection H as ->.
  destruct stop as [s'|s'| |s' m' e' B']; try destruct s'; reflexivity.
Qed.

Lemma same_float (x y : f64) : is_finite x = true -> is_finite y = true -> B2R x <> 0 -> B2R x = B2R y -> x = y.
Proof.
  intros Fx Fy N E. apply B2R_inj; [| |exact E].
  - destruct x as [s|s| |s m e B]; try discriminate Fx; [elim N; reflexivity|reflexivity].
  - rewrite E in N. destruct y as [s|s| |s m e B]; try discriminate Fy; [elim N; reflexivity|reflexivity].
Qed.

Lemma add_up t dt : fmt t -> fmt dt -> 0 <= t -> 0 <= dt ->
  rnd (t + dt) <= (t + dt) * (1 + u53) /\ (t + dt) * (1 - u53) <= rnd (t + dt).
Proof.
  intros Ft Fd Pt Pd. pose proof (add_err t dt Ft Fd) as E. rewrite (Rabs_pos_eq (t + dt)) in E by lra.
  apply Rabs_le_inv in E. split; lra.
Qed.

(** a chain and its end point *)
Lemma chain_walk (stop dt : f64) : is_finite stop = true -> posf dt -> forall ts t, is_finite t = true -> 0 <= B2R t ->
  B2R t <= B2R stop -> (B2R t = B2R stop -> t = stop) -> chain t stop dt ts -> walk t stop dt (ts ++ [stop]).
Proof.
  intros Fs [Fd Pd]. induction ts as [|x ts IH]; intros t Ft Pt Le Eq C; cbn [chain] in C.
  - assert (E : t = stop).
    { apply Eq. destruct (Rle_lt_or_eq_dec _ _ Le) as [L|L]; [|exact L].
      apply (flt_val t stop Ft Fs) in L. congruence. }
    subst t. split; [reflexivity|]. split; [exists []; reflexivity|]. split.
    + intros t [<-|[]]. split; [exact Fs|lra].
    + intros k a b Ha Hb. destruct k; discriminate Hb.
  - destruct C as (-> & L & C). assert (L' : B2R t < B2R stop) by (apply flt_val; assumption).
    destruct (add_up (B2R t) (B2R dt) (fmt_B2R t) (fmt_B2R dt) Pt (Rlt_le _ _ Pd)) as [Up Dn].
    destruct ts as [|y ts].
    + (* the loop ends here *)
      cbn [chain] in C. cbn [app]. assert (G : B2R stop <= rnd (B2R t + B2R dt)).
      { destruct (Rlt_or_le (Rabs (rnd (B2R t + B2R dt))) (bpow radix2 1024)) as [M|M].
        - destruct (fadd_fin t dt Ft Fd M) as [F V]. rewrite <- V. apply Rnot_lt_le. intro K.
          apply (flt_val _ _ F Fs) in K. congruence.
        - rewrite Rabs_pos_eq in M by (apply rnd_ge0; lra). eapply Rle_trans; [|exact M].
          apply Rlt_le. eapply Rle_lt_trans; [apply Rle_abs|apply abs_B2R_lt_emax]. }
      split; [reflexivity|]. split; [exists [t]; reflexivity|]. split.
      * intros a [<-|[<-|[]]]; (split; [assumption|lra]).
      * intros k a b Ha Hb. destruct k as [|[|k]]; cbn in Ha, Hb; [|discriminate|destruct k; discriminate].
        injection Ha as <-. injection Hb as <-. split; [split; [exact L'|lra]|]. cbn [length]. intro K. lia.
    + assert (M : Rabs (rnd (B2R t + B2R dt)) < bpow radix2 1024).
      { apply Rnot_le_lt. intro M. pose proof (fadd_over t dt stop Ft Pt (conj Fd Pd) M) as K.
        cbn [chain] in C. destruct C as (_ & K' & _). congruence. }
      destruct (fadd_fin t dt Ft Fd M) as [F V].
      assert (G : B2R t < B2R (fadd t dt)).
      { destruct (Rle_lt_or_eq_dec _ _ (fadd_ge t dt F (Rlt_le _ _ Pd))) as [K|K]; [exact K|]. exfalso.
        destruct (Req_dec (B2R t) 0) as [Z|Z].
        - rewrite V, Z, Rplus_0_l, (rnd_fmt _ (fmt_B2R dt)) in K. lra.
        - apply (chain_stuck (y :: ts) (fadd t dt) stop dt); [|apply C|exact C].
          rewrite <- (same_float _ _ Ft F Z K) at 1. reflexivity. }
      assert (L2 : B2R (fadd t dt) < B2R stop) by (apply flt_val; [exact F|exact Fs|apply C]).
      destruct (IH (fadd t dt) F) as (H1 & (b' & H2) & H3 & H4); [lra|lra|intro K; lra|exact C|].
      split; [reflexivity|]. split; [exists (t :: b'); cbn [app]; rewrite <- H2; reflexivity|]. split.
      * intros a [<-|Ha]; [split; [exact Ft|lra]|]. destruct (H3 a Ha) as [Fa Ba]. split; [exact Fa|lra].
      * intros k a b Ha Hb. destruct k as [|k].
        -- cbn in Ha. injection Ha as <-. change (nth_error ((y :: ts) ++ [stop]) 0 = Some b) in Hb.
           destruct C as (-> & _). cbn in Hb. injection Hb as <-. rewrite V. rewrite V in G. split; [split; [exact G|exact Up]|]. intros _. exact Dn.
        -- destruct (H4 k a b Ha Hb) as [B1 B2]. split; [exact B1|]. intro K. apply B2. cbn [app length] in K |- *. lia.
Qed.

(** * The loop over the phases *)
Lemma end_f_nth Ts i d : nth_error Ts i = Some d -> end_f Ts i = fadd (start_f Ts i) d.
Proof.
  unfold end_f, start_f. generalize f0. revert i. induction Ts as [|a Ts IH]; intros [|i] c H; try discriminate H.
  - injection H as <-. reflexivity.
  - cbn [nth_error] in H. cbn [firstn fold_left]. apply IH, H.
Qed.

Lemma step_chain dt : forall Ts fuel i c arr arr', step_outer_f fuel Ts dt i c arr = Some arr' ->
  exists bs, arr' = arr ++ tagged_f i bs /\ length bs = length Ts /\
    forall k, (k < length Ts)%nat -> exists ts,
      nth_error bs k = Some (ts ++ [fold_left fadd (firstn (S k) Ts) c]) /\
      chain (fold_left fadd (firstn k Ts) c) (fold_left fadd (firstn (S k) Ts) c) dt ts.
Proof.
  induction Ts as [|d Ts IH]; intros fuel i c arr arr' H; cbn [step_outer_f] in H.
  - injection H as <-. exists []. split; [apply eq_sym, app_nil_r|]. split; [reflexivity|]. intros k K. cbn in K. lia.
  - destruct (while_push_f fuel c (fadd c d) dt i arr) as [arr1|] eqn:W; [|discriminate].
    destruct (while_chain _ _ _ _ _ _ _ W) as (ts & -> & C).
    destruct (IH _ _ _ _ _ H) as (bs & -> & Lb & N). exists ((ts ++ [fadd c d]) :: bs). split.
    + cbn [tagged_f]. rewrite map_app, <- !app_assoc. reflexivity.
    + split; [cbn [length]; lia|]. intros [|k] K.
      * exists ts. split; [reflexivity|exact C].
      * cbn [length] in K. destruct (N k ltac:(lia)) as (ts' & E & C'). exists ts'. split; [exact E|exact C'].
Qed.
Lemma chain_step dt : forall Ts tss fuel i c arr, length tss = length Ts ->
  (forall k ts, nth_error tss k = Some ts -> (length ts < fuel)%nat /\
     chain (fold_left fadd (firstn k Ts) c) (fold_left fadd (firstn (S k) Ts) c) dt ts) ->
  exists arr', step_outer_f fuel Ts dt i c arr = Some arr'.
Proof.
  induction Ts as [|d Ts IH]; intros tss fuel i c arr L H; cbn [step_outer_f]; [eauto|].
  destruct tss as [|ts tss]; [discriminate L|]. destruct (H O ts eq_refl) as [H1 H2].
  cbn [firstn fold_left] in H2. rewrite (chain_while ts fuel _ _ _ _ _ H2 H1).
  apply (IH tss); [cbn [length] in L; lia|]. intros k ts' E. exact (H (S k) ts' E).
Qed.

Lemma fold_firstn_fin Ts : forall c k, is_finite (fold_left fadd Ts c) = true -> is_finite (fold_left fadd (firstn k Ts) c) = true.
Proof.
  induction Ts as [|a Ts IH]; intros c [|k] H; cbn [firstn fold_left] in *; try assumption; [apply fold_fin in H; apply fadd_inv in H; apply H|].
  apply IH, H.
Qed.
Lemma start_fin Ts k : is_finite (end_f Ts (length Ts)) = true -> is_finite (start_f Ts k) = true.
Proof. unfold end_f, start_f. intro H. rewrite firstn_all2 in H by lia. apply fold_firstn_fin, H. Qed.
Lemma start_ge0 Ts k : Forall posf Ts -> is_finite (end_f Ts (length Ts)) = true -> 0 <= B2R (start_f Ts k).
Proof.
  intros P F. pose proof (start_fin Ts k F) as Fk. unfold start_f in *. rewrite <- f0_val. apply fold_ge; [|exact Fk].
  rewrite Forall_forall in *. intros x Hx. apply P. apply (In_nth_error) in Hx. destruct Hx as [n Hx].
  clear - Hx. revert n k Hx. induction Ts as [|a Ts IH]; intros n k Hx; [destruct k, n; discriminate Hx|].
  destruct k as [|k]; [destruct n; discriminate Hx|]. destruct n as [|n]; cbn in Hx; [injection Hx as ->; left; reflexivity|right; eapply IH, Hx].
Qed.

Lemma start_end Ts k d : Forall posf Ts -> is_finite (end_f Ts (length Ts)) = true -> nth_error Ts k = Some d ->
  is_finite (start_f Ts k) = true /\ is_finite (end_f Ts k) = true /\ 0 <= B2R (start_f Ts k) <= B2R (end_f Ts k) /\
  (B2R (start_f Ts k) = B2R (end_f Ts k) -> start_f Ts k = end_f Ts k).
Proof.
  intros P F N. pose proof (start_fin Ts k F) as F1. pose proof (start_fin Ts (S k) F) as F2. fold (end_f Ts k) in F2.
  assert (Pd : posf d) by (rewrite Forall_forall in P; apply P; eapply nth_error_In, N).
  pose proof (start_ge0 Ts k P F) as G. split; [exact F1|]. split; [exact F2|].
  rewrite (end_f_nth _ _ _ N) in F2 |- *. pose proof (fadd_ge _ d F2 (Rlt_le _ _ (proj2 Pd))) as Le. split; [lra|].
  intro E. apply same_float; [exact F1|exact F2| |exact E]. intro Z. rewrite Z in E.
  destruct (fadd_inv _ _ F2) as (_ & _ & V). rewrite V, Z, Rplus_0_l, (rnd_fmt _ (fmt_B2R d)) in E. destruct Pd. lra.
Qed.

Lemma steps_f_ok Ts dt fuel arr : Forall posf Ts -> posf dt -> is_finite (end_f Ts (length Ts)) = true ->
  computeDiscretizedTime_f fuel Ts dt = Some arr ->
  exists bs, arr = tagged_f 0 bs /\ length bs = length Ts /\
    forall k b, nth_error bs k = Some b -> walk (start_f Ts k) (end_f Ts k) dt b.
Proof.
  intros P Pd F H. destruct (step_chain dt _ _ _ _ _ _ H) as (bs & -> & L & N). exists bs. split; [reflexivity|]. split; [exact L|].
  intros k b Hb. assert (K : (k < length Ts)%nat) by (rewrite <- L; apply nth_error_Some; congruence).
  destruct (N k K) as (ts & E & C). rewrite E in Hb. injection Hb as <-.
  destruct (nth_error Ts k) as [d|] eqn:D; [|apply nth_error_None in D; lia].
  destruct (start_end Ts k d P F D) as (F1 & F2 & B & Eq).
  apply (chain_walk (end_f Ts k) dt F2 Pd ts (start_f Ts k) F1); [lra|lra|exact Eq|exact C].
Qed.

(** * It ends when the step is not too small *)
Lemma chain_ends (stop dt : f64) : is_finite stop = true -> posf dt -> B2R stop * (2 * u53) <= B2R dt ->
  forall n t, is_finite t = true -> 0 <= B2R t -> B2R stop - B2R t <= INR n * (B2R dt / 2) ->
  exists ts, chain t stop dt ts /\ (length ts <= n)%nat.
Proof.
  intros Fs [Fd Pd] Big. induction n as [|n IH]; intros t Ft Pt Hn.
  - exists []. split; [|auto]. cbn [chain]. apply Bool.not_true_is_false. intro K. apply flt_val in K; [|assumption|assumption]. cbn [INR] in Hn. lra.
  - destruct (flt t stop) eqn:L; [|exists []; split; [exact L|cbn; lia]].
    assert (L' : B2R t < B2R stop) by (apply flt_val; assumption).
    assert (K : exists ts, chain (fadd t dt) stop dt ts /\ (length ts <= n)%nat).
    { destruct (Rlt_or_le (Rabs (rnd (B2R t + B2R dt))) (bpow radix2 1024)) as [M|M];
        [|exists []; split; [exact (fadd_over t dt stop Ft Pt (conj Fd Pd) M)|cbn; lia]].
      destruct (fadd_fin t dt Ft Fd M) as [F V].
      destruct (Rle_or_lt (B2R stop) (B2R t + B2R dt)) as [G|G].
      - exists []. split; [|cbn; lia]. cbn [chain]. apply Bool.not_true_is_false. intro K. apply flt_val in K; [|assumption|assumption].
        rewrite V in K. apply rnd_le in G. rewrite (rnd_fmt _ (fmt_B2R stop)) in G. lra.
      - destruct (add_up (B2R t) (B2R dt) (fmt_B2R t) (fmt_B2R dt) Pt (Rlt_le _ _ Pd)) as [_ Dn].
        assert (A : (B2R t + B2R dt) * u53 <= B2R dt / 2).
        { apply Rle_trans with (B2R stop * u53); [|lra]. apply Rmult_le_compat_r; [apply Rlt_le, u53_pos|lra]. }
        apply (IH (fadd t dt) F); rewrite V; [apply rnd_ge0; lra|]. rewrite S_INR in Hn. lra. }
    destruct K as (ts & C & Ln). exists (t :: ts). split; [cbn [chain]; auto|cbn [length]; lia].
Qed.

Lemma ge_ceil x : 0 <= x -> x <= INR (Z.to_nat (up x)) <= x + 1.
Proof.
  intro H. destruct (archimed x) as [A B]. rewrite INR_IZR_INZ, Z2Nat.id; [lra|]. apply le_IZR. lra.
Qed.

Lemma last_end Ts k : Forall posf Ts -> is_finite (end_f Ts (length Ts)) = true -> B2R (start_f Ts k) <= B2R (end_f Ts (length Ts)).
Proof.
  intros P F. unfold end_f, start_f in *. rewrite (firstn_all2 (n := S (length Ts)) Ts) in F |- * by lia.
  assert (E : fold_left fadd Ts f0 = fold_left fadd (skipn k Ts) (fold_left fadd (firstn k Ts) f0)) by (rewrite <- fold_left_app, firstn_skipn; reflexivity).
  rewrite E in F |- *. apply fold_ge; [|exact F].
  rewrite Forall_forall in *. intros x Hx. apply P. rewrite <- (firstn_skipn k Ts). apply in_or_app. right. exact Hx.
Qed.

Lemma steps_f_end Ts dt : Forall posf Ts -> posf dt -> is_finite (end_f Ts (length Ts)) = true ->
  B2R (end_f Ts (length Ts)) * (2 * u53) <= B2R dt ->
  exists fuel arr, computeDiscretizedTime_f fuel Ts dt = Some arr.
Proof.
  intros P Pd F Big.
  set (n := Z.to_nat (up (B2R (end_f Ts (length Ts)) * 2 / B2R dt))).
  assert (T0 : 0 <= B2R (end_f Ts (length Ts))) by (apply start_ge0; assumption).
  assert (Hn : B2R (end_f Ts (length Ts)) <= INR n * (B2R dt / 2)).
  { destruct Pd as [_ Pd]. assert (Q : 0 <= B2R (end_f Ts (length Ts)) * 2 / B2R dt) by (apply Rmult_le_pos; [lra|apply Rlt_le, Rinv_0_lt_compat, Pd]).
    destruct (ge_ceil _ Q) as [G _]. fold n in G. apply (Rmult_le_compat_r (B2R dt / 2)) in G; [|lra].
    eapply Rle_trans; [|exact G]. right. field. lra. }
  exists (S n).
  assert (H : exists tss, length tss = length Ts /\ forall k ts, nth_error tss k = Some ts -> (length ts < S n)%nat /\ chain (start_f Ts k) (end_f Ts k) dt ts).
  { assert (Q : forall k, (k <= length Ts)%nat -> exists tss, length tss = k /\ forall j ts, nth_error tss j = Some ts -> (length ts < S n)%nat /\ chain (start_f Ts j) (end_f Ts j) dt ts).
    { induction k as [|k IHk]; intro K; [exists []; split; [reflexivity|]; intros [|j] ts E; discriminate E|].
      destruct (IHk ltac:(lia)) as (tss & L & H). destruct (nth_error Ts k) as [d|] eqn:D; [|apply nth_error_None in D; lia].
      destruct (start_end Ts k d P F D) as (F1 & F2 & B & _). pose proof (last_end Ts (S k) P F) as Le. fold (end_f Ts k) in Le.
      destruct (chain_ends (end_f Ts k) dt F2 Pd) with (n := n) (t := start_f Ts k) as (ts & C & Lt); [|exact F1|lra|lra|].
      - eapply Rle_trans; [|exact Big]. apply Rmult_le_compat_r; [|exact Le]. pose proof u53_pos. lra.
      - exists (tss ++ [ts]). split; [rewrite app_length; cbn; lia|]. intros j ts' E.
        destruct (Nat.lt_ge_cases j k) as [J|J]; [apply H; rewrite nth_error_app1 in E by lia; exact E|].
        rewrite nth_error_app2 in E by lia. destruct (j - length tss)%nat as [|q] eqn:Q; [|destruct q; discriminate E].
        injection E as <-. assert (j = k) by lia. subst j. split; [lia|exact C]. }
    exact (Q (length Ts) (le_n _)). }
  destruct H as (tss & L & H). apply (chain_step dt Ts tss (S n) 0 f0 []); [exact L|exact H].
Qed.

(** any two amounts of fuel that are enough give the same list *)
Lemma while_mono : forall fuel fuel' t stop dt i arr r, (fuel <= fuel')%nat -> while_push_f fuel t stop dt i arr = Some r ->
  while_push_f fuel' t stop dt i arr = Some r.
Proof.
  induction fuel as [|f IH]; intros fuel' t stop dt i arr r L H; [discriminate|]. destruct fuel' as [|f']; [lia|].
  cbn [while_push_f] in *. destruct (flt t stop); [|exact H]. apply IH; [lia|exact H].
Qed.
Lemma outer_mono : forall Ts fuel fuel' dt i c arr r, (fuel <= fuel')%nat -> step_outer_f fuel Ts dt i c arr = Some r ->
  step_outer_f fuel' Ts dt i c arr = Some r.
Proof.
  induction Ts as [|d Ts IH]; intros fuel fuel' dt i c arr r L H; cbn [step_outer_f] in *; [exact H|].
  destruct (while_push_f fuel c (fadd c d) dt i arr) as [a|] eqn:W; [|discriminate].
  rewrite (while_mono _ _ _ _ _ _ _ _ L W). exact (IH _ _ _ _ _ _ _ L H).
Qed.

(** * It does not end when a step from the start of a phase is lost in rounding *)
Lemma steps_f_stuck Ts dt k : (k < length Ts)%nat -> fadd (start_f Ts k) dt = start_f Ts k ->
  flt (start_f Ts k) (end_f Ts k) = true -> forall fuel, computeDiscretizedTime_f fuel Ts dt = None.
Proof.
  intros K E L fuel. destruct (computeDiscretizedTime_f fuel Ts dt) as [arr|] eqn:H; [|reflexivity]. exfalso.
  destruct (step_chain dt _ _ _ _ _ _ H) as (bs & _ & _ & N). destruct (N k K) as (ts & _ & C).
  exact (chain_stuck ts _ _ _ E L C).
Qed.
Lemma steps_f_ends Ts dt : Forall posf Ts -> posf dt -> is_finite (end_f Ts (length Ts)) = true ->
  B2R (end_f Ts (length Ts)) * (2 * u53) <= B2R dt ->
  exists fuel arr, forall fuel', (fuel <= fuel')%nat -> computeDiscretizedTime_f fuel' Ts dt = Some arr.
Proof.
  intros P Pd F B. destruct (steps_f_end Ts dt P Pd F B) as (fuel & arr & H). exists fuel, arr. intros fuel' L.
  exact (outer_mono Ts fuel fuel' dt 0 f0 [] arr L H).
Qed.
