(** Continuous formulation: exact meaning through the control points of the phases. *)
From Verif Require Import Vec SpecBezier SpecTime ModelData ModelDispatch ModelUtils ModelRows ModelCom ModelNd ModelCont
  SpecCom SpecWp SpecCtr SpecCont ProofBezier ProofCurve ProofWaypoints ProofTime ProofTime2 ProofEmit ProofCom ProofCom2 ProofCom3 ProofNd
  ProofWaypointsErr ProofCont ProofCont2 ProofCont3 ProofCont4 ProofCont5 ProofCont6.
Open Scope R_scope.

Lemma total_firstn_S Ts i d : nth_error Ts i = Some d -> phase_end Ts i = phase_start Ts i + d.
Proof.
  unfold phase_end, phase_start. revert i; induction Ts as [|a Ts IH]; intros [|i] H; try discriminate.
  - injection H as ->. cbn. ring.
  - cbn [nth_error] in H. change (firstn (S (S i)) (a :: Ts)) with (a :: firstn (S i) Ts). change (firstn (S i) (a :: Ts)) with (a :: firstn i Ts).
    cbn [total]. rewrite (IH i H). ring.
Qed.
Lemma phase_end_start Ts i : phase_end Ts i = phase_start Ts (S i).
Proof. reflexivity. Qed.
Lemma long_pos Ts : long_phases Ts -> Forall (Rlt 0) Ts.
Proof. unfold long_phases. rewrite !Forall_forall. intros H x Hx. specialize (H x Hx). lra. Qed.
Lemma long_start Ts i : long_phases Ts -> (0 < i <= length Ts)%nat -> 1 / 1000 <= phase_start Ts i.
Proof.
  intros HL Hi. destruct Ts as [|d Ts]; [cbn in Hi; lia|]. destruct i as [|i]; [lia|].
  unfold phase_start. cbn [firstn total]. inversion HL as [|? ? H1 H2]; subst.
  pose proof (total_prefix Ts i (long_pos _ H2)). unfold phase_start in *. lra.
Qed.
Lemma total_ge Ts i : Forall (Rlt 0) Ts -> phase_start Ts i <= total Ts.
Proof. intros H. apply (total_prefix Ts i H). Qed.
Lemma long_end Ts i : long_phases Ts -> (S i <= length Ts)%nat -> phase_end Ts i = total Ts \/ 1 / 1000 <= total Ts - phase_end Ts i.
Proof.
  intros HL Hi. rewrite phase_end_start. destruct (Nat.eq_dec (S i) (length Ts)) as [E|E].
  - left. unfold phase_start. rewrite E, firstn_all. reflexivity.
  - right. destruct (nth_error Ts (S i)) as [d|] eqn:Ed; [|apply nth_error_None in Ed; lia].
    pose proof (total_firstn_S Ts (S i) d Ed) as H. rewrite phase_end_start in H.
    pose proof (total_ge Ts (S (S i)) (long_pos _ HL)). unfold long_phases in HL. rewrite Forall_forall in HL.
    pose proof (HL d (nth_error_In _ _ Ed)). lra.
Qed.
Lemma long_split Ts : long_phases Ts -> splittable Ts.
Proof.
  intros HL i Hi. right. destruct (nth_error Ts i) as [d|] eqn:Ed; [|apply nth_error_None in Ed; lia].
  pose proof (total_firstn_S Ts i d Ed) as H. pose proof (total_ge Ts (S i) (long_pos _ HL)). rewrite <- phase_end_start in *.
  unfold long_phases in HL. rewrite Forall_forall in HL. pose proof (HL d (nth_error_In _ _ Ed)). lra.
Qed.
Lemma phase_start_0 Ts : phase_start Ts 0 = 0.
Proof. reflexivity. Qed.

Lemma exact_piece {A} (add : A -> A -> A) scal cv Ts i p : long_phases Ts -> (i < length Ts)%nat -> nd_min cv = 0 -> nd_max cv = total Ts ->
  is_piece add scal cv (phase_start Ts i) (phase_end Ts i) p ->
  piece A add scal p cv /\ nd_min p = phase_start Ts i /\ nd_max p = phase_end Ts i.
Proof.
  intros HL Hi E0 ET (HP & _ & _ & H1 & H2). rewrite E0, ET in *. split; [exact HP|]. unfold MARGIN in *. split.
  - apply H1. destruct i as [|i]; [left; reflexivity|right]. pose proof (long_start Ts (S i) HL). lra || (specialize (H ltac:(lia)); lra).
  - apply H2. apply long_end; [exact HL|lia].
Qed.

(** * Which control points the force formulation writes *)
Lemma kept_in df dl (ws : list wp6) w : In w (kept df dl ws) <->
  exists j, nth_error ws j = Some w /\ (df = true -> j <> 0%nat) /\ (dl = true -> S j <> length ws).
Proof.
  assert (RL : forall l : list wp6, In w (removelast l) <-> exists j, nth_error l j = Some w /\ S j <> length l).
  { induction l as [|a l IH]; [split; [intros []|intros (j & E & _); destruct j; discriminate]|].
    destruct l as [|b l].
    - split; [intros []|]. intros (j & E & H). destruct j as [|[|j]]; cbn in *; try discriminate. congruence.
    - change (removelast (a :: b :: l)) with (a :: removelast (b :: l)). cbn [In]. rewrite IH. split.
      + intros [->|(j & E & H)]; [exists 0%nat|exists (S j)]; (split; [first [reflexivity|exact E]|cbn in *; lia]).
      + intros ([|j] & E & H); [left; injection E as ->; reflexivity|]. right. exists j. split; [exact E|cbn in *; lia]. }
  assert (TL : forall l : list wp6, In w (tl l) <-> exists j, nth_error l j = Some w /\ j <> 0%nat).
  { intros [|a l]; [split; [intros []|intros (j & E & _); destruct j; discriminate]|]. cbn [tl]. split.
    - intros H. destruct (In_nth_error _ _ H) as [j E]. exists (S j). split; [exact E|lia].
    - intros ([|j] & E & H); [congruence|]. eapply nth_error_In. exact E. }
  assert (RE : forall (l : list wp6) j v, nth_error (removelast l) j = Some v <-> nth_error l j = Some v /\ S j <> length l).
  { induction l as [|a l IH]; intros j v; [destruct j; cbn; split; [discriminate|intros [E _]; discriminate|discriminate|intros [E _]; discriminate]|].
    destruct l as [|b l].
    - destruct j as [|j]; cbn; (split; [discriminate|]); intros [E H]; [congruence|destruct j; discriminate].
    - change (removelast (a :: b :: l)) with (a :: removelast (b :: l)). destruct j as [|j]; cbn [nth_error].
      + split; [intros E; split; [exact E|cbn; lia]|intros [E _]; exact E].
      + rewrite IH. cbn [length]. split; intros [E H]; (split; [exact E|lia]). }
  unfold kept. destruct df, dl.
  - rewrite TL. split.
    + intros (j & E & H). apply RE in E. destruct E as [E1 E2]. exists j. repeat split; auto.
    + intros (j & E & H1 & H2). exists j. split; [apply RE; split; auto|auto].
  - rewrite TL. split; intros (j & E & H); exists j; [repeat split; auto; discriminate|destruct H; split; auto].
  - rewrite RL. split; intros (j & E & H); exists j; [repeat split; auto; discriminate|destruct H; split; auto].
  - split.
    + intros H. destruct (In_nth_error _ _ H) as [j E]. exists j. repeat split; auto; discriminate.
    + intros (j & E & _). eapply nth_error_In, E.
Qed.

Lemma gens_php c : contact_wf c -> gens c = cp_G (php c).
Proof. intros (ph & E & _). unfold gens, php. rewrite E. reflexivity. Qed.

Definition prev_count (cSize : nat) (cs : list contact) (i : nat) : nat :=
  match i with O => cSize | S j => match nth_error cs j with Some c => ncols c | None => 0%nat end end.
Lemma fitems_in (Q : wp6 * cphase -> Prop) : forall cs lw cSize, length lw = length cs ->
  (Forall Q (fitems cSize lw cs) <->
   forall i c pw j w, nth_error cs i = Some c -> nth_error lw i = Some pw -> nth_error (nd_pts pw) j = Some w ->
     (prev_lt (prev_count cSize cs i) c = true -> j <> 0%nat) ->
     (match nth_error cs (S i) with Some c' => Nat.leb (ncols c') (ncols c) | None => false end = true -> S j <> length (nd_pts pw)) ->
     Q (w, php c)).
Proof.
  induction cs as [|c cs IH]; intros [|pw lw] cSize HL; try discriminate.
  - split; [intros _ i ? ? ? ? H; destruct i; discriminate|intros _; constructor].
  - cbn [fitems]. rewrite Forall_app, (IH lw (ncols c)) by (cbn in HL; lia).
    assert (NL : next_le c cs = match nth_error (c :: cs) 1 with Some c' => Nat.leb (ncols c') (ncols c) | None => false end)
      by (destruct cs; reflexivity).
    rewrite Forall_map, Forall_forall. split.
    + intros [H1 H2] [|i] c' pw' j w E1 E2 E3 P1 P2.
      * cbn in E1, E2. injection E1 as <-. injection E2 as <-. apply H1, kept_in. exists j. rewrite NL. auto.
      * cbn [nth_error] in E1, E2, P2. apply (H2 i c' pw' j w E1 E2 E3); [|exact P2].
        intros H. apply P1. destruct i; exact H.
    + intros H. split.
      * intros w Hw. apply kept_in in Hw. destruct Hw as (j & E & D1 & D2). rewrite NL in D2.
        apply (H 0%nat c pw j w); auto.
      * intros i c' pw' j w E1 E2 E3 P1 P2. apply (H (S i) c' pw' j w E1 E2 E3); [|exact P2].
        intros X. apply P1. destruct i; exact X.
Qed.

Section Left.
  Variables (pData : problem) (Ts : list R).
  Hypothesis WP : well_posed pData Ts.
  Let cs := contacts pData.
  Lemma wf_nth i c : nth_error cs i = Some c -> contact_wf c.
  Proof. intros H. apply (ph_ex pData Ts WP i c H). Qed.
  Lemma ncols_gen i c : nth_error cs i = Some c -> ncols c = gen_count c.
  Proof. intros H. unfold ncols, gen_count. rewrite (gens_php c (wf_nth i c H)). reflexivity. Qed.
  Lemma prev_lt_left i c : nth_error cs i = Some c -> (prev_lt (prev_count 0 cs i) c = true <-> left_to_prev cs i).
  Proof.
    intros Hc. unfold prev_lt, left_to_prev. rewrite Bool.andb_true_iff, !Nat.ltb_lt. destruct i as [|j]; cbn [prev_count].
    - split; [lia|]. intros (j & ? & ? & E & _). discriminate.
    - destruct (nth_error cs j) as [c0|] eqn:E0.
      + rewrite (ncols_gen _ _ E0), (ncols_gen _ _ Hc). split.
        * intros H. exists j, c0, c. auto.
        * intros (j' & c1 & c2 & E & E1 & E2 & H). injection E as <-. rewrite E0 in E1. rewrite Hc in E2.
          injection E1 as <-. injection E2 as <-. lia.
      + split; [lia|]. intros (j' & c1 & c2 & E & E1 & E2 & H). injection E as <-. congruence.
  Qed.
  Lemma next_le_left i c : nth_error cs i = Some c ->
    (match nth_error cs (S i) with Some c' => Nat.leb (ncols c') (ncols c) | None => false end = true <-> left_to_next cs i).
  Proof.
    intros Hc. unfold left_to_next. destruct (nth_error cs (S i)) as [c'|] eqn:E'.
    - rewrite Nat.leb_le, (ncols_gen _ _ E'), (ncols_gen _ _ Hc). split.
      + intros H. exists c, c'. auto.
      + intros (c1 & c2 & E1 & E2 & H). rewrite Hc in E1. injection E1 as <-. injection E2 as <-. exact H.
    - split; [discriminate|]. intros (c1 & c2 & E1 & E2 & H). discriminate.
  Qed.
End Left.

Lemma geX_zero : forall m b, geX (repeat 0 m) b <-> length b = m /\ Forall (Rle 0) b.
Proof.
  unfold geX. induction m as [|m IH]; intros b; cbn [repeat].
  - split; [intros H; inversion H; auto|]. intros [H _]. destruct b; [constructor|discriminate].
  - split.
    + intros H. inversion H as [|? y ? b' H1 H2]; subst. apply IH in H2. destruct H2. split; [cbn; lia|constructor; assumption].
    + intros [H1 H2]. destruct b as [|y b]; [discriminate|]. inversion H2; subst. constructor; [assumption|]. apply IH. split; [cbn in H1; lia|assumption].
Qed.
Lemma geX_inv n x beta : geX (repeat UNBOUNDED_DOWN 3 ++ repeat 0 n) (l3 x ++ beta) <->
  (UNBOUNDED_DOWN <= vx x /\ UNBOUNDED_DOWN <= vy x /\ UNBOUNDED_DOWN <= vz x) /\ length beta = n /\ Forall (Rle 0) beta.
Proof.
  unfold geX, l3. cbn [repeat app].
  assert (R0 : forall m b, Forall2 Rle (repeat 0 m) b <-> length b = m /\ Forall (Rle 0) b).
  { induction m as [|m IH]; intros b; cbn [repeat].
    - split; [intros H; inversion H; auto|]. intros [H _]. destruct b; [constructor|discriminate].
    - split.
      + intros H. inversion H as [|? y ? b' H1 H2]; subst. apply IH in H2. destruct H2. split; [cbn; lia|constructor; assumption].
      + intros [H1 H2]. destruct b as [|y b]; [discriminate|]. inversion H2; subst. constructor; [assumption|]. apply IH. split; [cbn in H1; lia|assumption]. }
  split.
  - intros H. inversion H as [|? ? ? ? A1 H1]; subst. inversion H1 as [|? ? ? ? A2 H2]; subst. inversion H2 as [|? ? ? ? A3 H3]; subst.
    apply R0 in H3. tauto.
  - intros ((A1 & A2 & A3) & B). repeat (constructor; [assumption|]). apply R0, B.
Qed.

Lemma geX_forces out x beta : geX (co_min out) (l3 x ++ beta) -> ge_forces out beta.
Proof.
  unfold ge_forces, geX, l3. cbn [app]. intros H. inversion H as [|? ? ? ? _ H1]; subst. inversion H1 as [|? ? ? ? _ H2]; subst.
  inversion H2 as [|? ? ? ? _ H3]; subst. exact H3.
Qed.
