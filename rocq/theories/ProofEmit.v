(** Filling of the discretised constraint matrix. *)
From Verif Require Import Vec ModelData ModelDispatch ModelUtils ModelRows ModelCom SpecTime ProofTime ProofRows.
Open Scope R_scope.

Lemma skipn_skipn' {A} : forall x y (l : list A), skipn x (skipn y l) = skipn (x + y) l.
Proof.
  intros x y; revert x; induction y as [|y IH]; intros x l; [rewrite Nat.add_0_r; reflexivity|].
  destruct l as [|a l]; [rewrite !skipn_nil; reflexivity|]. rewrite Nat.add_succ_r. cbn [skipn]. apply IH.
Qed.

Definition some_row (rb : vec3 * R) : vec3 * option R := (fst rb, Some (snd rb)).
Definition put (st : st_rows) (rows : list (vec3 * R)) : st_rows :=
  ((fst st + length rows)%nat,
   firstn (fst st) (snd st) ++ map some_row rows ++ skipn (fst st + length rows) (snd st)).
Definition fits (st : st_rows) (n : nat) : Prop := (fst st + n <= length (snd st))%nat.

Lemma put_len st rows : fits st (length rows) -> length (snd (put st rows)) = length (snd st).
Proof.
  unfold fits, put; cbn [snd fst]; intros H. rewrite !app_length, map_length, firstn_length, skipn_length. lia.
Qed.
Lemma put_fits st r1 n : fits st (length r1) -> fits st (length r1 + n) -> fits (put st r1) n.
Proof. intros H1 H2. unfold fits. rewrite (put_len _ _ H1). unfold fits in *. cbn. lia. Qed.
Lemma put_put st r1 r2 : fits st (length r1 + length r2) -> put (put st r1) r2 = put st (r1 ++ r2).
Proof.
  intros H. unfold fits in H. destruct st as [i buf]; cbn [fst snd] in *. unfold put; cbn [fst snd].
  rewrite app_length. f_equal; [lia|].
  assert (HA : length (firstn i buf ++ map some_row r1) = (i + length r1)%nat)
    by (rewrite app_length, map_length, firstn_length; lia).
  set (A := firstn i buf ++ map some_row r1) in *.
  replace (firstn i buf ++ map some_row r1 ++ skipn (i + length r1) buf)
    with (A ++ skipn (i + length r1) buf) by (unfold A; rewrite <- app_assoc; reflexivity).
  rewrite firstn_app, HA, Nat.sub_diag. cbn [firstn]. rewrite app_nil_r.
  rewrite (firstn_all2 A) by lia.
  rewrite skipn_app, HA. rewrite (skipn_all2 A) by lia. cbn [app].
  rewrite skipn_skipn'. unfold A. rewrite map_app, <- !app_assoc.
  replace (i + length r1 + length r2 - (i + length r1) + (i + length r1))%nat
    with (i + (length r1 + length r2))%nat by lia. reflexivity.
Qed.
Lemma put_nil st : fits st 0 -> put st [] = st.
Proof.
  intros H. unfold put. destruct st as [i buf]; cbn [fst snd length map app] in *.
  rewrite Nat.add_0_r, firstn_skipn. reflexivity.
Qed.

Lemma emit_ok rows st : fits st (length rows) -> emit rows st = Ok (put st rows).
Proof.
  intros H. unfold emit, write_rows. rewrite map_length. unfold fits in H.
  destruct (Nat.leb_spec (fst st + length rows) (length (snd st))); [|lia]. reflexivity.
Qed.

Lemma put_full rows : put (0%nat, repeat (vzero, None) (length rows)) rows = (length rows, map some_row rows).
Proof.
  unfold put; cbn [fst snd]. f_equal. cbn [firstn app]. rewrite skipn_all2, app_nil_r; [reflexivity|].
  rewrite repeat_length. lia.
Qed.
Lemma read_back rows : mapM (fun rb : vec3 * option R => b <- deref (snd rb) ;; Ok (fst rb, b)) (map some_row rows) = Ok rows.
Proof. induction rows as [|[r b] rows IH]; cbn; [reflexivity|]. rewrite IH. reflexivity. Qed.

(** Row list produced by a loop over steps grouped in phases: ordinary rows of
    the current phase for each step, and at the last step of a phase the rows
    of the next phase. *)
Section Rows.
  Context {A : Type}.
  Variables ford fsw : contact -> A -> list (vec3 * R).
  Fixpoint rows_of (conts : list contact) (bs : list (list A)) : list (vec3 * R) :=
    match conts, bs with
    | c :: conts', b :: bs' =>
        flat_map (ford c) b ++
        (match conts', rev b with c' :: _, a :: _ => fsw c' a | _, _ => [] end) ++
        rows_of conts' bs'
    | _, _ => []
    end.
End Rows.

Lemma last_split {A} (b : list A) : b <> [] -> exists b' a, b = b' ++ [a].
Proof. intros H. destruct (exists_last H) as (b' & a & E). eauto. Qed.

Lemma removelast_app_ne {A} (l l' : list A) : l' <> [] -> removelast (l ++ l') = l ++ removelast l'.
Proof. intros H. apply removelast_app, H. Qed.

Lemma ends_cons_ne {A} off (b : list A) bs : ends off (b :: bs) <> []. Proof. discriminate. Qed.

Lemma ends_removelast_cons {A} off (b b2 : list A) bs :
  removelast (ends off (b :: b2 :: bs)) =
  (off + Z.of_nat (length b) - 1)%Z :: removelast (ends (off + Z.of_nat (length b)) (b2 :: bs)).
Proof. reflexivity. Qed.
Lemma removelast_in {A} (l : list A) a : In a (removelast l) -> In a l.
Proof.
  induction l as [|b l IH]; [auto|]. cbn [removelast]. destruct l as [|c l]; [contradiction|].
  intros [->|H]; [left; reflexivity|right; apply IH, H].
Qed.

Section Stab.
  Variable pData : problem.
  Variable g0 : vec3.
  Variable mh : contact -> list (v6 * R).
  Variable php : contact -> cphase.
  Variable srows : vec3 -> list (v6 * R) -> wp6 -> list (vec3 * R).
  Hypothesis srows_ok : forall g m w, dynamicStabilityConstraints m g w = Ok (srows g m w).
  Hypothesis mh_ok : forall c, In c (contacts pData) -> updateH pData c = Ok (mh c).
  Hypothesis php_ok : forall c, In c (contacts pData) -> cd_phase c = Some (php c).

  Let ford c := srows g0 (mh c).
  Let fsw c := srows (cp_gravity (php c)) (mh c).

  Lemma assign_ok g m w st : fits st (length (srows g m w)) ->
    assignStabilityConstraintsForTimeStep m w g st = Ok (put st (srows g m w)).
  Proof.
    intros H. unfold assignStabilityConstraintsForTimeStep. rewrite srows_ok. cbn [bind]. apply emit_ok, H.
  Qed.

  Lemma stab_switches_none id w : forall sw s, ~ In id sw -> stab_switches pData id w sw s = Ok s.
  Proof.
    induction sw as [|k sw IH]; intros s Hn; [reflexivity|]. cbn [stab_switches].
    destruct (Z.eqb_spec id k) as [->|_]; [exfalso; apply Hn; left; reflexivity|].
    apply IH. intros H; apply Hn; right; exact H.
  Qed.
  Lemma stab_switches_one id w : forall sw1 sw2 i m st c, ~ In id sw1 -> ~ In id sw2 ->
    nth_error (contacts pData) (S i) = Some c -> fits st (length (fsw c w)) ->
    stab_switches pData id w (sw1 ++ id :: sw2) (i, m, st) = Ok (S i, mh c, put st (fsw c w)).
  Proof.
    induction sw1 as [|k sw1 IH]; intros sw2 i m st c H1 H2 Hc Hf.
    - cbn [app stab_switches]. rewrite Z.eqb_refl. rewrite (get_some _ _ _ Hc). cbn [bind].
      pose proof (nth_error_In _ _ Hc) as Hin. unfold switchContactPhase.
      rewrite (mh_ok _ Hin), (php_ok _ Hin). cbn [bind deref]. rewrite assign_ok by exact Hf. cbn [bind fst snd].
      apply stab_switches_none, H2.
    - cbn [app stab_switches]. destruct (Z.eqb_spec id k) as [->|_]; [exfalso; apply H1; left; reflexivity|].
      apply IH; try assumption. intros H; apply H1; right; exact H.
  Qed.

  (** steps at which nothing switches *)
  Lemma stab_plain sw m i : forall b id rest st,
    (forall k, (k < length b)%nat -> ~ In (id + Z.of_nat k)%Z (removelast sw)) ->
    fits st (length (flat_map (srows g0 m) b)) ->
    stab_loop pData g0 sw id (b ++ rest) (i, m, st) =
    stab_loop pData g0 sw (id + Z.of_nat (length b)) rest (i, m, put st (flat_map (srows g0 m) b)).
  Proof.
    induction b as [|w b IH]; intros id rest st Hno Hf.
    - cbn [app length flat_map]. rewrite put_nil, Z.add_0_r; [reflexivity|]. exact Hf.
    - cbn [app stab_loop flat_map] in *. rewrite app_length in Hf.
      rewrite assign_ok by (unfold fits in *; lia). cbn [bind].
      rewrite stab_switches_none.
      2:{ specialize (Hno 0%nat ltac:(cbn; lia)). rewrite Z.add_0_r in Hno. exact Hno. }
      cbn [bind]. rewrite IH.
      + rewrite put_put by exact Hf. f_equal. cbn [length]. lia.
      + intros k Hk. specialize (Hno (S k) ltac:(cbn; lia)).
        replace (id + 1 + Z.of_nat k)%Z with (id + Z.of_nat (S k))%Z by lia. exact Hno.
      + apply put_fits; [unfold fits in *; lia|exact Hf].
  Qed.

  Lemma stab_loop_ok : forall bs conts pre done off st,
    length conts = length bs -> bs <> [] -> Forall (fun b => b <> []) bs ->
    contacts pData = pre ++ conts -> (forall z, In z done -> (z < off)%Z) ->
    fits st (length (rows_of ford fsw conts bs)) ->
    exists i m, stab_loop pData g0 (done ++ ends off bs) off (concat bs)
        (length pre, mh (hd (Contact None [] [] [] []) conts), st) =
      Ok (i, m, put st (rows_of ford fsw conts bs)).
  Proof.
    induction bs as [|b bs IH]; intros conts pre done off st HL Hne HF HC Hdone Hf; [congruence|].
    destruct conts as [|c conts]; [discriminate|]. cbn [hd].
    inversion HF as [|? ? Hb HF']; subst. destruct (last_split b Hb) as (b' & w & Eb).
    assert (Hlenb : length b = S (length b')) by (rewrite Eb, app_length; cbn; lia).
    destruct bs as [|b2 bs].
    - (* last phase: no switch left *)
      destruct conts as [|c2 conts]; [|discriminate]. cbn [concat rows_of] in *. rewrite !app_nil_r in *.
      pose proof (stab_plain (done ++ ends off [b]) (mh c) (length pre) b off [] st) as HP.
      rewrite app_nil_r in HP. rewrite HP; clear HP.
      + cbn [stab_loop]. eexists _, _. reflexivity.
      + intros k Hk Hin. rewrite removelast_app_ne in Hin by discriminate. cbn in Hin. rewrite app_nil_r in Hin.
        apply Hdone in Hin. lia.
      + exact Hf.
    - destruct conts as [|c2 conts]; [discriminate|].
      set (sw := done ++ ends off (b :: b2 :: bs)).
      assert (Hsw : removelast sw = done ++ (off + Z.of_nat (length b) - 1)%Z ::
                      removelast (ends (off + Z.of_nat (length b)) (b2 :: bs))).
      { unfold sw. rewrite removelast_app_ne by discriminate. rewrite ends_removelast_cons. reflexivity. }
      assert (Hge : forall z, In z (removelast (ends (off + Z.of_nat (length b)) (b2 :: bs))) ->
                     (off + Z.of_nat (length b) <= z)%Z).
      { intros z Hz. apply removelast_in in Hz. eapply ends_ge; eauto. }
      assert (HCc : concat (b :: b2 :: bs) = b' ++ w :: concat (b2 :: bs)).
      { cbn [concat]. rewrite Eb, <- app_assoc. reflexivity. }
      rewrite HCc.
      assert (HR : rows_of ford fsw (c :: c2 :: conts) (b :: b2 :: bs) =
                   flat_map (ford c) b' ++ ford c w ++ fsw c2 w ++ rows_of ford fsw (c2 :: conts) (b2 :: bs)).
      { cbn [rows_of]. rewrite Eb, rev_app_distr, flat_map_app. cbn [rev app flat_map]. rewrite app_nil_r, <- !app_assoc. reflexivity. }
      rewrite HR in Hf |- *. rewrite !app_length in Hf.
      rewrite stab_plain.
      2:{ intros k Hk Hin. rewrite Hsw in Hin. apply in_app_or in Hin. destruct Hin as [Hin|[Hin|Hin]].
          - apply Hdone in Hin. lia.
          - lia.
          - apply Hge in Hin. lia. }
      2:{ unfold fits, ford in *. lia. }
      fold (ford c). set (st1 := put st (flat_map (ford c) b')).
      assert (Hf1 : fits st1 (length (ford c w) + (length (fsw c2 w) + length (rows_of ford fsw (c2 :: conts) (b2 :: bs))))%nat).
      { apply put_fits; [unfold fits in *; lia|exact Hf]. }
      cbn [stab_loop]. rewrite assign_ok by (unfold fits, ford in *; lia). fold (ford c w). cbn [bind].
      set (st2 := put st1 (ford c w)).
      assert (Hf2 : fits st2 (length (fsw c2 w) + length (rows_of ford fsw (c2 :: conts) (b2 :: bs)))%nat).
      { apply put_fits; [unfold fits in *; lia|exact Hf1]. }
      fold sw. rewrite Hsw.
      replace (off + Z.of_nat (length b'))%Z with (off + Z.of_nat (length b) - 1)%Z by lia.
      rewrite (stab_switches_one _ w done _ (length pre) _ st2 c2).
      2:{ intros Hin. apply Hdone in Hin. lia. }
      2:{ intros Hin. apply Hge in Hin. lia. }
      2:{ rewrite HC, nth_error_app2 by lia. replace (S (length pre) - length pre)%nat with 1%nat by lia. reflexivity. }
      2:{ unfold fits in *. lia. }
      cbn [bind].
      destruct (IH (c2 :: conts) (pre ++ [c]) (done ++ [(off + Z.of_nat (length b) - 1)%Z])
                  (off + Z.of_nat (length b))%Z (put st2 (fsw c2 w))) as (i & m & Hrun).
      + cbn in *. lia.
      + discriminate.
      + exact HF'.
      + rewrite <- app_assoc. exact HC.
      + intros z Hin. apply in_app_or in Hin. destruct Hin as [Hin|[<-|[]]]; [apply Hdone in Hin; lia|lia].
      + apply put_fits; [unfold fits in *; lia|exact Hf2].
      + exists i, m. cbn [hd] in Hrun. rewrite app_length in Hrun. cbn [length] in Hrun.
        rewrite Nat.add_1_r in Hrun.
        replace (off + Z.of_nat (length b) - 1 + 1)%Z with (off + Z.of_nat (length b))%Z by lia.
        assert (Hsw' : sw = (done ++ [(off + Z.of_nat (length b) - 1)%Z]) ++ ends (off + Z.of_nat (length b)) (b2 :: bs)).
        { unfold sw. rewrite <- app_assoc. reflexivity. }
        rewrite Hsw'. rewrite Hrun. f_equal. f_equal.
        rewrite put_put by exact Hf2. unfold st2. rewrite put_put.
        2:{ rewrite app_length. exact Hf1. }
        unfold st1. rewrite put_put; [reflexivity|]. rewrite !app_length. exact Hf.
  Qed.
End Stab.

Lemma kin_rows_len f : forall kin Kin l, kin_rows f Kin kin = Ok l -> length l = length kin.
Proof.
  induction kin as [|k kin IH]; intros Kin l H.
  - destruct Kin; cbn in H; inversion H; reflexivity.
  - destruct Kin as [|K Kin]; [discriminate|]. cbn [kin_rows] in H.
    destruct (kin_rows f Kin kin) as [rs| |] eqn:E; try discriminate. cbn [bind] in H. inversion H; subst.
    cbn. rewrite (IH _ _ E). reflexivity.
Qed.

Section Kin.
  Variable pData : problem.
  Variable krows : contact -> coefs -> list (vec3 * R).
  Hypothesis krows_ok : forall c co, In c (contacts pData) ->
    kin_rows (kin_row co) (cd_Kin c) (cd_kin c) = Ok (krows c co).

  Lemma krows_len c co : In c (contacts pData) -> length (krows c co) = length (cd_kin c).
  Proof. intros Hin. exact (kin_rows_len _ _ _ _ (krows_ok c co Hin)). Qed.

  Lemma kin_emit_ok c co st : In c (contacts pData) -> fits st (length (krows c co)) ->
    kin_emit c co st = Ok (put st (krows c co)).
  Proof.
    intros Hin Hf. unfold kin_emit. pose proof (krows_len c co Hin) as HL.
    destruct (Nat.ltb_spec 0 (length (cd_kin c))) as [H|H].
    - rewrite krows_ok by exact Hin. cbn [bind]. apply emit_ok, Hf.
    - destruct (krows c co); [|cbn in HL; lia]. rewrite put_nil; [reflexivity|]. exact Hf.
  Qed.

  Lemma kin_switches_none id co : forall sw i s, ~ In id sw -> kin_switches pData id co i sw s = Ok s.
  Proof.
    induction sw as [|k sw IH]; intros i s Hn; [reflexivity|]. cbn [kin_switches].
    destruct (Z.eqb_spec id k) as [->|_]; [exfalso; apply Hn; left; reflexivity|].
    apply IH. intros H; apply Hn; right; exact H.
  Qed.
  Lemma kin_switches_one id co : forall sw1 sw2 i0 i st c, ~ In id sw1 -> ~ In id sw2 ->
    nth_error (contacts pData) (i0 + length sw1 + 1) = Some c -> fits st (length (krows c co)) ->
    kin_switches pData id co i0 (sw1 ++ id :: sw2) (i, st) =
    Ok ((i0 + length sw1 + 1)%nat, put st (krows c co)).
  Proof.
    induction sw1 as [|k sw1 IH]; intros sw2 i0 i st c H1 H2 Hc Hf.
    - cbn [app kin_switches length] in *. rewrite Nat.add_0_r in *. rewrite Z.eqb_refl, (get_some _ _ _ Hc).
      cbn [bind snd].
      rewrite kin_emit_ok by (try exact Hf; eapply nth_error_In; eauto). cbn [bind].
      apply kin_switches_none, H2.
    - cbn [app kin_switches length] in *. destruct (Z.eqb_spec id k) as [->|_]; [exfalso; apply H1; left; reflexivity|].
      replace (i0 + S (length sw1) + 1)%nat with (S i0 + length sw1 + 1)%nat in * by lia.
      apply IH; try assumption. intros H; apply H1; right; exact H.
  Qed.

  Lemma kin_plain sw i c : nth_error (contacts pData) i = Some c -> forall b id rest st,
    (forall k, (k < length b)%nat -> ~ In (id + Z.of_nat k)%Z (removelast sw)) ->
    fits st (length (flat_map (krows c) b)) ->
    kin_loop pData sw id (b ++ rest) (i, st) =
    kin_loop pData sw (id + Z.of_nat (length b)) rest (i, put st (flat_map (krows c) b)).
  Proof.
    intros Hc. induction b as [|w b IH]; intros id rest st Hno Hf.
    - cbn [app length flat_map]. rewrite put_nil, Z.add_0_r; [reflexivity|]. exact Hf.
    - cbn [app kin_loop flat_map fst snd] in *. rewrite app_length in Hf. rewrite (get_some _ _ _ Hc). cbn [bind].
      rewrite kin_emit_ok by (try (eapply nth_error_In; eassumption); unfold fits in *; lia). cbn [bind].
      rewrite kin_switches_none.
      2:{ specialize (Hno 0%nat ltac:(cbn; lia)). rewrite Z.add_0_r in Hno. exact Hno. }
      cbn [bind]. rewrite IH.
      + rewrite put_put by exact Hf. f_equal. cbn [length]. lia.
      + intros k Hk. specialize (Hno (S k) ltac:(cbn; lia)).
        replace (id + 1 + Z.of_nat k)%Z with (id + Z.of_nat (S k))%Z by lia. exact Hno.
      + apply put_fits; [unfold fits in *; lia|exact Hf].
  Qed.

  Lemma kin_loop_ok : forall bs conts pre done off st,
    length conts = length bs -> bs <> [] -> Forall (fun b => b <> []) bs ->
    contacts pData = pre ++ conts -> (forall z, In z done -> (z < off)%Z) -> length done = length pre ->
    fits st (length (rows_of krows krows conts bs)) ->
    exists i, kin_loop pData (done ++ ends off bs) off (concat bs) (length pre, st) =
      Ok (i, put st (rows_of krows krows conts bs)).
  Proof.
    induction bs as [|b bs IH]; intros conts pre done off st HL Hne HF HC Hdone Hdl Hf; [congruence|].
    destruct conts as [|c conts]; [discriminate|].
    assert (Hcur : nth_error (contacts pData) (length pre) = Some c).
    { rewrite HC, nth_error_app2, Nat.sub_diag by lia. reflexivity. }
    inversion HF as [|? ? Hb HF']; subst. destruct (last_split b Hb) as (b' & w & Eb).
    assert (Hlenb : length b = S (length b')) by (rewrite Eb, app_length; cbn; lia).
    destruct bs as [|b2 bs].
    - destruct conts as [|c2 conts]; [|discriminate]. cbn [concat rows_of] in *. rewrite !app_nil_r in *.
      pose proof (kin_plain (done ++ ends off [b]) _ c Hcur b off [] st) as HP.
      rewrite app_nil_r in HP. rewrite HP; clear HP.
      + cbn [kin_loop]. eexists. reflexivity.
      + intros k Hk Hin. rewrite removelast_app_ne in Hin by discriminate. cbn in Hin. rewrite app_nil_r in Hin.
        apply Hdone in Hin. lia.
      + exact Hf.
    - destruct conts as [|c2 conts]; [discriminate|].
      set (sw := done ++ ends off (b :: b2 :: bs)).
      assert (Hsw : removelast sw = done ++ (off + Z.of_nat (length b) - 1)%Z ::
                      removelast (ends (off + Z.of_nat (length b)) (b2 :: bs))).
      { unfold sw. rewrite removelast_app_ne by discriminate. rewrite ends_removelast_cons. reflexivity. }
      assert (Hge : forall z, In z (removelast (ends (off + Z.of_nat (length b)) (b2 :: bs))) ->
                     (off + Z.of_nat (length b) <= z)%Z).
      { intros z Hz. apply removelast_in in Hz. eapply ends_ge; eauto. }
      assert (HCc : concat (b :: b2 :: bs) = b' ++ w :: concat (b2 :: bs)).
      { cbn [concat]. rewrite Eb, <- app_assoc. reflexivity. }
      rewrite HCc.
      assert (HR : rows_of krows krows (c :: c2 :: conts) (b :: b2 :: bs) =
                   flat_map (krows c) b' ++ krows c w ++ krows c2 w ++ rows_of krows krows (c2 :: conts) (b2 :: bs)).
      { cbn [rows_of]. rewrite Eb, rev_app_distr, flat_map_app. cbn [rev app flat_map]. rewrite app_nil_r, <- !app_assoc. reflexivity. }
      rewrite HR in Hf |- *. rewrite !app_length in Hf.
      rewrite (kin_plain _ _ c Hcur).
      2:{ intros k Hk Hin. rewrite Hsw in Hin. apply in_app_or in Hin. destruct Hin as [Hin|[Hin|Hin]].
          - apply Hdone in Hin. lia.
          - lia.
          - apply Hge in Hin. lia. }
      2:{ unfold fits in *. lia. }
      set (st1 := put st (flat_map (krows c) b')).
      assert (Hf1 : fits st1 (length (krows c w) + (length (krows c2 w) + length (rows_of krows krows (c2 :: conts) (b2 :: bs))))%nat).
      { apply put_fits; [unfold fits in *; lia|exact Hf]. }
      cbn [kin_loop fst snd]. rewrite (get_some _ _ _ Hcur). cbn [bind].
      rewrite kin_emit_ok by (try (eapply nth_error_In; eassumption); unfold fits in *; lia). cbn [bind].
      set (st2 := put st1 (krows c w)).
      assert (Hf2 : fits st2 (length (krows c2 w) + length (rows_of krows krows (c2 :: conts) (b2 :: bs)))%nat).
      { apply put_fits; [unfold fits in *; lia|exact Hf1]. }
      fold sw. rewrite Hsw.
      replace (off + Z.of_nat (length b'))%Z with (off + Z.of_nat (length b) - 1)%Z by lia.
      rewrite (kin_switches_one _ w done _ 0 (length pre) st2 c2).
      2:{ intros Hin. apply Hdone in Hin. lia. }
      2:{ intros Hin. apply Hge in Hin. lia. }
      2:{ rewrite HC, nth_error_app2 by lia. replace (0 + length done + 1 - length pre)%nat with 1%nat by lia. reflexivity. }
      2:{ unfold fits in *. lia. }
      cbn [bind].
      destruct (IH (c2 :: conts) (pre ++ [c]) (done ++ [(off + Z.of_nat (length b) - 1)%Z])
                  (off + Z.of_nat (length b))%Z (put st2 (krows c2 w))) as (i & Hrun).
      + cbn in *. lia.
      + discriminate.
      + exact HF'.
      + rewrite <- app_assoc. exact HC.
      + intros z Hin. apply in_app_or in Hin. destruct Hin as [Hin|[<-|[]]]; [apply Hdone in Hin; lia|lia].
      + rewrite !app_length. cbn. lia.
      + apply put_fits; [unfold fits in *; lia|exact Hf2].
      + exists i. rewrite app_length in Hrun. cbn [length] in Hrun.
        replace (0 + length done + 1)%nat with (length pre + 1)%nat by lia.
        replace (off + Z.of_nat (length b) - 1 + 1)%Z with (off + Z.of_nat (length b))%Z by lia.
        assert (Hsw' : sw = (done ++ [(off + Z.of_nat (length b) - 1)%Z]) ++ ends (off + Z.of_nat (length b)) (b2 :: bs)).
        { unfold sw. rewrite <- app_assoc. reflexivity. }
        rewrite Hsw'. rewrite Hrun. f_equal. f_equal.
        rewrite put_put by exact Hf2. unfold st2. rewrite put_put.
        2:{ rewrite app_length. exact Hf1. }
        unfold st1. rewrite put_put; [reflexivity|]. rewrite !app_length. exact Hf.
  Qed.
End Kin.

Lemma acc_loop_ok amax : forall cs st,
  let rows := flat_map (fun co => acc_rows (mscal (fst co) mid) (snd co) amax) cs in
  fits st (length rows) -> acc_loop amax cs st = Ok (put st rows).
Proof.
  induction cs as [|co cs IH]; intros st rows Hf; subst rows.
  - cbn. rewrite put_nil; [reflexivity|]. exact Hf.
  - cbn [flat_map acc_loop] in *. rewrite app_length in Hf.
    rewrite emit_ok by (unfold fits in *; lia). cbn [bind]. rewrite IH.
    + rewrite put_put by exact Hf. reflexivity.
    + apply put_fits; [unfold fits in *; lia|exact Hf].
Qed.

(** counting *)
Fixpoint count_rows {A} (len : contact -> nat) (first : bool) (conts : list contact) (bs : list (list A)) : nat :=
  match conts, bs with
  | c :: conts', b :: bs' => (len c * (length b + if first then 0 else 1) + count_rows len false conts' bs')%nat
  | _, _ => 0%nat
  end.
Lemma flat_map_len {A B} (f : A -> list B) n l : (forall a, In a l -> length (f a) = n) ->
  length (flat_map f l) = (n * length l)%nat.
Proof.
  induction l as [|a l IH]; intros H; cbn; [lia|]. rewrite app_length, H, IH; [lia| |left; reflexivity].
  intros x Hx. apply H. right; exact Hx.
Qed.
Lemma rows_of_len {A} (ford fsw : contact -> A -> list (vec3 * R)) len : forall conts bs,
  (forall c a, In c conts -> length (ford c a) = len c) -> (forall c a, In c conts -> length (fsw c a) = len c) ->
  length conts = length bs -> Forall (fun b => b <> []) bs ->
  length (rows_of ford fsw conts bs) = count_rows len true conts bs.
Proof.
  assert (H : forall conts bs,
  (forall c a, In c conts -> length (ford c a) = len c) -> (forall c a, In c conts -> length (fsw c a) = len c) ->
  length conts = length bs -> Forall (fun b => b <> []) bs ->
  length (rows_of ford fsw conts bs) = count_rows len true conts bs /\
  match conts with
   | c :: _ => count_rows len false conts bs = (len c + count_rows len true conts bs)%nat
   | [] => True end).
  { induction conts as [|c conts IH]; intros [|b bs] H1 H2 HL HF; try discriminate; [split; [reflexivity|exact I]|].
    inversion HF as [|? ? Hb HF']; subst.
    destruct (IH bs) as [E1 E2]; try assumption.
    { intros; apply H1; right; assumption. } { intros; apply H2; right; assumption. } { cbn in HL; lia. }
    split.
    - cbn [rows_of count_rows]. rewrite !app_length, E1. rewrite (flat_map_len _ (len c)).
      2:{ intros a _. apply H1. left; reflexivity. }
      destruct conts as [|c2 conts].
      + destruct bs; [|discriminate]. cbn. lia.
      + destruct (last_split b Hb) as (b' & a & ->). rewrite rev_app_distr. cbn [rev app].
        rewrite H2 by (right; left; reflexivity). cbn [count_rows] in *. lia.
    - cbn [count_rows]. lia. }
  intros conts bs H1 H2 HL HF. exact (proj1 (H conts bs H1 H2 HL HF)).
Qed.

Lemma num_ineq_loop_ok pData {A} : forall (bs : list (list A)) conts pre done off stab kin,
  length conts = length bs -> contacts pData = pre ++ conts ->
  Forall (fun c => cd_phase c <> None) conts -> length done = length pre ->
  num_ineq_loop pData (done ++ ends off bs) (length bs) (length pre) off stab kin =
  Ok ((stab + Z.of_nat (count_rows (fun c => match cd_phase c with Some ph => length (cp_poly ph) | None => 0%nat end)
                        (Nat.eqb (length pre) 0) conts bs))%Z,
      (kin + Z.of_nat (count_rows (fun c => length (cd_kin c)) (Nat.eqb (length pre) 0) conts bs))%Z).
Proof.
  induction bs as [|b bs IH]; intros [|c conts] pre done off stab kin HL HC HF Hd; try discriminate.
  - cbn. rewrite !Z.add_0_r. reflexivity.
  - inversion HF as [|? ? Hc HF']; subst. cbn [length num_ineq_loop].
    rewrite HC. unfold get. rewrite nth_error_app2, Nat.sub_diag by lia. cbn [nth_error bind].
    destruct (cd_phase c) as [ph|] eqn:Eph; [|congruence]. cbn [deref bind].
    rewrite nth_error_app2, Hd, Nat.sub_diag by lia. cbn [ends nth_error bind].
    specialize (IH conts (pre ++ [c]) (done ++ [(off + Z.of_nat (length b) - 1)%Z]) (off + Z.of_nat (length b))%Z).
    assert (HS : length (pre ++ [c]) = S (length pre)) by (rewrite app_length; cbn; lia).
    assert (HS2 : length (done ++ [(off + Z.of_nat (length b) - 1)%Z]) = S (length done)) by (rewrite app_length; cbn; lia).
    rewrite HS, HS2 in IH. rewrite <- !app_assoc in IH. cbn [app] in IH.
    replace (off + Z.of_nat (length b) - 1 + 1)%Z with (off + Z.of_nat (length b))%Z by lia.
    rewrite IH; [|cbn in HL; lia|exact HC|exact HF'|lia].
    f_equal. cbn [count_rows]. rewrite Eph.
    replace (Nat.eqb (S (length pre)) 0) with false by reflexivity.
    destruct (Nat.ltb_spec 0 (length pre)) as [Hp|Hp].
    + replace (Nat.eqb (length pre) 0) with false by (symmetry; apply Nat.eqb_neq; lia). f_equal; nia.
    + replace (Nat.eqb (length pre) 0) with true by (symmetry; apply Nat.eqb_eq; lia). f_equal; nia.
Qed.

Lemma ends_last_val {A} : forall (bs : list (list A)) off d, bs <> [] ->
  last (ends off bs) d = (off + Z.of_nat (length (concat bs)) - 1)%Z.
Proof.
  induction bs as [|b bs IH]; intros off d Hne; [congruence|]. destruct bs as [|b2 bs].
  - cbn. rewrite app_nil_r. reflexivity.
  - change (last (ends off (b :: b2 :: bs)) d) with (last (ends (off + Z.of_nat (length b)) (b2 :: bs)) d).
    rewrite IH by discriminate. cbn [concat]. rewrite !app_length. lia.
Qed.
