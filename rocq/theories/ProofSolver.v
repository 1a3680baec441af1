(** Hand-over to the solvers. *)
From Verif Require Import Vec ModelData ModelRows ModelCont ModelSolver SpecWp SpecSolver ProofCom.
Open Scope R_scope.

Lemma f2_len {A B} (P : A -> B -> Prop) l m : Forall2 P l m -> length l = length m.
Proof. induction 1; cbn; congruence. Qed.
Lemma write_at {A} (l1 l2 l3 b : list A) : length l2 = length b ->
  write_rows (l1 ++ l2 ++ l3) (length l1) b = Ok (l1 ++ b ++ l3).
Proof.
  intros E. unfold write_rows. destruct (Nat.leb_spec (length l1 + length b) (length (l1 ++ l2 ++ l3))) as [H|H];
    [|rewrite !app_length in H; lia].
  f_equal. rewrite firstn_app, firstn_all, Nat.sub_diag. cbn [firstn]. rewrite app_nil_r. f_equal. f_equal.
  rewrite <- E, app_assoc, skipn_app. rewrite app_length, skipn_all2 by (rewrite app_length; lia).
  replace (length l1 + length l2 - (length l1 + length l2))%nat with 0%nat by lia. reflexivity.
Qed.
Lemma write_all {A} (l b : list A) : length l = length b -> write_rows l 0 b = Ok b.
Proof. intros E. pose proof (write_at [] l [] b E) as H. cbn in H. rewrite !app_nil_r in H. exact H. Qed.

Lemma zipM_rows {A} : forall (M2 B : list (list A)), Forall2 (fun r b => length r = length b) M2 B ->
  zipM (fun row b => write_rows row 0 b) M2 B = Ok B.
Proof. induction 1 as [|r b M2 B E _ IH]; [reflexivity|]. cbn. rewrite (write_all _ _ E). cbn. rewrite IH. reflexivity. Qed.
Lemma write_block_at {A} (M1 M2 M3 B : list (list A)) : Forall2 (fun r b => length r = length b) M2 B ->
  write_block (M1 ++ M2 ++ M3) (length M1) 0 B = Ok (M1 ++ B ++ M3).
Proof.
  intros F. pose proof (f2_len _ _ _ F) as E. unfold write_block.
  destruct (Nat.leb_spec (length M1 + length B) (length (M1 ++ M2 ++ M3))) as [H|H]; [|rewrite !app_length in H; lia].
  rewrite skipn_app, skipn_all, Nat.sub_diag. cbn [skipn app].
  rewrite firstn_app. replace (length B - length M2)%nat with 0%nat by lia. cbn [firstn]. rewrite app_nil_r.
  rewrite firstn_all2 by lia. rewrite (zipM_rows _ _ F). cbn [bind]. f_equal.
  rewrite firstn_app, firstn_all, Nat.sub_diag. cbn [firstn]. rewrite app_nil_r. f_equal. f_equal.
  rewrite <- E, app_assoc, skipn_app. rewrite app_length, skipn_all2 by (rewrite app_length; lia).
  replace (length M1 + length M2 - (length M1 + length M2))%nat with 0%nat by lia. reflexivity.
Qed.

Lemma read_vec_some v : read_vec (map Some v) = Ok v.
Proof. unfold read_vec. induction v as [|a v IH]; [reflexivity|]. cbn. rewrite IH. reflexivity. Qed.
Lemma read_mat_some M : read_mat (some_mat M) = Ok M.
Proof. unfold read_mat, some_mat. induction M as [|a M IH]; [reflexivity|]. cbn [map mapM]. rewrite read_vec_some. cbn [bind]. rewrite IH. reflexivity. Qed.

Lemma identity_len n k : length (identity n k) = n.
Proof. unfold identity. rewrite map_length, seq_length. reflexivity. Qed.
Lemma identity_wf n k : Forall (fun r => length r = n) (identity n k).
Proof. unfold identity. apply Forall_forall. intros r H. apply in_map_iff in H. destruct H as (i & <- & _). unfold identity_row. rewrite map_length, seq_length. reflexivity. Qed.

Lemma none_rows (c : nat) (rows : list (list R)) : Forall (fun r => length r = c) rows ->
  Forall2 (fun r b => length r = length b) (repeat (repeat (@None R) c) (length rows)) (some_mat rows).
Proof. induction 1 as [|r rows E _ IH]; [constructor|]. cbn. constructor; [|exact IH]. rewrite repeat_length, map_length. auto. Qed.

Lemma addMin_ok A b minB : mx_wf A -> minB <> [] -> length minB = mx_cols A ->
  addConstraintMinBoundQuadProg minB (A, b) = Ok (MX (mx_cols A) (mx_rows A ++ identity (mx_cols A) (-1)), b ++ map Ropp minB).
Proof.
  intros WF NE L. unfold addConstraintMinBoundQuadProg. destruct minB as [|m0 mb] eqn:Em; [congruence|]. rewrite <- Em in *. clear Em m0 mb NE.
  cbn [fst snd]. set (c := mx_cols A) in *. set (rows := mx_rows A) in *.
  rewrite repeat_app.
  pose proof (write_block_at [] (repeat (repeat None c) (length rows)) (repeat (repeat None c) c) (some_mat rows) (none_rows c rows WF)) as H1.
  cbn [app length] in H1. rewrite H1. clear H1. cbn [bind].
  assert (Hi : Forall2 (fun r b0 => length r = length b0) (repeat (repeat (@None R) c) c) (some_mat (identity c (-1)))).
  { pose proof (none_rows c (identity c (-1)) (identity_wf c (-1))) as H. rewrite identity_len in H. exact H. }
  pose proof (write_block_at (some_mat rows) _ [] _ Hi) as H2. rewrite !app_nil_r in H2.
  unfold some_mat at 2 in H2. rewrite map_length in H2. fold (some_mat rows) in H2. rewrite H2. clear H2 Hi. cbn [bind].
  rewrite repeat_app.
  pose proof (write_at [] (repeat None (length b)) (repeat None c) (map (@Some R) b)) as H3. cbn [app length] in H3.
  rewrite H3 by (rewrite repeat_length, map_length; reflexivity). clear H3. cbn [bind].
  rewrite L, Nat.eqb_refl. cbn [negb].
  pose proof (write_at (map (@Some R) b) (repeat None c) [] (map (fun b0 => Some (- b0)) minB)) as H4.
  rewrite !app_nil_r, (map_length (@Some R) b) in H4. rewrite H4 by (rewrite repeat_length, map_length; auto). clear H4. cbn [bind].
  unfold some_mat. rewrite <- map_app. fold (some_mat (rows ++ identity c (-1))). rewrite read_mat_some. cbn [bind].
  replace (map (fun b0 => Some (- b0)) minB) with (map (@Some R) (map Ropp minB)) by (rewrite map_map; reflexivity).
  rewrite <- map_app, read_vec_some. reflexivity.
Qed.

(** rows of the identity *)
Lemma rdot_zero_l : forall n x, rdot (repeat 0 n) x = 0.
Proof. induction n as [|n IH]; intros [|a x]; cbn; try reflexivity. rewrite IH. lra. Qed.
Lemma identity_row_rdot k : forall n s x i, length x = n -> (i < n)%nat ->
  rdot (map (fun j => if Nat.eqb (s + i) j then k else 0) (seq s n)) x = k * nth i x 0.
Proof.
  induction n as [|n IH]; intros s x i L Hi; [lia|]. destruct x as [|a x]; [discriminate|]. cbn [seq map rdot].
  destruct i as [|i].
  - rewrite Nat.add_0_r, Nat.eqb_refl. cbn [nth].
    replace (map (fun j => if Nat.eqb s j then k else 0) (seq (S s) n)) with (repeat 0 n).
    + rewrite rdot_zero_l. lra.
    + rewrite <- (seq_length n (S s)) at 1. generalize (seq (S s) n) (fun j => proj1 (in_seq n (S s) j)). intros l Hl.
      induction l as [|j l IHl]; [reflexivity|]. cbn. destruct (Nat.eqb_spec s j) as [->|_].
      * specialize (Hl j (or_introl eq_refl)). lia.
      * f_equal. apply IHl. intros j' Hj'. apply Hl. now right.
  - destruct (Nat.eqb_spec (s + S i) s); [lia|]. cbn [nth]. cbn in L.
    rewrite <- (IH (S s) x i) by lia. replace (s + S i)%nat with (S s + i)%nat by lia. lra.
Qed.

Lemma forall2_split {A B} (P : A -> B -> Prop) l1 l2 m1 m2 : length l1 = length m1 ->
  (Forall2 P (l1 ++ l2) (m1 ++ m2) <-> Forall2 P l1 m1 /\ Forall2 P l2 m2).
Proof.
  intros E. split.
  - revert m1 E. induction l1 as [|a l1 IH]; intros [|b m1] E H; try discriminate; [split; [constructor|exact H]|].
    cbn in H. inversion H; subst. destruct (IH m1 ltac:(cbn in E; lia) H5). split; [constructor; assumption|assumption].
  - intros [H1 H2]. apply Forall2_app; assumption.
Qed.
Lemma forall2_nth {A B} (P : A -> B -> Prop) (l : list A) (m : list B) :
  Forall2 P l m <-> length l = length m /\ forall i a b, nth_error l i = Some a -> nth_error m i = Some b -> P a b.
Proof.
  split.
  - induction 1 as [|a b l m H _ [IH1 IH2]]; [split; [reflexivity|intros [|i] ? ? H; discriminate]|].
    split; [cbn; congruence|]. intros [|i] a' b' Ha Hb; cbn in *; [congruence|eauto].
  - intros [E H]. revert m E H. induction l as [|a l IH]; intros [|b m] E H; try discriminate; constructor.
    + apply (H 0%nat); reflexivity.
    + apply IH; [cbn in E; lia|]. intros i. apply (H (S i)).
Qed.
Lemma forall2_map {A B C D} (P : C -> D -> Prop) (f : A -> C) (g : B -> D) l m :
  Forall2 P (map f l) (map g m) <-> Forall2 (fun a b => P (f a) (g b)) l m.
Proof.
  split.
  - revert m. induction l as [|a l IH]; intros [|b m] H; inversion H; subst; constructor; auto.
  - induction 1; constructor; auto.
Qed.
Lemma forall2_iff {A B} (P Q : A -> B -> Prop) l m : (forall a b, P a b <-> Q a b) -> (Forall2 P l m <-> Forall2 Q l m).
Proof. intros H. split; induction 1; constructor; firstorder. Qed.
Lemma rdot_opp : forall r x, rdot (map Ropp r) x = - rdot r x.
Proof. induction r as [|a r IH]; intros [|b x]; cbn; try lra. rewrite IH. lra. Qed.

Lemma identity_nth n k i r : nth_error (identity n k) i = Some r -> (i < n)%nat /\ r = identity_row n i k.
Proof.
  unfold identity. intros H. assert (Hi : (i < n)%nat).
  { rewrite <- (seq_length n 0), <- (map_length (fun i => identity_row n i k)). apply nth_error_Some. congruence. }
  split; [exact Hi|]. rewrite nth_error_map in H.
  rewrite (nth_error_nth' _ 0%nat) in H by (rewrite seq_length; exact Hi).
  rewrite seq_nth in H by exact Hi. cbn in H. congruence.
Qed.
Lemma identity_le n k x v : length x = n -> length v = n ->
  (Forall2 (fun r c => 0 <= rdot (map Ropp r) x + c) (identity n k) v <->
   Forall2 (fun xi c => k * xi <= c) x v).
Proof.
  intros Lx Lv. rewrite !forall2_nth, identity_len, Lx, Lv.
  split; intros [_ H]; (split; [reflexivity|]); intros i a b Ha Hb.
  - assert (Hi : (i < n)%nat) by (rewrite <- Lx; apply nth_error_Some; congruence).
    specialize (H i (identity_row n i k) b). rewrite rdot_opp in H. unfold identity_row in H.
    pose proof (identity_row_rdot k n 0 x i Lx Hi) as E. cbn [Nat.add] in E. rewrite E in H.
    rewrite (nth_error_nth _ _ _ Ha) in H. assert (0 <= - (k * a) + b); [|lra]. apply H; [|exact Hb].
    unfold identity. rewrite nth_error_map, (nth_error_nth' _ 0%nat) by (rewrite seq_length; exact Hi).
    rewrite seq_nth by exact Hi. reflexivity.
  - destruct (identity_nth _ _ _ _ Ha) as [Hi ->]. rewrite rdot_opp. unfold identity_row.
    pose proof (identity_row_rdot k n 0 x i Lx Hi) as E. cbn [Nat.add] in E. rewrite E.
    assert (Hx : nth_error x i = Some (nth i x 0)) by (apply nth_error_nth'; lia).
    specialize (H i _ b Hx Hb). lra.
Qed.

(** C37 *)
Lemma forall2_flip {A B} (P : A -> B -> Prop) l m : Forall2 P l m <-> Forall2 (fun b a => P a b) m l.
Proof. split; induction 1; constructor; auto. Qed.

Lemma c37_ok A b D d H g init minB :
  mx_wf A -> length b = length (mx_rows A) -> (minB = [] \/ length minB = mx_cols A) ->
  exists q, qp_H q = H /\ qp_g q = g /\
    (forall x, length x = mx_cols A -> (qp_feasible q x <-> leM A b x /\ eqM D d x /\ above minB x)) /\
    forall wg quadprog glpk,
      solve wg quadprog glpk A b D d H g init minB [] SOLVER_QUADPROG =
        (r <- quadprog q init ;; let '(status, x, obj) := r in
         Ok (if Z.eqb status EIQUADPROG_FAST_OPTIMAL then ResultData true obj x else ResultData false (-1) x)).
Proof.
  intros WF Lb HB.
  set (CI := mx_rows A ++ (match minB with [] => [] | _ => identity (mx_cols A) (-1) end)).
  exists (QP H g (mx_rows D) (map Ropp d) (map (map Ropp) CI) (b ++ map Ropp minB)).
  split; [reflexivity|]. split; [reflexivity|]. split.
  - intros x Lx. unfold qp_feasible, leM, eqM, above. cbn [qp_CE qp_ce0 qp_CI qp_ci0].
    assert (E1 : Forall2 (fun r c => rdot r x + c = 0) (mx_rows D) (map Ropp d) <-> Forall2 (fun r di => rdot r x = di) (mx_rows D) d).
    { rewrite <- (map_id (mx_rows D)) at 1. rewrite forall2_map. apply forall2_iff. intros r di. lra. }
    rewrite E1. clear E1.
    assert (E2 : Forall2 (fun r c => 0 <= rdot r x + c) (map (map Ropp) CI) (b ++ map Ropp minB) <->
      Forall2 (fun r bi => rdot r x <= bi) (mx_rows A) b /\ (minB = [] \/ Forall2 Rle minB x)).
    { rewrite <- (map_id (b ++ map Ropp minB)), forall2_map. unfold CI. rewrite forall2_split by (now rewrite Lb).
      assert (Ea : Forall2 (fun a c => 0 <= rdot (map Ropp a) x + c) (mx_rows A) b <-> Forall2 (fun r bi => rdot r x <= bi) (mx_rows A) b).
      { apply forall2_iff. intros r bi. rewrite rdot_opp. lra. }
      rewrite Ea. destruct minB as [|m0 mb] eqn:Em.
      - cbn. split; [tauto|]. intros [? _]. split; [assumption|constructor].
      - rewrite <- Em in *. destruct HB as [HB|HB]; [congruence|].
        rewrite identity_le; [|exact Lx|now rewrite map_length].
        assert (Eb : Forall2 (fun xi c => -1 * xi <= c) x (map Ropp minB) <-> Forall2 Rle minB x).
        { rewrite forall2_flip. rewrite <- (map_id x) at 1. rewrite forall2_map. apply forall2_iff. intros u v. cbv beta. lra. }
        rewrite Eb. split; [tauto|]. intros [? [?|?]]; [congruence|tauto]. }
    rewrite E2. tauto.
  - intros wg quadprog glpk. unfold solve. cbn [Z.eqb SOLVER_QUADPROG Pos.eqb]. unfold addBoundaryConstraintsQuadProg.
    assert (E : (data <- addConstraintMinBoundQuadProg minB (A, b);; addConstraintMaxBoundQuadProg [] data) =
      Ok (MX (mx_cols A) CI, b ++ map Ropp minB)).
    { destruct minB as [|m0 mb] eqn:Em.
      - unfold CI. cbn. rewrite !app_nil_r. destruct A; reflexivity.
      - rewrite <- Em in *. destruct HB as [HB|HB]; [congruence|].
        rewrite addMin_ok by (auto; congruence). cbn. reflexivity. }
    rewrite E. cbn [bind fst snd mx_rows]. destruct (quadprog _ _) as [[[st x] obj]| |]; cbn; [|reflexivity|reflexivity].
    destruct (Z.eqb st EIQUADPROG_FAST_OPTIMAL); reflexivity.
Qed.

Lemma c37_unknown wg quadprog glpk A b D d H g init minB maxB s :
  s <> SOLVER_QUADPROG -> (wg = true -> s <> SOLVER_GLPK) ->
  solve wg quadprog glpk A b D d H g init minB maxB s = Throw.
Proof.
  intros H1 H2. unfold solve. destruct (Z.eqb_spec s SOLVER_QUADPROG) as [E|_]; [congruence|].
  destruct wg; cbn [andb]; [|reflexivity]. destruct (Z.eqb_spec s SOLVER_GLPK) as [E|_]; [now elim (H2 eq_refl)|reflexivity].
Qed.

(** C38 *)
Lemma write_block_len {A} (M B M' : list (list A)) r c : write_block M r c B = Ok M' ->
  length M' = length M /\ (r + length B <= length M)%nat.
Proof.
  unfold write_block. destruct (Nat.leb_spec (r + length B) (length M)) as [L|L]; [|discriminate].
  destruct (zipM _ _ B) as [rows| |] eqn:E; try discriminate. cbn. intros H; injection H as <-.
  assert (Z : forall (X Y : list (list A)) Q, zipM (fun row b => write_rows row c b) X Y = Ok Q -> length Q = Nat.min (length X) (length Y)).
  { induction X as [|a X IH]; intros Y Q HQ; [injection HQ as <-; reflexivity|].
    destruct Y as [|y Y]; [injection HQ as <-; rewrite Nat.min_0_r; reflexivity|]. cbn in HQ.
    destruct (write_rows a c y); try discriminate. cbn in HQ.
    destruct (zipM _ X Y) eqn:EX; try discriminate. cbn in HQ. injection HQ as <-. cbn. rewrite (IH _ _ EX). reflexivity. }
  apply Z in E. rewrite firstn_length, skipn_length in E. rewrite !app_length, firstn_length, skipn_length, E. lia.
Qed.
Lemma write_block_nothrow {A} (M B : list (list A)) r c : write_block M r c B <> Throw.
Proof.
  unfold write_block. destruct (Nat.leb _ _); [|discriminate].
  assert (Z : forall (X Y : list (list A)), zipM (fun row b => write_rows row c b) X Y <> Throw).
  { induction X as [|a X IH]; intros [|y Y]; cbn; try discriminate. unfold write_rows at 1. destruct (Nat.leb _ _); cbn; [|discriminate].
    specialize (IH Y). destruct (zipM _ X Y); cbn; congruence. }
  specialize (Z (firstn (length B) (skipn r M)) B). destruct (zipM _ _ B); cbn; congruence.
Qed.
Lemma addMax_ub maxB data : maxB <> [] -> addConstraintMaxBoundQuadProg maxB data = UB.
Proof.
  intros NE. unfold addConstraintMaxBoundQuadProg. destruct maxB as [|m0 mb] eqn:Em; [congruence|].
  destruct (Nat.ltb_spec (length (mx_rows (fst data)) + mx_cols (fst data)) 3) as [L|L]; [reflexivity|].
  set (B := repeat _ _). pose proof (write_block_nothrow B (some_mat (mx_rows (fst data))) 0 0) as NT.
  destruct (write_block B _ _ _) as [D1| |] eqn:E1; [|congruence|reflexivity]. cbn [bind]. destruct (write_block_len _ _ _ _ _ E1) as [L1 _].
  pose proof (write_block_nothrow D1 (some_mat (identity (mx_cols (fst data)) 1)) (length (mx_rows (fst data))) 0) as NT2.
  destruct (write_block D1 _ _ _) as [D2| |] eqn:E2; [|congruence|reflexivity]. exfalso.
  destruct (write_block_len _ _ _ _ _ E2) as [_ L2]. unfold B in *. rewrite repeat_length in L1.
  unfold some_mat in L2. rewrite map_length, identity_len in L2. lia.
Qed.
Lemma c38_ok wg quadprog glpk A b D d H g init minB maxB :
  mx_wf A -> (minB = [] \/ length minB = mx_cols A) -> maxB <> [] ->
  solve wg quadprog glpk A b D d H g init minB maxB SOLVER_QUADPROG = UB.
Proof.
  intros WF HB NE. unfold solve. cbn [Z.eqb SOLVER_QUADPROG Pos.eqb]. unfold addBoundaryConstraintsQuadProg.
  assert (E : exists dt, addConstraintMinBoundQuadProg minB (A, b) = Ok dt).
  { destruct minB as [|m0 mb] eqn:Em; [eexists; reflexivity|]. rewrite <- Em in *. destruct HB as [HB|HB]; [congruence|].
    eexists. apply addMin_ok; auto; congruence. }
  destruct E as [dt E]. rewrite E. cbn [bind]. rewrite addMax_ub by exact NE. reflexivity.
Qed.
