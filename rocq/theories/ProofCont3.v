(** Continuous formulation: sizes, and the equalities of the force formulation. *)
From Verif Require Import Vec SpecBezier SpecTime ModelData ModelDispatch ModelUtils ModelRows ModelCom ModelNd ModelCont
  SpecCom SpecWp SpecCtr SpecCont ProofBezier ProofCurve ProofWaypoints ProofTime ProofTime2 ProofEmit ProofCom ProofCom2 ProofNd
  ProofWaypointsErr ProofCont ProofCont2.
Open Scope R_scope.

(** * Sizes *)
Lemma num_ineq_cont_ok useDD n k : forall cs acc, Forall contact_wf cs ->
  num_ineq_cont_loop cs (Z.of_nat n - 1) (Z.of_nat k - 1) useDD acc =
  Ok (acc + Z.of_nat (cont_rows_needed useDD n k cs) - 6 * Z.of_nat (n - 2) * Z.of_nat (length cs))%Z.
Proof.
  induction cs as [|c cs IH]; intros acc HW; cbn [num_ineq_cont_loop cont_rows_needed length]; [f_equal; lia|].
  inversion HW as [|? ? (ph & E & _) HW']; subst. rewrite E. cbn [deref bind].
  destruct useDD; rewrite IH by assumption; f_equal; lia.
Qed.
Lemma compute_num_ineq_ok pData Ts useDD n k : (2 <= n)%nat -> length (contacts pData) = length Ts ->
  Forall contact_wf (contacts pData) ->
  computeNumIneqContinuous pData Ts (Z.of_nat n - 1) (Z.of_nat k - 1) useDD =
  Ok (Z.of_nat (cont_rows_needed useDD n k (contacts pData))).
Proof.
  intros Hn HL HW. unfold computeNumIneqContinuous. rewrite num_ineq_cont_ok by exact HW. cbn [bind]. f_equal.
  rewrite HL. nia.
Qed.

Definition sumcols (items : list (wp6 * cphase)) : nat := fold_right (fun it n => (length (cp_G (snd it)) + n)%nat) 0%nat items.
Lemma sumcols_app a b : sumcols (a ++ b) = (sumcols a + sumcols b)%nat.
Proof. induction a as [|x a IH]; cbn; [reflexivity|]. unfold sumcols in *. rewrite IH. lia. Qed.
Lemma sumcols_map ph ws : sumcols (map (fun w => (w, ph)) ws) = (length (cp_G ph) * length ws)%nat.
Proof. induction ws as [|w ws IH]; cbn; [lia|]. unfold sumcols in *. rewrite IH. lia. Qed.
Lemma removelast_len {A} (l : list A) : length (removelast l) = (length l - 1)%nat.
Proof.
  induction l as [|a l IH]; [reflexivity|]. destruct l as [|b l]; [reflexivity|].
  change (removelast (a :: b :: l)) with (a :: removelast (b :: l)). cbn [length] in *. rewrite IH. lia.
Qed.
Lemma kept_len df dl ws : length (kept df dl ws) =
  (length ws - (if df then 1 else 0) - (if dl then 1 else 0))%nat.
Proof.
  unfold kept. assert (T : forall l : list wp6, length (tl l) = (length l - 1)%nat) by (intros [|a l]; cbn; lia).
  destruct df, dl; rewrite ?T, ?removelast_len; lia.
Qed.
Lemma num_eq_ok k : (2 <= k)%nat -> forall cs lw cSize ne fd, Forall contact_wf cs -> length lw = length cs ->
  Forall (fun p => length (nd_pts p) = k) lw ->
  num_eq_loop cs (Z.of_nat k - 1) cSize ne fd =
  Ok (ne + 6 * Z.of_nat (length (fitems cSize lw cs)), fd + Z.of_nat (sumcols (fitems cSize lw cs)))%Z.
Proof.
  intros Hk. induction cs as [|c cs IH]; intros lw cSize ne fd HW HL HF.
  - destruct lw; [|discriminate]. cbn. rewrite !Z.add_0_r. reflexivity.
  - destruct lw as [|pw lw]; [discriminate|]. inversion HW as [|? ? (ph & E & _) HW']; inversion HF; subst.
    cbn [num_eq_loop fitems]. unfold g_cols at 1. rewrite E. cbn [deref bind].
    assert (EN : length (cp_G ph) = ncols c) by (unfold ncols, php; rewrite E; reflexivity). rewrite EN.
    replace (match cs with [] => _ | c2 :: _ => _ end) with
      (Ok (Z.of_nat (length (kept (prev_lt cSize c) (next_le c cs) (nd_pts pw))))).
    2:{ rewrite kept_len.
        assert (EP : (negb (Nat.eqb cSize 0) && Nat.ltb cSize (ncols c))%bool = prev_lt cSize c) by (unfold prev_lt; destruct cSize; reflexivity).
        rewrite EP. destruct cs as [|c2 cs].
        - cbn [next_le]. destruct (prev_lt cSize c); f_equal; lia.
        - inversion HW' as [|? ? (ph2 & E2 & _) _]; subst. unfold g_cols. rewrite E2. cbn [deref bind].
          replace (length (cp_G ph2)) with (ncols c2) by (unfold ncols, php; rewrite E2; reflexivity).
          cbn [next_le]. destruct (prev_lt cSize c), (Nat.leb (ncols c2) (ncols c)); f_equal; lia. }
    cbn [bind]. rewrite (IH lw) by (try assumption; cbn in HL; lia). rewrite app_length, map_length, sumcols_app, sumcols_map.
    f_equal. f_equal; unfold ncols; [lia|].
    rewrite Nat2Z.inj_add, Nat2Z.inj_mul. lia.
Qed.

(** * Filling D and d *)
Definition row_w (w : wp6) (m : R) : list (list R) := m_rows (mscal m (w_top w)) ++ m_rows (mscal m (w_bot w)).
Definition rhs (w : wp6) (ph : cphase) : list R :=
  l6 (vscal (cp_mass ph) (vsub (cp_gravity ph) (w_head w)), vscal (cp_mass ph) (vsub vzero (w_tail w))).
Definition strip (o a : nat) (w : wp6) (ph : cphase) : list (list R) :=
  map (fun bg => fst bg ++ repeat 0 o ++ snd bg ++ repeat 0 a) (combine (row_w w (cp_mass ph)) (G_rows (cp_G ph))).
Fixpoint strips (o : nat) (items : list (wp6 * cphase)) : list (list R) :=
  match items with
  | [] => []
  | (w, ph) :: items' => strip o (sumcols items') w ph ++ strips (o + length (cp_G ph)) items'
  end.
Definition rhss (items : list (wp6 * cphase)) : list R := flat_map (fun it => rhs (fst it) (snd it)) items.

Lemma set_block_app : forall done M c B, set_block (done ++ M) (length done) c B = (M' <- put_rows M c B ;; Ok (done ++ M')).
Proof.
  induction done as [|r done IH]; intros M c B; cbn [app length set_block].
  - replace (set_block M 0 c B) with (put_rows M c B) by (destruct M; reflexivity). destruct (put_rows M c B); reflexivity.
  - rewrite IH. destruct (put_rows M c B); reflexivity.
Qed.
Lemma put_rows_ok N c n : forall B M1 rest, length B = length M1 -> Forall (fun r => length r = N) M1 ->
  Forall (fun b => length b = n) B -> (c + n <= N)%nat ->
  put_rows (M1 ++ rest) c B = Ok (map (fun rb => firstn c (fst rb) ++ snd rb ++ skipn (c + n) (fst rb)) (combine M1 B) ++ rest).
Proof.
  induction B as [|b B IH]; intros [|r M1] rest HL HM HB Hc; try discriminate.
  - destruct rest; reflexivity.
  - inversion HM; inversion HB; subst. cbn [app put_rows]. unfold put_row.
    destruct (Nat.leb_spec (c + length b) (length r)); [|lia]. cbn [bind].
    rewrite (IH M1 rest) by (try assumption; cbn in HL; lia). reflexivity.
Qed.
Lemma repeat_app_n {A} (a : A) n m : repeat a (n + m) = repeat a n ++ repeat a m.
Proof. induction n as [|n IH]; cbn; [reflexivity|]. rewrite IH. reflexivity. Qed.
Lemma firstn_repeat {A} (a : A) n m : (n <= m)%nat -> firstn n (repeat a m) = repeat a n.
Proof. revert m; induction n as [|n IH]; intros [|m] H; cbn; try lia; try reflexivity. rewrite IH by lia. reflexivity. Qed.
Lemma skipn_repeat {A} (a : A) n m : skipn n (repeat a m) = repeat a (m - n).
Proof. revert m; induction n as [|n IH]; intros [|m]; cbn; try reflexivity. apply IH. Qed.

Lemma G_rows_len G : length (G_rows G) = 6%nat. Proof. reflexivity. Qed.
Lemma G_rows_w G : Forall (fun b => length b = length G) (G_rows G).
Proof. unfold G_rows. rewrite Forall_map. apply Forall_forall. intros r _. apply map_length. Qed.

Lemma assign_ok w ph done ddone o a k :
  length done = (6 * k)%nat -> length ddone = (6 * k)%nat -> forall rest drest,
  assignForce w ph (FS (6 * k) (3 + o)
    (done ++ repeat (repeat 0 (3 + (o + (length (cp_G ph) + a)))) 6 ++ rest) (ddone ++ repeat 0 6 ++ drest)) =
  Ok (FS (6 * S k) (3 + (o + length (cp_G ph))) ((done ++ strip o a w ph) ++ rest) ((ddone ++ rhs w ph) ++ drest)).
Proof.
  intros HD Hd rest drest. unfold assignForce. cbn [fs_D fs_d fs_row fs_col].
  set (N := (3 + (o + (length (cp_G ph) + a)))%nat).
  rewrite <- HD at 1. rewrite set_block_app.
  rewrite (put_rows_ok N (3 + o) (length (cp_G ph))); [|reflexivity| |apply G_rows_w|unfold N; lia].
  2:{ apply Forall_forall. intros r Hr. apply repeat_spec in Hr. subst. apply repeat_length. }
  cbn [bind]. set (M1 := map _ _). rewrite <- HD at 1. rewrite set_block_app.
  rewrite (put_rows_ok N 0 3); [|reflexivity| | |unfold N; lia].
  2:{ unfold M1. rewrite Forall_map. apply Forall_forall. intros [r b] Hin. cbn [fst snd].
      pose proof (in_combine_l _ _ _ _ Hin) as H1. pose proof (in_combine_r _ _ _ _ Hin) as H2.
      apply repeat_spec in H1. subst r. pose proof (G_rows_w (cp_G ph)) as HG. rewrite Forall_forall in HG.
      rewrite !app_length, firstn_length, skipn_length, repeat_length, (HG b H2). unfold N. lia. }
  2:{ repeat (constructor; [reflexivity|]). constructor. }
  cbn [bind]. unfold write_rows.
  destruct (Nat.leb_spec (6 * k + length (l6 (vscal (cp_mass ph) (vsub (cp_gravity ph) (w_head w)), vscal (cp_mass ph) (vsub vzero (w_tail w)))))
              (length (ddone ++ repeat 0 6 ++ drest))) as [Hle|Hle].
  2:{ exfalso. rewrite !app_length, repeat_length in Hle. cbn [l6 l3 app length] in Hle. lia. }
  cbn [bind]. f_equal. f_equal; [lia|rewrite <- app_assoc|].
  - f_equal. f_equal. unfold strip. 
    assert (EM : M1 = map (fun b => repeat 0 (3 + o) ++ b ++ repeat 0 a) (G_rows (cp_G ph))).
    { unfold M1. change (repeat (repeat 0 N) 6) with (map (fun _ : list R => repeat 0 N) (G_rows (cp_G ph))).
      generalize (G_rows (cp_G ph)). intros B. induction B as [|b B IH]; [reflexivity|]. cbn [map combine fst snd]. rewrite IH.
      rewrite firstn_repeat by (unfold N; lia). rewrite skipn_repeat. do 3 f_equal. f_equal. unfold N; lia. }
    rewrite EM. unfold row_w. generalize (G_rows_len (cp_G ph)). generalize (G_rows (cp_G ph)). intros B HB.
    do 6 (destruct B as [|? B]; [discriminate|]). destruct B; [|discriminate]. reflexivity.
  - match goal with |- context [length (l6 ?v)] => change (length (l6 v)) with 6%nat end. fold (rhs w ph). rewrite <- Hd.
    rewrite firstn_app, Nat.sub_diag, firstn_all. cbn [firstn]. rewrite app_nil_r.
    rewrite skipn_app, skipn_all2 by lia. replace (length ddone + 6 - length ddone)%nat with 6%nat by lia.
    cbn [repeat app skipn]. rewrite <- app_assoc. reflexivity.
Qed.

Lemma strip_len o a w ph : length (strip o a w ph) = 6%nat.
Proof. reflexivity. Qed.
Lemma fold_force_ok : forall items done ddone o k,
  length done = (6 * k)%nat -> length ddone = (6 * k)%nat ->
  fold_force items (FS (6 * k) (3 + o) (done ++ repeat (repeat 0 (3 + (o + sumcols items))) (6 * length items))
                       (ddone ++ repeat 0 (6 * length items))) =
  Ok (FS (6 * (k + length items)) (3 + (o + sumcols items)) (done ++ strips o items) (ddone ++ rhss items)).
Proof.
  induction items as [|[w ph] items IH]; intros done ddone o k HD Hd.
  - cbn [fold_force sumcols fold_right length strips rhss flat_map repeat]. rewrite Nat.mul_0_r. cbn [repeat].
    rewrite !Nat.add_0_r. reflexivity.
  - cbn [fold_force length strips rhss flat_map].
    replace (6 * S (length items))%nat with (6 + 6 * length items)%nat by lia.
    replace (sumcols ((w, ph) :: items)) with (length (cp_G ph) + sumcols items)%nat by reflexivity.
    rewrite (repeat_app_n (repeat 0 (3 + (o + (length (cp_G ph) + sumcols items)))) 6), (repeat_app_n 0 6 (6 * length items)).
    rewrite assign_ok by assumption. cbn [bind].
    replace (3 + (o + (length (cp_G ph) + sumcols items)))%nat with (3 + ((o + length (cp_G ph)) + sumcols items))%nat by lia.
    rewrite IH.
    + f_equal. f_equal; [lia| |].
      * rewrite <- app_assoc. reflexivity.
      * rewrite <- app_assoc. reflexivity.
    + rewrite app_length, strip_len. lia.
    + rewrite app_length. cbn [rhs l6 l3 fst snd app length]. lia.
Qed.

(** * Meaning of D v = d *)
Lemma rdot_app : forall a b c d, length a = length c -> rdot (a ++ b) (c ++ d) = rdot a c + rdot b d.
Proof. induction a as [|x a IH]; intros b [|y c] d H; try discriminate; cbn; [ring|]. rewrite IH by (cbn in H; lia). ring. Qed.
Lemma rdot_zeros : forall n v, rdot (repeat 0 n) v = 0.
Proof. induction n as [|n IH]; intros [|y v]; cbn; try reflexivity. rewrite IH. ring. Qed.
Lemma rdot_l3 u x : rdot (l3 u) (l3 x) = vdot u x.
Proof. unfold l3, vdot; cbn. ring. Qed.
Lemma comb_l6 : forall G beta r, (r < 6)%nat -> length beta = length G ->
  rdot (map (fun col => nth r (l6 col) 0) G) beta = nth r (l6 (comb G beta)) 0.
Proof.
  induction G as [|g G IH]; intros [|b beta] r Hr HL; try discriminate.
  - cbn. do 6 (destruct r as [|r]; [reflexivity|]). lia.
  - cbn [map rdot comb]. rewrite IH by (try assumption; cbn in HL; lia). destruct (comb G beta) as [u v]. destruct g as [g1 g2].
    do 6 (destruct r as [|r]; [cbn; ring|]). lia.
Qed.
Lemma l6_inj a b : l6 a = l6 b -> a = b.
Proof. destruct a as [[? ? ?] [? ? ?]], b as [[? ? ?] [? ? ?]]. unfold l6, l3; cbn. intros H. injection H as -> -> -> -> -> ->. reflexivity. Qed.

(** what item [it] requires of its forces [b] *)
Definition item_w (it : wp6 * cphase) (x : vec3) : v6 :=
  v6_scal (cp_mass (snd it)) (v6sub (cp_gravity (snd it), vzero) (ev_w6 (fst it) x)).

Lemma strip_eq o a w ph x b0 b b1 : length b0 = o -> length b = length (cp_G ph) ->
  (eqX (combine (strip o a w ph) (rhs w ph)) (l3 x ++ b0 ++ b ++ b1) <-> comb (cp_G ph) b = item_w (w, ph) x).
Proof.
  intros H0 Hb. unfold eqX.
  assert (E : forall r l, length r = length (cp_G ph) ->
     rdot (l3 l ++ repeat 0 o ++ r ++ repeat 0 a) (l3 x ++ b0 ++ b ++ b1) = vdot l x + rdot r b).
  { intros r l Hr. rewrite rdot_app by reflexivity. rewrite rdot_app by (rewrite repeat_length; lia). rewrite rdot_app by lia.
    rewrite rdot_l3, !rdot_zeros. ring. }
  unfold strip, row_w, m_rows, rhs, G_rows. cbn [seq map combine app l6 l3 fst snd].
  rewrite !Forall_cons_iff. cbn [fst snd].
  assert (E' : forall r l, length r = length (cp_G ph) ->
     rdot (vx l :: vy l :: vz l :: repeat 0 o ++ r ++ repeat 0 a) (vx x :: vy x :: vz x :: b0 ++ b ++ b1) = vdot l x + rdot r b)
    by exact E.
  rewrite !E' by apply map_length. rewrite !comb_l6 by (try lia; assumption).
  destruct (comb (cp_G ph) b) as [u v]. unfold item_w, v6_scal, v6sub, ev_w6. cbn [fst snd].
  cbn [l6 l3 fst snd app nth].
  unfold mscal, mvmul, vscal, vsub, vadd, vzero, vdot. cbn [row0 row1 row2 vx vy vz].
  split.
  - intros (A1 & A2 & A3 & A4 & A5 & A6 & _). f_equal; apply v3_eq; cbn [vx vy vz]; lra.
  - intros H. inversion H; subst. cbn [vx vy vz]. repeat split; try constructor; ring.
Qed.

Lemma combine_app {A B} : forall (a : list A) (b : list B) a' b', length a = length b ->
  combine (a ++ a') (b ++ b') = combine a b ++ combine a' b'.
Proof. induction a as [|x a IH]; intros [|y b] a' b' H; try discriminate; cbn; [reflexivity|]. rewrite IH by (cbn in H; lia). reflexivity. Qed.

Lemma strips_eq x : forall items o b0, length b0 = o ->
  (exists b, length b = sumcols items /\ Forall (Rle 0) b /\ eqX (combine (strips o items) (rhss items)) (l3 x ++ b0 ++ b)) <->
  Forall (fun it => in_cone (cp_G (snd it)) (item_w it x)) items.
Proof.
  induction items as [|[w ph] items IH]; intros o b0 H0; cbn [strips rhss flat_map].
  - split; [constructor|]. intros _. exists []. split; [reflexivity|]. split; constructor.
  - rewrite combine_app by reflexivity. rewrite Forall_cons_iff. unfold eqX. split.
    + intros (b & Hl & Hp & HE). apply Forall_app in HE. destruct HE as [E1 E2].
      change (sumcols ((w, ph) :: items)) with (length (cp_G ph) + sumcols items)%nat in Hl.
      assert (La : length (firstn (length (cp_G ph)) b) = length (cp_G ph)) by (rewrite firstn_length; lia).
      rewrite <- (firstn_skipn (length (cp_G ph)) b) in Hl, Hp, E1, E2.
      set (ba := firstn _ b) in *. set (bb := skipn _ b) in *.
      rewrite app_length in Hl. apply Forall_app in Hp. destruct Hp as [Pa Pb]. split.
      * exists ba. split; [exact La|]. split; [exact Pa|]. cbn [fst snd].
        apply (strip_eq o (sumcols items) w ph x b0 ba bb H0 La). exact E1.
      * apply (IH (o + length (cp_G ph))%nat (b0 ++ ba)); [rewrite app_length; lia|].
        exists bb. split; [lia|]. split; [exact Pb|]. unfold eqX. rewrite <- app_assoc. exact E2.
    + intros [(ba & La & Pa & Ea) HF].
      destruct (proj2 (IH (o + length (cp_G ph))%nat (b0 ++ ba) ltac:(rewrite app_length; cbn in La; lia)) HF) as (bb & Lb & Pb & Eb).
      exists (ba ++ bb). cbn [snd] in La. split; [rewrite app_length, La, Lb; reflexivity|]. split; [apply Forall_app; auto|].
      apply Forall_app. split.
      * cbn [fst snd] in *. rewrite <- ?app_assoc. apply (strip_eq o (sumcols items) w ph x b0 ba bb H0 La). exact Ea.
      * unfold eqX in Eb. rewrite <- app_assoc in Eb. exact Eb.
Qed.
(** a given solution, not only its existence *)
Lemma strips_in x : forall items o b0 b, length b0 = o -> length b = sumcols items -> Forall (Rle 0) b ->
  eqX (combine (strips o items) (rhss items)) (l3 x ++ b0 ++ b) -> Forall (fun it => in_cone (cp_G (snd it)) (item_w it x)) items.
Proof. intros items o b0 b H0 H1 H2 H3. apply (strips_eq x items o b0 H0). eauto. Qed.
