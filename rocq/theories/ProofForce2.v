(** The QP of the force formulation: scale, accuracy (C73). *)
From Coq Require Import Lia Lra Psatz.
From Verif Require Import Vec SpecBezier SpecTime ModelData ModelDispatch ModelUtils ModelRows ModelCom ModelNd ModelCont ModelSolver ModelTraj ModelQp
  SpecCom SpecWp SpecCtr SpecCont SpecSolver SpecTraj SpecEnd SpecEnd2 SpecEnd3 SpecQp2 SpecForce
  ProofBezier ProofCurve ProofCont3 ProofCont4 ProofCont9 ProofSolver ProofTraj ProofQp ProofQp2 ProofQp2 ProofQp3 ProofQp14 ProofQp16 ProofQp18 ProofEnd ProofEnd3 ProofEnd5 ProofForce SpecQp.
Import ListNotations.
Open Scope R_scope.

Lemma vnorm2_sq a b : 0 <= b -> vnorm a <= b -> vnorm2 a <= b * b.
Proof. intros Hb H. rewrite <- vnorm_sq. pose proof (vnorm_ge a). apply Rmult_le_compat; assumption. Qed.
(** a component of a linear map, as a row *)
Lemma row_norm a C : 0 <= C -> (forall d, vdot a d <= C * vnorm d) -> vnorm a <= C.
Proof.
  intros HC H. specialize (H a). pose proof (vnorm_ge a) as N. fold (vnorm2 a) in H. rewrite <- vnorm_sq in H.
  destruct (Req_dec (vnorm a) 0) as [E|E]; [lra|]. apply Rmult_le_reg_r with (vnorm a); lra.
Qed.
Lemma norm6_comp w (r : nat) : Rabs (nth r (l6 w) 0) <= norm6 w.
Proof.
  unfold norm6. rewrite <- sqrt_Rsqr_abs. apply sqrt_le_1_alt. unfold Rsqr. destruct w as [[a b c] [d e f]]. unfold dot6, vdot, l6, l3; cbn [fst snd vx vy vz app].
  pose proof (Rle_0_sqr a). pose proof (Rle_0_sqr b). pose proof (Rle_0_sqr c). pose proof (Rle_0_sqr d). pose proof (Rle_0_sqr e). pose proof (Rle_0_sqr f). unfold Rsqr in *.
  do 6 (destruct r as [|r]; [cbn [nth]; lra|]). cbn [nth]. destruct r; lra.
Qed.
Definition w_row (w : wp6) (r : nat) : vec3 := nth r [row0 (w_top w); row1 (w_top w); row2 (w_top w); row0 (w_bot w); row1 (w_bot w); row2 (w_bot w)] vzero.
Lemma w_row_norm B w r : 0 <= B -> opb6 B w -> vnorm (w_row w r) <= B.
Proof.
  intros HB H. apply row_norm; [exact HB|]. intros d. eapply Rle_trans; [|apply H]. eapply Rle_trans; [|apply (norm6_comp _ r)].
  eapply Rle_trans; [|apply Rle_abs]. right. unfold w_row, ev_w6, v6sub, l6, l3. cbn [fst snd app].
  do 6 (destruct r as [|r]; [cbn [nth]; unfold vsub, vadd, mvmul, vdot, vzero; cbn [vx vy vz]; ring|]).
  cbn [nth]. destruct r; unfold vdot, vzero; cbn [vx vy vz nth]; ring.
Qed.
Lemma strip_row o a w ph l : In l (strip o a w ph) -> exists r, (r < 6)%nat /\
  l = l3 (vscal (cp_mass ph) (w_row w r)) ++ repeat 0 o ++ map (fun col => nth r (l6 col) 0) (cp_G ph) ++ repeat 0 a.
Proof.
  unfold strip, row_w, G_rows, m_rows. cbn [app seq map combine fst snd In].
  intros [<-|[<-|[<-|[<-|[<-|[<-|[]]]]]]]; [exists 0%nat|exists 1%nat|exists 2%nat|exists 3%nat|exists 4%nat|exists 5%nat];
    (split; [lia|]); unfold w_row; cbn [nth]; destruct (w_top w), (w_bot w); reflexivity.
Qed.
Definition unit6 (r : nat) : v6 := vec6 (fun i => if Nat.eqb i r then 1 else 0).
Lemma rdot_gen_sq G r : (r < 6)%nat -> rdot (map (fun col => nth r (l6 col) 0) G) (map (fun col => nth r (l6 col) 0) G) = gen_sq G (unit6 r).
Proof.
  intros Hr. unfold gen_sq, sum_list. induction G as [|g G IH]; [reflexivity|]. cbn [map rdot fold_right]. rewrite IH. f_equal.
  assert (E : nth r (l6 g) 0 = dot6 (unit6 r) g); [|rewrite E; reflexivity].
  destruct g as [[a1 a2 a3] [a4 a5 a6]]. unfold unit6, vec6, dot6, vdot, l6, l3. cbn [fst snd vx vy vz app].
  do 6 (destruct r as [|r]; [cbn; ring|]). lia.
Qed.
Lemma unit6_norm r : (r < 6)%nat -> dot6 (unit6 r) (unit6 r) = 1.
Proof. intros Hr. unfold unit6, vec6, dot6, vdot. cbn [fst snd vx vy vz]. do 6 (destruct r as [|r]; [cbn; ring|]). lia. Qed.
Lemma rdot_block o a b : rdot (repeat 0 o ++ b ++ repeat 0 a) (repeat 0 o ++ b ++ repeat 0 a) = rdot b b.
Proof. rewrite rdot_app by reflexivity. rewrite rdot_app by reflexivity. rewrite !ProofCont3.rdot_zeros. ring. Qed.

Lemma nth_skipn3 {A} (d : A) : forall n l i, nth i (skipn n l) d = nth (n + i) l d.
Proof. induction n as [|n IH]; intros [|a l] i; cbn; try reflexivity; [destruct i; reflexivity|apply IH]. Qed.

Section FQ.
  Variables (F : nat) (lam : R) (v : vec3) (rows : list (vec3 * R)) (items : list (wp6 * cphase)).
  Let k := force_weight.
  Hypothesis HF : sumcols items = F.
  Hypothesis Hlam : k <= lam.
  Definition fqp : qp :=
    QP (Hmat (mscal lam mid) F k) (l3 v ++ repeat 0 F) (strips 0 items) (map Ropp (rhss items))
       (map (map Ropp) (map fst (map (padr F) rows) ++ identity (3 + F) (-1)))
       (map snd (map (padr F) rows) ++ map Ropp (repeat UNBOUNDED_DOWN 3 ++ repeat 0 F)).
  Let q := eqp_of fqp.

  Lemma k_pos : 0 < k. Proof. unfold k, force_weight. lra. Qed.
  Lemma k_eps : eps52 < k. Proof. unfold k, force_weight, eps52. lra. Qed.
  Lemma fq_n : e_n q = (3 + F)%nat.
  Proof. unfold q, fqp, eqp_of. cbn [e_n qp_g]. rewrite app_length, repeat_length. reflexivity. Qed.
  Lemma fq_E : e_E q = (6 * length items)%nat.
  Proof. unfold q, fqp, eqp_of. cbn [e_E qp_ce0]. rewrite map_length. apply rhss_len. Qed.
  Lemma fq_I : e_I q = (length rows + (3 + F))%nat.
  Proof. unfold q, fqp, eqp_of. cbn [e_I qp_ci0]. rewrite app_length, !map_length, app_length, !repeat_length. lia. Qed.
  Definition hd (i : nat) : R := if Nat.ltb i 3 then lam else k.
  Lemma hd_pos i : 0 < hd i. Proof. pose proof k_pos. unfold hd. destruct (Nat.ltb i 3); lra. Qed.
  Lemma hd_range i : k <= hd i <= lam. Proof. unfold hd. destruct (Nat.ltb i 3); lra. Qed.
  Lemma fq_row i : (i < 3 + F)%nat -> nth i (Hmat (mscal lam mid) F k) [] = identity_row (3 + F) i (hd i).
  Proof.
    intros Hi. unfold Hmat. destruct (lt_dec i 3) as [H3|H3].
    - rewrite app_nth1 by (cbn; lia). unfold hd. destruct (Nat.ltb_spec i 3); [|lia].
      unfold identity_row. cbn [Nat.add seq map]. rewrite id_row_tail by lia.
      destruct i as [|[|[|i]]]; [| | |lia]; cbn; repeat (apply (f_equal2 (@cons R)); [ring|]); reflexivity.
    - rewrite app_nth2 by (cbn; lia). cbn [length map m_rows]. rewrite nth_skipn3. replace (3 + (i - 3))%nat with i by lia.
      unfold hd. destruct (Nat.ltb_spec i 3); [lia|]. unfold identity.
      rewrite (nth_indep _ [] (identity_row (3 + F) 0 k)) by (rewrite map_length, seq_length; lia).
      rewrite (map_nth (fun i => identity_row (3 + F) i k)), seq_nth by lia. reflexivity.
  Qed.
  Lemma identity_row_nth n i j c : (j < n)%nat -> nth j (identity_row n i c) 0 = if Nat.eqb i j then c else 0.
  Proof.
    intros Hj. unfold identity_row. rewrite (nth_indep _ 0 ((fun j => if Nat.eqb i j then c else 0) 0%nat)) by (rewrite map_length, seq_length; exact Hj).
    rewrite (map_nth (fun j => if Nat.eqb i j then c else 0)), seq_nth by exact Hj. reflexivity.
  Qed.
  Lemma fq_H i j : (i < 3 + F)%nat -> (j < 3 + F)%nat -> e_H q i j = if Nat.eqb i j then hd i else 0.
  Proof. intros Hi Hj. unfold q, fqp, eqp_of. cbn [e_H qp_H]. unfold mat_of. rewrite fq_row by exact Hi. apply identity_row_nth, Hj. Qed.
  Lemma fq_sym : symmetric q.
  Proof.
    intros i j Hi Hj. rewrite fq_n in Hi, Hj. rewrite !fq_H by assumption. rewrite (Nat.eqb_sym j i). destruct (Nat.eqb_spec i j) as [->|]; reflexivity.
  Qed.
  Lemma fq_hmul z i : (i < 3 + F)%nat -> hmul q z i = hd i * z i.
  Proof.
    intros Hi. unfold hmul, dot. rewrite fq_n. rewrite (sumf_ext _ _ (fun j => delta i j * (hd i * z j))).
    - rewrite delta_sum by exact Hi. reflexivity.
    - intros j Hj. rewrite fq_H by assumption. unfold delta. destruct (Nat.eqb i j); ring.
  Qed.
  Lemma fq_bound z : k * dot (e_n q) z z <= dot (e_n q) z (hmul q z).
  Proof.
    rewrite fq_n. unfold dot. rewrite <- sumf_scal. apply sumf_le. intros i Hi. rewrite fq_hmul by exact Hi. pose proof (hd_range i). pose proof (Rle_0_sqr (z i)) as Q. unfold Rsqr in Q. nra.
  Qed.
  Lemma fq_top z : dot (e_n q) (hmul q z) (hmul q z) <= lam * lam * dot (e_n q) z z.
  Proof.
    rewrite fq_n. unfold dot. rewrite <- sumf_scal. apply sumf_le. intros i Hi. rewrite fq_hmul by exact Hi. pose proof (hd_range i). pose proof k_pos.
    pose proof (Rle_0_sqr (z i)) as Q. unfold Rsqr in Q. assert (hd i * hd i <= lam * lam) by (apply Rmult_le_compat; lra). nra.
  Qed.
  Lemma fq_trace : trace (e_n q) (e_H q) = 3 * lam + INR F * k.
  Proof.
    unfold trace. rewrite fq_n. rewrite (sumf_ext _ _ hd) by (intros i Hi; rewrite fq_H by exact Hi; rewrite Nat.eqb_refl; reflexivity).
    rewrite sumf_split. rewrite (sumf_ext F _ (fun _ => k)) by (intros i _; unfold hd; destruct (Nat.ltb_spec (3 + i) 3); [lia|reflexivity]).
    rewrite sumf_cst. unfold hd; cbn. ring.
  Qed.
  (** weights of rows *)
  Lemma fq_weight a b w : length b = F -> (forall i, (i < 3 + F)%nat -> hmul q w i = vec_of (l3 a ++ b) i) ->
    dot (e_n q) (vec_of (l3 a ++ b)) w = vnorm2 a / lam + rdot b b / k.
  Proof.
    intros Lb Hw. pose proof k_pos as KP. rewrite fq_n. unfold dot.
    rewrite (sumf_ext _ _ (fun i => vec_of (l3 a ++ b) i * vec_of (l3 a ++ b) i / hd i)).
    - rewrite sumf_split. f_equal.
      + unfold vec_of, hd, vnorm2, vdot; cbn. field. lra.
      + rewrite <- (rdot_dot b b F Lb Lb). unfold dot, Rdiv. rewrite <- sumf_scal_r. apply sumf_ext. intros i Hi.
        unfold hd. destruct (Nat.ltb_spec (3 + i) 3); [lia|]. unfold vec_of. rewrite app_nth2 by (cbn; lia). replace (3 + i - length (l3 a))%nat with i by (cbn; lia). reflexivity.
    - intros i Hi. specialize (Hw i Hi). rewrite fq_hmul in Hw by exact Hi. rewrite <- Hw. pose proof (hd_pos i). field. lra.
  Qed.
  Definition light (l : list R) : Prop := exists a b, l = l3 a ++ b /\ length b = F /\ eps52 * (vnorm2 a / lam + rdot b b / k) < k.
  Lemma light_opp l : light l -> light (map Ropp l).
  Proof.
    intros (a & b & -> & Lb & H). exists (vopp a), (map Ropp b). split; [rewrite map_app; reflexivity|]. split; [rewrite map_length; exact Lb|].
    rewrite rdot_opp2. replace (vnorm2 (vopp a)) with (vnorm2 a) by (unfold vnorm2, vdot, vopp; cbn; ring). exact H.
  Qed.
  Lemma light_id i : (i < 3 + F)%nat -> light (identity_row (3 + F) i (-1)).
  Proof.
    intros Hi. pose proof eps_pos as EP. pose proof k_pos as KP.
    assert (K2 : eps52 * (1 / k) < k) by (unfold k, force_weight, eps52; lra).
    destruct (lt_dec i 3) as [H3|H3].
    - assert (E : exists a, identity_row (3 + F) i (-1) = l3 a ++ repeat 0 F /\ vnorm2 a = 1).
      { unfold identity_row. cbn [Nat.add seq map]. rewrite id_row_tail by lia.
        destruct i as [|[|[|i]]]; [exists (V3 (-1) 0 0)|exists (V3 0 (-1) 0)|exists (V3 0 0 (-1))|lia]; (split; [reflexivity|unfold vnorm2, vdot; cbn; ring]). }
      destruct E as (a & -> & Ea). exists a, (repeat 0 F). split; [reflexivity|]. split; [apply repeat_length|]. rewrite Ea, ProofCont3.rdot_zeros.
      assert (1 / lam <= 1 / k) by (apply Rmult_le_compat_l; [lra|]; apply Rinv_le_contravar; lra). unfold Rdiv at 2. rewrite Rmult_0_l, Rplus_0_r. nra.
    - exists vzero, (map (fun j => if Nat.eqb (i - 3) j then -1 else 0) (seq 0 F)). split; [|split].
      + unfold identity_row. cbn [Nat.add seq map l3 vzero vx vy vz app].
        destruct (Nat.eqb_spec i 0); [lia|]. destruct (Nat.eqb_spec i 1); [lia|]. destruct (Nat.eqb_spec i 2); [lia|].
        do 3 f_equal. rewrite <- (seq_shift F 2), <- (seq_shift F 1), <- (seq_shift F 0), !map_map. apply map_ext. intros j.
        destruct (Nat.eqb_spec i (S (S (S j)))), (Nat.eqb_spec (i - 3) j); try lia; reflexivity.
      + rewrite map_length, seq_length. reflexivity.
      + pose proof (identity_row_rdot (-1) F 0 (identity_row F (i - 3) (-1)) (i - 3)) as E. cbn [Nat.add] in E.
        unfold identity_row in E at 1. rewrite map_length, seq_length in E. specialize (E eq_refl ltac:(lia)). unfold identity_row in E at 1. 
        rewrite E, identity_row_nth, Nat.eqb_refl by lia. replace (vnorm2 vzero) with 0 by (unfold vnorm2, vdot; cbn; ring).
        unfold Rdiv at 1. rewrite Rmult_0_l, Rplus_0_l. replace (-1 * -1) with 1 by ring. exact K2.
  Qed.
  Hypothesis HR : forall r, In r rows -> eps52 * vnorm2 (fst r) < lam * k.
  Hypothesis HI : Forall light (strips 0 items).
  Lemma light_row r : In r rows -> light (fst (padr F r)).
  Proof.
    intros Hr. pose proof k_pos. exists (fst r), (repeat 0 F). split; [reflexivity|]. split; [apply repeat_length|]. rewrite ProofCont3.rdot_zeros.
    unfold Rdiv at 2. rewrite Rmult_0_l, Rplus_0_r. specialize (HR r Hr). apply Rmult_lt_reg_r with lam; [lra|].
    replace (eps52 * (vnorm2 (fst r) / lam) * lam) with (eps52 * vnorm2 (fst r)) by (field; lra). lra.
  Qed.
  Lemma fq_light w : is_row q w -> exists l, w = vec_of l /\ light l.
  Proof.
    intros [(i & Hi & ->)|(i & Hi & ->)].
    - rewrite fq_E in Hi. eexists. split; [reflexivity|]. rewrite Forall_forall in HI. apply HI. cbn [fqp qp_CE]. apply nth_In. rewrite strips_len. exact Hi.
    - rewrite fq_I in Hi. eexists. split; [reflexivity|]. cbn [fqp qp_CI].
      assert (L : Forall light (map (map Ropp) (map fst (map (padr F) rows) ++ identity (3 + F) (-1)))).
      { rewrite Forall_map, Forall_app, !Forall_map. split; apply Forall_forall; intros r Hr; apply light_opp.
        - apply light_row, Hr.
        - apply In_nth_error in Hr. destruct Hr as [j Hj]. apply identity_nth in Hj. destruct Hj as [Hj ->]. apply light_id, Hj. }
      rewrite Forall_forall in L. apply L, nth_In. rewrite map_length, app_length, !map_length, identity_len. exact Hi.
  Qed.
  Lemma fq_weighted : weighted q k.
  Proof.
    split; [exact k_eps|]. split; [exact fq_bound|]. intros w z Hw Hz. destruct (fq_light w Hw) as (l & -> & a & b & -> & Lb & HL).
    rewrite fq_n in Hz. rewrite (fq_weight a b z Lb Hz). exact HL.
  Qed.
  Variable s : R.
  Hypothesis HS : Forall (fun it => forall u, s * s * dot6 u u <= gen_sq (cp_G (snd it)) u) items.
  Hypothesis Hs : eps52 * (lam * lam) < s * s.
  Lemma fq_spread : eqs_spread q s.
  Proof.
    intros a. rewrite fq_E, fq_n. eapply Rle_trans; [apply (strips_spread s items 0 a HS)|]. unfold dot. rewrite (sumf_split 3), HF.
    match goal with |- _ <= ?A + ?B => assert (P : 0 <= A) end.
    { apply sumf_nonneg. intros i _. pose proof (Rle_0_sqr (sumf (6 * length items) (fun j => a j * e_CE q j i))) as Q. exact Q. }
    match goal with |- ?X <= ?A + ?B => replace X with B end; [lra|].
    apply sumf_ext. intros i Hi. rewrite Nat.add_0_r. reflexivity.
  Qed.
  Lemma fq_apart : eqs_apart q.
  Proof. exact (spread_apart q s lam fq_top fq_spread Hs). Qed.

  (** what the solver does on the problem *)
  Lemma fq_solves mem init : exists st x beta obj, solve_quadprog mem fqp init = Ok (st, l3 x ++ beta, obj) /\ length beta = F /\
    (st = st_OPTIMAL -> eqX (combine (strips 0 items) (rhss items)) (l3 x ++ beta) /\
       let tau := force_tol F (length rows) lam in near tau rows x /\ Forall (Rle (- tau)) beta).
  Proof.
    destruct (solve_quadprog_eok mem fqp init k fq_sym fq_weighted fq_apart) as (st & s' & E & HE & HV). fold q in HE, HV.
    set (y := list_of (3 + F) (q_x s')) in *. assert (Ly : length y = (3 + F)%nat) by apply list_of_len.
    assert (Eg : length (qp_g fqp) = (3 + F)%nat) by exact fq_n. rewrite Eg in E. fold y in E.
    destruct y as [|y0 [|y1 [|y2 beta]]] eqn:Ey; try discriminate. assert (Lb : length beta = F) by (cbn in Ly; lia). rewrite <- Ey in E.
    set (x := V3 y0 y1 y2). assert (Ey' : y = l3 x ++ beta) by exact Ey.
    exists st, x, beta, (q_f s'). rewrite <- Ey'. split; [exact E|]. split; [exact Lb|]. intros HO. cbv zeta.
    assert (HU : st <> st_UNBOUNDED) by (rewrite HO; discriminate). specialize (HE HU). specialize (HV HO). rewrite fq_n, fq_I in HV. rewrite <- fq_n, fq_trace, fq_n in HV. change (violation q (q_x s') <= force_tol F (length rows) lam) in HV.
    assert (DY : forall l, length l = (3 + F)%nat -> dot (e_n q) (vec_of l) (q_x s') = rdot l y) by (intros l Hl; rewrite fq_n; apply vec_list, Hl).
    assert (LS : forall l, light l -> length l = (3 + F)%nat) by (intros l (a & b & -> & Hb & _); rewrite app_length, Hb; reflexivity).
    split.
    - unfold eqX. apply Forall_forall. intros [l d] Hin. cbn [fst snd]. apply In_nth_error in Hin. destruct Hin as [i Hi].
      assert (Hi' := Hi). apply ProofForce.nth_combine in Hi'. destruct Hi' as [H1 H2].
      assert (Hlt : (i < e_E q)%nat) by (rewrite fq_E, <- (rhss_len items); apply nth_error_Some; congruence).
      specialize (HE i Hlt). unfold eq_gap in HE. change (e_CE q i) with (vec_of (nth i (strips 0 items) [])) in HE.
      change (e_ce q i) with (nth i (map Ropp (rhss items)) 0) in HE.
      rewrite (nth_error_nth _ _ _ H1) in HE. rewrite (nth_error_nth _ _ _ (map_nth_error Ropp _ _ H2)) in HE.
      rewrite DY in HE by (apply LS; rewrite Forall_forall in HI; apply HI; eapply nth_error_In; eauto). lra.
    - assert (SL : forall i, (i < e_I q)%nat -> - force_tol F (length rows) lam <= slack q (q_x s') i) by (intros i Hi; pose proof (slack_violation q (q_x s') i Hi); lra).
      split.
      + unfold near. apply Forall_forall. intros r Hr. apply In_nth_error in Hr. destruct Hr as [i Hi].
        assert (Hlt : (i < length rows)%nat) by (apply nth_error_Some; congruence).
        specialize (SL i ltac:(rewrite fq_I; lia)). unfold slack in SL.
        change (e_CI q i) with (vec_of (nth i (map (map Ropp) (map fst (map (padr F) rows) ++ identity (3 + F) (-1))) [])) in SL.
        change (e_ci q i) with (nth i (map snd (map (padr F) rows) ++ map Ropp (repeat UNBOUNDED_DOWN 3 ++ repeat 0 F)) 0) in SL.
        rewrite map_app, !app_nth1 in SL by (rewrite !map_length; exact Hlt). rewrite !map_map in SL.
        rewrite (nth_error_nth _ _ _ (map_nth_error _ _ _ Hi)) in SL. rewrite (nth_error_nth _ _ _ (map_nth_error _ _ _ Hi)) in SL.
        rewrite DY in SL by (rewrite map_length; apply LS, light_row; eapply nth_error_In; eauto).
        rewrite rdot_opp_l, Ey' in SL. unfold padr in SL; cbn [fst snd] in SL. rewrite ProofCont3.rdot_app in SL by reflexivity.
        rewrite rdot_l3, ProofCont3.rdot_zeros in SL. lra.
      + apply Forall_forall. intros b Hb. apply In_nth_error in Hb. destruct Hb as [i Hi].
        assert (Hlt : (i < F)%nat) by (rewrite <- Lb; apply nth_error_Some; congruence).
        specialize (SL (length rows + (3 + i))%nat ltac:(rewrite fq_I; lia)). unfold slack in SL.
        change (e_CI q (length rows + (3 + i))%nat) with (vec_of (nth (length rows + (3 + i)) (map (map Ropp) (map fst (map (padr F) rows) ++ identity (3 + F) (-1))) [])) in SL.
        change (e_ci q (length rows + (3 + i))%nat) with (nth (length rows + (3 + i)) (map snd (map (padr F) rows) ++ map Ropp (repeat UNBOUNDED_DOWN 3 ++ repeat 0 F)) 0) in SL.
        assert (L1 : length (map (map Ropp) (map fst (map (padr F) rows))) = length rows) by (rewrite !map_length; reflexivity).
        assert (L2 : length (map snd (map (padr F) rows)) = length rows) by (rewrite !map_length; reflexivity).
        rewrite map_app in SL. 
        assert (N : forall {A} (l m : list A) d n j, length l = n -> nth (n + j) (l ++ m) d = nth j m d) by (intros A l m d n j <-; apply app_nth2_plus).
        rewrite (N _ _ _ _ _ _ L1), (N _ _ _ _ _ _ L2) in SL.
        assert (EI : nth (3 + i) (map (map Ropp) (identity (3 + F) (-1))) [] = map Ropp (identity_row (3 + F) (3 + i) (-1))).
        { change (@nil R) with (map Ropp []) at 1. rewrite map_nth. f_equal. unfold identity.
          rewrite (nth_indep _ [] (identity_row (3 + F) 0 (-1))) by (rewrite map_length, seq_length; lia).
          rewrite (map_nth (fun i => identity_row (3 + F) i (-1))), seq_nth by lia. reflexivity. }
        rewrite EI in SL. rewrite DY in SL by (rewrite map_length; unfold identity_row; rewrite map_length, seq_length; reflexivity).
        assert (EQ : rdot (identity_row (3 + F) (3 + i) (-1)) y = -1 * nth (3 + i) y 0)
          by (apply (identity_row_rdot (-1) (3 + F) 0 y (3 + i)); [exact (list_of_len _ _)|lia]).
        rewrite rdot_opp_l, EQ in SL.
        assert (EB : nth (3 + i) (map Ropp (repeat UNBOUNDED_DOWN 3 ++ repeat 0 F)) 0 = 0).
        { rewrite map_app. cbn [repeat map app Nat.add nth]. replace (map Ropp (repeat 0 F)) with (repeat 0 F); [apply nth_zeros|].
          clear. induction F as [|f IH]; [reflexivity|]. cbn. rewrite <- IH. f_equal. ring. }
        rewrite EB in SL. assert (EN : nth (3 + i) y 0 = b) by (rewrite Ey'; cbn; apply nth_error_nth, Hi). rewrite EN in SL. lra.
  Qed.
End FQ.
