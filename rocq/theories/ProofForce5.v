(** The QP of the force formulation when the minimiser under the balance equations
    meets the inequalities (C74). *)
From Coq Require Import Lia Lra Psatz.
From Verif Require Import Vec SpecBezier SpecTime ModelData ModelDispatch ModelUtils ModelRows ModelCom ModelNd ModelCont ModelSolver ModelTraj ModelQp
  SpecCom SpecWp SpecCtr SpecCont SpecSolver SpecTraj SpecEnd SpecEnd2 SpecEnd3 SpecQp2 SpecForce SpecForce2
  ProofBezier ProofCurve ProofCont3 ProofCont4 ProofCont5 ProofCont9 ProofSolver ProofTraj ProofQp ProofQp2 ProofQp2 ProofQp3 ProofQp14 ProofQp16 ProofQp18 ProofQp19 ProofQp6 ProofQp7 ProofEnd ProofEnd3 ProofEnd5 ProofForce ProofForce2 SpecQp.
Import ListNotations.
Open Scope R_scope.

Section FD.
  Variables (F : nat) (lam : R) (v : vec3) (rows : list (vec3 * R)) (items : list (wp6 * cphase)).
  Hypothesis HF : sumcols items = F.
  Hypothesis Hlam : force_weight <= lam.
  Hypothesis HR : forall r, In r rows -> eps52 * vnorm2 (fst r) < lam * force_weight.
  Hypothesis HI : Forall (light F lam) (strips 0 items).
  Variable s : R.
  Hypothesis HS : Forall (fun it => forall u, s * s * dot6 u u <= gen_sq (cp_G (snd it)) u) items.
  Hypothesis Hs : eps52 * (lam * lam) < s * s.
  Let p := fqp F lam v rows items.
  Let q := eqp_of p.

  Lemma fd_light l : light F lam l -> length l = (3 + F)%nat.
  Proof. intros (a & b & -> & Hb & _). rewrite app_length, Hb. reflexivity. Qed.
  Lemma fd_eqs z : eqs_hold q z <-> eqX (combine (strips 0 items) (rhss items)) (list_of (3 + F) z).
  Proof.
    assert (Lc : length (strips 0 items) = length (rhss items)) by (rewrite strips_len, rhss_len; reflexivity).
    assert (G : forall i l d, nth_error (strips 0 items) i = Some l -> nth_error (rhss items) i = Some d ->
      eq_gap q z i = rdot l (list_of (3 + F) z) - d).
    { intros i l d H1 H2. unfold eq_gap. unfold q, p. rewrite fq_n.
      change (e_CE (eqp_of (fqp F lam v rows items)) i) with (vec_of (nth i (strips 0 items) [])).
      change (e_ce (eqp_of (fqp F lam v rows items)) i) with (nth i (map Ropp (rhss items)) 0).
      rewrite (nth_error_nth _ _ _ H1), (nth_error_nth _ _ _ (map_nth_error Ropp _ _ H2)), vec_list; [ring|].
      apply fd_light. rewrite Forall_forall in HI. apply HI. eapply nth_error_In; eauto. }
    split.
    - intros H. unfold eqX. apply Forall_forall. intros [l d] Hin. apply In_nth_error in Hin. destruct Hin as [i Hi].
      apply ProofForce.nth_combine in Hi. destruct Hi as [H1 H2].
      assert (Hlt : (i < e_E q)%nat) by (unfold q, p; rewrite fq_E, <- (rhss_len items); apply nth_error_Some; congruence).
      specialize (H i Hlt). rewrite (G i l d H1 H2) in H. cbn [fst snd]. lra.
    - intros H i Hlt. unfold q, p in Hlt. rewrite fq_E in Hlt.
      destruct (nth_error (rhss items) i) as [d|] eqn:H2; [|apply nth_error_None in H2; rewrite rhss_len in H2; lia].
      destruct (nth_error (strips 0 items) i) as [l|] eqn:H1; [|apply nth_error_None in H1; rewrite Lc, rhss_len in H1; lia].
      rewrite (G i l d H1 H2). unfold eqX in H. rewrite Forall_forall in H.
      assert (Hin : In (l, d) (combine (strips 0 items) (rhss items))).
      { clear - H1 H2. revert i H1 H2. generalize (strips 0 items) (rhss items). induction l0 as [|a l0 IH]; intros [|b m] [|i] H1 H2; try discriminate; cbn in *.
        - left. congruence.
        - right. eauto. }
      specialize (H _ Hin). cbn [fst snd] in H. lra.
  Qed.
  Lemma fd_ineqs y b : length b = F -> sat rows y -> (-100000 <= vx y /\ -100000 <= vy y /\ -100000 <= vz y) -> Forall (Rle 0) b ->
    ineqs_hold q (vec_of (l3 y ++ b)).
  Proof.
    intros Lb Sy (Hy0 & Hy1 & Hy2) Hb i Hi. unfold q, p in Hi. rewrite fq_I in Hi by exact HF.
    assert (DY : forall l, length l = (3 + F)%nat -> dot (e_n q) (vec_of l) (vec_of (l3 y ++ b)) = rdot l (l3 y ++ b)).
    { intros l Hl. unfold q, p. rewrite fq_n. apply rdot_dot; [exact Hl|]. rewrite app_length, Lb. reflexivity. }
    unfold slack.
    change (e_CI q i) with (vec_of (nth i (map (map Ropp) (map fst (map (padr F) rows) ++ identity (3 + F) (-1))) [])).
    change (e_ci q i) with (nth i (map snd (map (padr F) rows) ++ map Ropp (repeat UNBOUNDED_DOWN 3 ++ repeat 0 F)) 0).
    assert (L1 : length (map (map Ropp) (map fst (map (padr F) rows))) = length rows) by (rewrite !map_length; reflexivity).
    assert (L2 : length (map snd (map (padr F) rows)) = length rows) by (rewrite !map_length; reflexivity).
    rewrite map_app. destruct (lt_dec i (length rows)) as [Hr|Hr].
    - rewrite !app_nth1 by lia. destruct (nth_error rows i) as [r|] eqn:E; [|apply nth_error_None in E; lia]. rewrite !map_map.
      rewrite (nth_error_nth _ _ _ (map_nth_error _ _ _ E)), (nth_error_nth _ _ _ (map_nth_error _ _ _ E)).
      rewrite DY by (rewrite map_length; apply fd_light, (light_row F lam rows Hlam HR); eapply nth_error_In; eauto).
      rewrite rdot_opp_l. unfold padr; cbn [fst snd]. rewrite ProofCont3.rdot_app by reflexivity. rewrite rdot_l3, ProofCont3.rdot_zeros.
      unfold sat in Sy. rewrite Forall_forall in Sy. specialize (Sy r (nth_error_In _ _ E)). cbv beta in Sy. lra.
    - set (j := (i - length rows)%nat). assert (Ej : i = (length rows + j)%nat) by (unfold j; lia). rewrite Ej.
      assert (N : forall {A} (l m : list A) d n j, length l = n -> nth (n + j) (l ++ m) d = nth j m d) by (intros A l m d n j0 <-; apply app_nth2_plus).
      rewrite (N _ _ _ _ _ _ L1), (N _ _ _ _ _ _ L2).
      assert (Hj : (j < 3 + F)%nat) by (unfold j; lia).
      assert (EI : nth j (map (map Ropp) (identity (3 + F) (-1))) [] = map Ropp (identity_row (3 + F) j (-1))).
      { change (@nil R) with (map Ropp []) at 1. rewrite map_nth. f_equal. unfold identity.
        rewrite (nth_indep _ [] (identity_row (3 + F) 0 (-1))) by (rewrite map_length, seq_length; lia).
        rewrite (map_nth (fun i => identity_row (3 + F) i (-1))), seq_nth by lia. reflexivity. }
      rewrite EI, DY by (rewrite map_length; unfold identity_row; rewrite map_length, seq_length; reflexivity).
      assert (EQ : rdot (identity_row (3 + F) j (-1)) (l3 y ++ b) = -1 * nth j (l3 y ++ b) 0).
      { apply (identity_row_rdot (-1) (3 + F) 0 (l3 y ++ b) j); [rewrite app_length, Lb; reflexivity|lia]. }
      rewrite rdot_opp_l, EQ. rewrite map_app.
      replace (map Ropp (repeat 0 F)) with (repeat 0 F) by (clear; induction F as [|f IH]; [reflexivity|]; cbn; rewrite <- IH; f_equal; ring).
      destruct j as [|[|[|j]]]; cbn [repeat map app l3 nth]; unfold UNBOUNDED_DOWN; try lra.
      rewrite nth_zeros. assert (Hn : (j < length b)%nat) by (rewrite Lb; lia).
      rewrite Forall_forall in Hb. specialize (Hb (nth j b 0) (nth_In _ _ Hn)). lra.
  Qed.
  Lemma fd_obj y b : length b = F ->
    objective q (vec_of (l3 y ++ b)) = 1 / 2 * (lam * vnorm2 y + force_weight * rdot b b) + vdot v y.
  Proof.
    intros Lb. unfold objective, q, p. rewrite fq_n. f_equal.
    - f_equal. unfold dot. rewrite (sumf_ext _ _ (fun i => hd lam i * (vec_of (l3 y ++ b) i * vec_of (l3 y ++ b) i))).
      + rewrite sumf_split. f_equal.
        * unfold hd, vec_of, vnorm2, vdot; cbn. ring.
        * rewrite <- (rdot_dot b b F Lb Lb). unfold dot. rewrite <- sumf_scal. apply sumf_ext. intros i Hi.
          unfold hd. destruct (Nat.ltb_spec (3 + i) 3); [lia|]. unfold vec_of. rewrite app_nth2 by (cbn; lia). replace (3 + i - length (l3 y))%nat with i by (cbn; lia). reflexivity.
      + intros i Hi. rewrite fq_hmul by assumption. ring.
    - change (e_g (eqp_of (fqp F lam v rows items))) with (vec_of (l3 v ++ repeat 0 F)).
      rewrite rdot_dot by (rewrite app_length, ?repeat_length, ?Lb; reflexivity).
      rewrite ProofCont3.rdot_app by reflexivity. rewrite rdot_l3, ProofCont3.rdot_zeros. ring.
  Qed.

  Lemma fq_direct mem init y b : length b = F -> sat rows y -> (-100000 <= vx y /\ -100000 <= vy y /\ -100000 <= vz y) -> Forall (Rle 0) b ->
    eqX (combine (strips 0 items) (rhss items)) (l3 y ++ b) ->
    (forall y' b', length b' = F -> eqX (combine (strips 0 items) (rhss items)) (l3 y' ++ b') ->
       lam * vnorm2 y + 2 * vdot v y + force_weight * rdot b b <= lam * vnorm2 y' + 2 * vdot v y' + force_weight * rdot b' b') ->
    exists obj, solve_quadprog mem p init = Ok (st_OPTIMAL, l3 y ++ b, obj).
  Proof.
    intros Lb Sy Hy Hb He Hm.
    assert (Lz : length (l3 y ++ b) = (3 + F)%nat) by (rewrite app_length, Lb; reflexivity).
    assert (FE : feasible q (vec_of (l3 y ++ b))).
    { split; [|apply fd_ineqs; assumption]. apply fd_eqs. rewrite list_of_vec by exact Lz. exact He. }
    assert (MI : forall z, eqs_hold q z -> objective q (vec_of (l3 y ++ b)) <= objective q z).
    { intros z Hz. apply fd_eqs in Hz. assert (Ll : length (list_of (3 + F) z) = (3 + F)%nat) by apply list_of_len.
      assert (EO : objective q z = objective q (vec_of (list_of (3 + F) z))).
      { unfold objective. assert (X : forall i, (i < e_n q)%nat -> z i = vec_of (list_of (3 + F) z) i).
        { intros i Hi. unfold q, p in Hi. rewrite fq_n in Hi. unfold vec_of. rewrite list_of_nth by exact Hi. reflexivity. }
        f_equal; [f_equal|]; apply dot_ext; auto. intros i Hi. unfold hmul. apply dot_ext; auto. }
      rewrite EO. destruct (list_of (3 + F) z) as [|y0 [|y1 [|y2 b']]]; try discriminate.
      change (y0 :: y1 :: y2 :: b') with (l3 (V3 y0 y1 y2) ++ b') in *. assert (Lb' : length b' = F) by (cbn in Ll; lia).
      specialize (Hm _ b' Lb' Hz). rewrite !fd_obj by assumption. lra. }
    destruct (c72_direct q mem force_weight (vec_of (l3 y ++ b)) (fq_sym F lam v rows items HF) (fq_weighted F lam v rows items HF Hlam HR HI)
       (fq_apart F lam v rows items HF Hlam s HS Hs) (proj1 (Nat.ltb_lt 1 DEFAULT_MAX_ITER) eq_refl) FE MI) as (st & E & HX & _).
    exists (q_f st). unfold solve_quadprog. fold q.
    assert (EM : execution q mem (max_steps q) = Ok (Done st_OPTIMAL st)).
    { unfold execution in *. replace (max_steps q) with (1 + (max_steps q - 1))%nat by (unfold max_steps; lia). rewrite steps_add, E. apply steps_done. }
    rewrite EM. do 3 f_equal. rewrite <- (list_of_vec (l3 y ++ b) (3 + F) Lz).
    assert (Eg : length (qp_g p) = (3 + F)%nat) by exact (fq_n F lam v rows items). rewrite Eg.
    unfold list_of. apply map_ext_in. intros i Hi. apply in_seq in Hi. apply HX. unfold q, p. rewrite fq_n. lia.
  Qed.
End FD.
