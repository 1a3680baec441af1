(** QP solver: conditioned problems without equalities, and those in three variables
    whose Hessian is a multiple of the identity. *)
From Coq Require Import Lia Lra Psatz.
From Verif Require Import Vec SpecBezier SpecCtr SpecTraj ModelData ModelCont ModelSolver ModelTraj ModelQp SpecQp SpecEnd
  ProofBezier ProofQp ProofQp2 ProofQp3 ProofQp4 ProofQp5 ProofQp6 ProofQp7 ProofQp13 ProofEnd.
Open Scope R_scope.

Lemma tolerance_nonneg q L : is_cholesky q L -> 0 <= tolerance q L.
Proof.
  intros (HD & _ & HH). unfold tolerance. pose proof eps_pos. pose proof (pos_INR (e_I q)).
  repeat apply Rmult_le_pos; try lra.
  - apply sumf_nonneg. intros i Hi. rewrite HH by exact Hi. apply sumf_sq_nonneg.
  - apply sumf_nonneg. intros i Hi. apply Rlt_le, Rinv_0_lt_compat, HD, Hi.
Qed.
Lemma psolve_ends q mem lam : symmetric q -> conditioned q lam -> e_E q = 0%nat ->
  exists L k s st, is_cholesky q L /\ (k <= max_steps q)%nat /\ execution q mem k = Ok (Done s st) /\
    (s = st_OPTIMAL \/ s = st_MAX_ITER \/ s = st_UNBOUNDED) /\ (s = st_OPTIMAL -> violation q (q_x st) <= tolerance q L).
Proof.
  intros Sy C E0. destruct (psolve q mem lam Sy C E0) as (L & k & s & st & HL & Hk & E & P). exists L, k, s, st.
  split; [exact HL|]. split; [exact Hk|]. split; [exact E|]. pose proof (tolerance_nonneg q L HL).
  inversion P as [st' HV|st'|st']; subst; (split; [tauto|]); intros HO; try discriminate. destruct HV; lra.
Qed.

(** C41, C42 *)
Lemma c41_conditioned q mem lam : symmetric q -> conditioned q lam -> e_E q = 0%nat ->
  exists status st, returns q mem status st /\ (status = st_OPTIMAL \/ status = st_MAX_ITER \/ status = st_UNBOUNDED) /\
    (status = st_OPTIMAL -> exists L, is_cholesky q L /\ violation q (q_x st) <= tolerance q L).
Proof.
  intros Sy C E0. destruct (psolve_ends q mem lam Sy C E0) as (L & k & s & st & HL & _ & E & Hs & HV).
  exists s, st. split; [exists k; exact E|]. split; [exact Hs|]. intros HO. exists L. split; [exact HL|exact (HV HO)].
Qed.
Lemma returns_defined q mem s st : returns q mem s st -> ~ undefined q mem.
Proof.
  intros (k & E) (k' & E'). unfold execution in *. assert (P : steps q (k + k') (solve_init q mem) = steps q (k' + k) (solve_init q mem)) by (f_equal; lia).
  rewrite !steps_add, E, E', steps_done in P. destruct k; discriminate.
Qed.
Lemma c42_conditioned q mem lam : symmetric q -> conditioned q lam -> e_E q = 0%nat -> ~ undefined q mem.
Proof. intros Sy C E0. destruct (c41_conditioned q mem lam Sy C E0) as (s & st & HR & _). exact (returns_defined q mem s st HR). Qed.

Lemma solve_quadprog_ok mem p init lam : symmetric (eqp_of p) -> conditioned (eqp_of p) lam -> qp_ce0 p = [] ->
  exists L s st, is_cholesky (eqp_of p) L /\ solve_quadprog mem p init = Ok (s, list_of (length (qp_g p)) (q_x st), q_f st) /\
    returns (eqp_of p) mem s st /\ (s = st_OPTIMAL -> violation (eqp_of p) (q_x st) <= tolerance (eqp_of p) L).
Proof.
  intros Sy C E0. destruct (psolve_ends (eqp_of p) mem lam Sy C) as (L & k & s & st & HL & Hk & E & _ & HV); [cbn; rewrite E0; reflexivity|].
  exists L, s, st. split; [exact HL|]. split; [|split; [exists k; exact E|exact HV]].
  assert (EM : execution (eqp_of p) mem (max_steps (eqp_of p)) = Ok (Done s st)).
  { unfold execution in *. replace (max_steps (eqp_of p)) with (k + (max_steps (eqp_of p) - k))%nat by lia. rewrite steps_add, E. apply steps_done. }
  unfold solve_quadprog. rewrite EM. reflexivity.
Qed.

Lemma slack_violation q x i : (i < e_I q)%nat -> - violation q x <= slack q x i.
Proof.
  intros Hi. unfold violation. set (f := fun i => Rmax 0 (- slack q x i)).
  assert (H : f i <= sumf (e_I q) f).
  { assert (P : forall j, 0 <= f j) by (intros; apply Rmax_l). clearbody f. induction (e_I q) as [|n IH]; [lia|]. cbn [sumf].
    destruct (Nat.eq_dec i n) as [->|]; [pose proof (sumf_nonneg n f (fun j _ => P j)); lra|]. pose proof (P n). specialize (IH ltac:(lia)). lra. }
  unfold f in H at 1. pose proof (Rmax_r 0 (- slack q x i)). lra.
Qed.

(** * Three variables *)
Section Three.
  Variables (lam : R) (H : list (list R)) (v : vec3) (rows : list (vec3 * R)).
  Hypothesis HH : forall i j, (i < 3)%nat -> (j < 3)%nat -> mat_of H i j = if Nat.eqb i j then lam else 0.
  Hypothesis HL : eps52 < lam.
  Hypothesis HR : forall r, In r rows -> eps52 * vnorm2 (fst r) < lam * lam.
  Definition p3 : qp := QP H (l3 v) [] [] (map (map Ropp) (map (fun r => l3 (fst r)) rows)) (map snd rows).
  Let q := eqp_of p3.
  Definition x3 (x : rvec) : vec3 := V3 (x 0%nat) (x 1%nat) (x 2%nat).

  Lemma q3_n : e_n q = 3%nat. Proof. reflexivity. Qed.
  Lemma q3_hmul z i : (i < 3)%nat -> hmul q z i = lam * z i.
  Proof.
    intros Hi. unfold hmul. rewrite q3_n. unfold dot. cbn [sumf]. change (e_H q) with (mat_of H). rewrite !HH by lia.
    destruct i as [|[|[|i]]]; [| | |lia]; cbn [Nat.eqb]; ring.
  Qed.
  Lemma q3_row i r : nth_error rows i = Some r -> e_CI q i = vec_of (l3 (vopp (fst r))) /\ e_ci q i = snd r.
  Proof.
    intros E. unfold q, p3, eqp_of; cbn [e_CI e_ci qp_CI qp_ci0]. unfold mat_of, vec_of. split.
    - rewrite map_map. erewrite nth_error_nth by (apply map_nth_error; exact E). reflexivity.
    - erewrite nth_error_nth by (apply map_nth_error; exact E). reflexivity.
  Qed.
  Lemma dot_l3 a x : dot 3 (vec_of (l3 a)) x = vdot a (x3 x).
  Proof. unfold dot, vec_of, vdot, l3, x3; cbn. ring. Qed.
  Lemma q3_slack x i r : nth_error rows i = Some r -> slack q x i = snd r - vdot (fst r) (x3 x).
  Proof.
    intros E. destruct (q3_row i r E) as [E1 E2]. unfold slack. rewrite E1, E2, q3_n, dot_l3. unfold vdot, vopp; cbn. ring.
  Qed.
  Lemma q3_symmetric : symmetric q.
  Proof.
    intros i j Hi Hj. rewrite q3_n in *. change (e_H q) with (mat_of H). rewrite !HH, (Nat.eqb_sym j i) by assumption. reflexivity.
  Qed.
  Lemma q3_conditioned : conditioned q lam.
  Proof.
    split; [exact HL|]. split.
    - intros z. rewrite q3_n. unfold dot. cbn [sumf]. rewrite !q3_hmul by lia. lra.
    - intros w [(i & Hi & _)|(i & Hi & ->)]; [cbn in Hi; lia|].
      change (e_I q) with (length (map snd rows)) in Hi. rewrite map_length in Hi.
      destruct (nth_error rows i) as [r|] eqn:E; [|apply nth_error_None in E; lia].
      destruct (q3_row i r E) as [-> _]. rewrite q3_n, dot_l3.
      replace (vdot (vopp (fst r)) (x3 (vec_of (l3 (vopp (fst r)))))) with (vnorm2 (fst r)); [apply HR; eapply nth_error_In; eauto|].
      unfold vnorm2, vdot, vopp, x3, vec_of, l3; cbn. ring.
  Qed.
  Lemma q3_tolerance L : is_cholesky q L -> tolerance q L = plan_tol (length rows) lam.
  Proof.
    intros (HD & HU & HC). rewrite q3_n in *. change (e_H q) with (mat_of H) in HC.
    pose proof (HD 0%nat ltac:(lia)) as D0. pose proof (HD 1%nat ltac:(lia)) as D1. pose proof (HD 2%nat ltac:(lia)) as D2.
    pose proof (HU 0%nat 1%nat ltac:(lia)) as U1. pose proof (HU 0%nat 2%nat ltac:(lia)) as U2. pose proof (HU 1%nat 2%nat ltac:(lia)) as U3.
    pose proof (HC 0%nat 0%nat ltac:(lia) ltac:(lia)) as C0. pose proof (HC 1%nat 0%nat ltac:(lia) ltac:(lia)) as C10.
    pose proof (HC 2%nat 0%nat ltac:(lia) ltac:(lia)) as C20. pose proof (HC 1%nat 1%nat ltac:(lia) ltac:(lia)) as C1.
    pose proof (HC 2%nat 1%nat ltac:(lia) ltac:(lia)) as C21. pose proof (HC 2%nat 2%nat ltac:(lia) ltac:(lia)) as C2.
    rewrite HH in C0, C10, C20, C1, C21, C2 by lia. cbn [Nat.eqb sumf] in *. rewrite U1, U2 in *. rewrite U3 in *.
    assert (Z10 : L 1%nat 0%nat = 0) by (assert (L 1%nat 0%nat * L 0%nat 0%nat = 0) as Z by lra; apply Rmult_integral in Z; lra).
    assert (Z20 : L 2%nat 0%nat = 0) by (assert (L 2%nat 0%nat * L 0%nat 0%nat = 0) as Z by lra; apply Rmult_integral in Z; lra).
    rewrite Z10, Z20 in *.
    assert (Z21 : L 2%nat 1%nat = 0) by (assert (L 2%nat 1%nat * L 1%nat 1%nat = 0) as Z by lra; apply Rmult_integral in Z; lra).
    rewrite Z21 in *. pose proof eps_pos as EP.
    assert (S0 : forall l, 0 < l -> l * l = lam -> l = sqrt lam) by (intros l P <-; symmetry; apply sqrt_square; lra).
    unfold tolerance, trace. rewrite q3_n. change (e_H q) with (mat_of H). change (e_I q) with (length (map snd rows)). rewrite map_length.
    cbn [sumf]. rewrite !HH by lia. cbn [Nat.eqb]. rewrite (S0 _ D0), (S0 _ D1), (S0 _ D2) by lra. unfold plan_tol.
    assert (SP : 0 < sqrt lam) by (apply sqrt_lt_R0; lra). set (s := sqrt lam) in *.
    replace lam with (s * s) by (apply sqrt_sqrt; lra). field. lra.
  Qed.

  Lemma solve3_ok mem init : exists s x obj, solve_quadprog mem p3 init = Ok (s, l3 x, obj) /\
    (s = EIQUADPROG_FAST_OPTIMAL -> near (plan_tol (length rows) lam) rows x).
  Proof.
    destruct (solve_quadprog_ok mem p3 init lam q3_symmetric q3_conditioned eq_refl) as (L & s & st & HC & E & _ & HV).
    exists s, (x3 (q_x st)), (q_f st). split; [exact E|]. intros HO. specialize (HV HO). fold q in HV, HC. rewrite (q3_tolerance L HC) in HV.
    unfold near. rewrite Forall_forall. intros r Hr. apply In_nth_error in Hr. destruct Hr as [i Hi].
    assert (Hl : (i < e_I q)%nat). { change (e_I q) with (length (map snd rows)). rewrite map_length. apply nth_error_Some. congruence. }
    pose proof (slack_violation q (q_x st) i Hl) as HS. rewrite (q3_slack _ _ _ Hi) in HS. lra.
  Qed.
End Three.
