(** QP solver: accuracy in terms of the problem, and problems given by lists of rows
    in any number of variables. *)
From Coq Require Import Lia Lra Psatz.
From Verif Require Import Vec SpecBezier SpecCtr SpecWp SpecSolver SpecTraj ModelData ModelCont ModelSolver ModelTraj ModelQp SpecEnd SpecEnd3
  ProofBezier ProofQp ProofQp2 ProofQp3 ProofQp4 ProofQp5 ProofQp6 ProofQp7 ProofQp11 ProofQp13 ProofQp14 ProofQp15 ProofEnd ProofEnd4 SpecQp.
Import ListNotations.
Open Scope R_scope.

(** * The diagonal of the Cholesky factor *)
Lemma chol_diag q L lam : is_cholesky q L -> 0 < lam -> (forall z, lam * dot (e_n q) z z <= dot (e_n q) z (hmul q z)) ->
  forall i, (i < e_n q)%nat -> / L i i <= / sqrt lam.
Proof.
  intros (D & T & M) HL HP i Hi. set (n := e_n q) in *. set (z := fun k => inv_upper n L k i).
  assert (E1 : dot n z (hmul q z) = 1).
  { unfold hmul, dot. fold n.
    rewrite (sumf_ext n _ (fun a => sumf n (fun k => z a * L a k * sumf n (fun b => L b k * z b)))).
    - rewrite sumf_swap. rewrite (sumf_ext n _ (fun k => delta i k * (delta i k * 1))).
      + rewrite delta_sum by exact Hi. unfold delta. rewrite Nat.eqb_refl. ring.
      + intros k Hk. pose proof (uj n L D T k i Hk) as U. unfold upper in U. fold z in U.
        rewrite (sumf_scal_r n _ (fun a => z a * L a k)). rewrite (sumf_ext n (fun a => z a * L a k) (fun a => L a k * z a)) by (intros; ring).
        change (sumf n (fun j => L j k * z j) = delta k i) in U. rewrite U. unfold delta. rewrite (Nat.eqb_sym k i). ring.
    - intros a Ha. rewrite <- sumf_scal. rewrite (sumf_ext n _ (fun b => sumf n (fun k => z a * L a k * (L b k * z b)))).
      + rewrite sumf_swap. apply sumf_ext. intros k Hk. rewrite sumf_scal. reflexivity.
      + intros b Hb. rewrite (M a b Ha Hb). rewrite <- sumf_scal_r, <- sumf_scal. apply sumf_ext. intros; ring. }
  pose proof (HP z) as P. fold n in P. rewrite E1 in P.
  assert (S : z i * z i <= dot n z z).
  { unfold dot. assert (G : forall m, (i < m)%nat -> z i * z i <= sumf m (fun k => z k * z k)).
    { induction m as [|m IH]; intros Hm; [lia|]. cbn [sumf]. destruct (Nat.eq_dec i m) as [->|].
      - pose proof (sumf_sq_nonneg m z). lra.
      - specialize (IH ltac:(lia)). pose proof (Rle_0_sqr (z m)) as Q. unfold Rsqr in Q. lra. }
    apply G; exact Hi. }
  assert (Z : z i = / L i i) by (apply (inv_diag n L D T i Hi)).
  assert (ZP : 0 < z i) by (rewrite Z; apply Rinv_0_lt_compat, D, Hi). rewrite <- Z.
  assert (SP : 0 < sqrt lam) by (apply sqrt_lt_R0; exact HL). assert (SS : sqrt lam * sqrt lam = lam) by (apply sqrt_sqrt; lra).
  set (s := sqrt lam) in *. assert (B : (s * z i) * (s * z i) <= 1) by nra.
  assert (B2 : s * z i <= 1) by (assert (0 < s * z i) by (apply Rmult_lt_0_compat; assumption); nra).
  apply Rmult_le_reg_l with s; [exact SP|]. rewrite Rinv_r by lra. exact B2.
Qed.
Lemma sumf_le n f g : (forall i, (i < n)%nat -> f i <= g i) -> sumf n f <= sumf n g.
Proof. induction n as [|n IH]; intros H; cbn [sumf]; [lra|]. pose proof (H n ltac:(lia)). assert (sumf n f <= sumf n g) by (apply IH; intros; apply H; lia). lra. Qed.
Lemma sumf_cst n c : sumf n (fun _ => c) = INR n * c.
Proof. induction n as [|n IH]; [cbn; ring|]. cbn [sumf]. rewrite IH, S_INR. ring. Qed.
Lemma trace_nonneg q L : is_cholesky q L -> 0 <= trace (e_n q) (e_H q).
Proof. intros (_ & _ & M). apply sumf_nonneg. intros i Hi. rewrite M by exact Hi. apply sumf_sq_nonneg. Qed.
Lemma tolerance_accuracy q L lam : is_cholesky q L -> 0 < lam -> (forall z, lam * dot (e_n q) z z <= dot (e_n q) z (hmul q z)) ->
  tolerance q L <= accuracy (e_n q) (e_I q) (trace (e_n q) (e_H q)) lam.
Proof.
  intros HC HL HP. unfold tolerance, accuracy. pose proof eps_pos. pose proof (pos_INR (e_I q)). pose proof (trace_nonneg q L HC).
  assert (S : sumf (e_n q) (fun i => / L i i) <= INR (e_n q) * / sqrt lam).
  { rewrite <- sumf_cst. apply sumf_le. intros i Hi. apply (chol_diag q L lam); assumption. }
  unfold Rdiv. replace (100 * INR (e_n q) * INR (e_I q) * eps52 * trace (e_n q) (e_H q) * / sqrt lam)
    with (INR (e_I q) * eps52 * trace (e_n q) (e_H q) * (INR (e_n q) * / sqrt lam) * 100) by ring.
  apply Rmult_le_compat_r; [lra|]. apply Rmult_le_compat_l; [|exact S]. repeat apply Rmult_le_pos; try assumption; lra.
Qed.
Lemma c41_accuracy q mem lam : symmetric q -> conditioned q lam -> e_E q = 0%nat ->
  exists status st, returns q mem status st /\ (status = st_OPTIMAL \/ status = st_MAX_ITER \/ status = st_UNBOUNDED) /\
    (status = st_OPTIMAL -> violation q (q_x st) <= accuracy (e_n q) (e_I q) (trace (e_n q) (e_H q)) lam).
Proof.
  intros Sy C E0. destruct (c41_conditioned q mem lam Sy C E0) as (s & st & RT & Hs & HV). exists s, st. split; [exact RT|]. split; [exact Hs|].
  intros HO. destruct (HV HO) as (L & HL & V). pose proof eps_pos. destruct C as (C1 & C2 & _).
  pose proof (tolerance_accuracy q L lam HL ltac:(lra) C2). lra.
Qed.

(** * Problems given by lists *)
Lemma rdot_dot : forall a b n, length a = n -> length b = n -> dot n (vec_of a) (vec_of b) = rdot a b.
Proof.
  unfold dot, vec_of. induction a as [|u a IH]; intros [|v b] [|n] H1 H2; try discriminate; [reflexivity|]. cbn in H1, H2. injection H1 as H1. injection H2 as H2.
  rewrite sumf_S_l. cbn [nth rdot]. rewrite (IH b n H1 H2). reflexivity.
Qed.
Lemma list_of_len n f : length (list_of n f) = n.
Proof. unfold list_of. rewrite map_length, seq_length. reflexivity. Qed.
Lemma list_of_nth n f i : (i < n)%nat -> nth i (list_of n f) 0 = f i.
Proof.
  intros Hi. unfold list_of. rewrite (nth_indep _ 0 (f 0%nat)) by (rewrite map_length, seq_length; exact Hi). rewrite map_nth, seq_nth by exact Hi. reflexivity.
Qed.
Lemma list_of_vec l n : length l = n -> list_of n (vec_of l) = l.
Proof.
  intros H. apply (nth_ext _ _ 0 0); [rewrite list_of_len; auto|]. intros i Hi. rewrite list_of_len in Hi. rewrite list_of_nth by exact Hi. reflexivity.
Qed.
Lemma vec_list n f a : length a = n -> dot n (vec_of a) f = rdot a (list_of n f).
Proof.
  intros H. rewrite <- (rdot_dot a (list_of n f) n H (list_of_len n f)). apply dot_ext; [reflexivity|]. intros i Hi. unfold vec_of. rewrite list_of_nth by exact Hi. reflexivity.
Qed.

Section Lists.
  Variables (wg : bool) (mem : qst) (glpk : lp -> outcome (Z * R * list R)).
  Variables (n : nat) (H : list (list R)) (g : list R) (rows : list (list R * R)) (lam : R).
  Hypothesis Hg : length g = n.
  Hypothesis HH : length H = n.
  Hypothesis HHr : Forall (fun r => length r = n) H.
  Hypothesis HR : Forall (fun r => length (fst r) = n) rows.
  Hypothesis HS : forall i j, (i < n)%nat -> (j < n)%nat -> mat_of H i j = mat_of H j i.
  Hypothesis HP : forall v, length v = n -> lam * rdot v v <= quad H v.
  Hypothesis HL : 0 < lam.
  Definition pl : qp := ineq_qp H g rows.
  Let q := eqp_of pl.

  Lemma pl_n : e_n q = n. Proof. exact Hg. Qed.
  Lemma pl_I : e_I q = length rows. Proof. cbn. apply map_length. Qed.
  Lemma pl_hmul z i : (i < n)%nat -> hmul q z i = rdot (nth i H []) (list_of n z).
  Proof.
    intros Hi. unfold hmul. rewrite pl_n. change (e_H q i) with (vec_of (nth i H [])). apply vec_list.
    rewrite Forall_forall in HHr. apply HHr, nth_In. rewrite HH. exact Hi.
  Qed.
  Lemma pl_quad z : dot n z (hmul q z) = quad H (list_of n z).
  Proof.
    unfold quad. rewrite <- (rdot_dot _ _ n) by (rewrite ?map_length, ?list_of_len; auto). rewrite dot_sym. apply dot_ext.
    - intros i Hi. rewrite pl_hmul by exact Hi. unfold vec_of.
      rewrite (nth_indep _ 0 (rdot [] (list_of n z))) by (rewrite map_length, HH; exact Hi). rewrite (map_nth (fun r => rdot r (list_of n z)) H [] i). reflexivity.
    - intros i Hi. unfold vec_of. rewrite list_of_nth by exact Hi. reflexivity.
  Qed.
  Lemma pl_norm z : dot n z z = rdot (list_of n z) (list_of n z).
  Proof. rewrite <- (rdot_dot _ _ n) by apply list_of_len. apply dot_ext; intros i Hi; unfold vec_of; rewrite list_of_nth by exact Hi; reflexivity. Qed.
  Lemma pl_bound z : lam * dot (e_n q) z z <= dot (e_n q) z (hmul q z).
  Proof. rewrite pl_n, pl_quad, pl_norm. apply HP, list_of_len. Qed.
  Lemma pl_symmetric : symmetric q.
  Proof. intros i j Hi Hj. rewrite pl_n in *. apply HS; assumption. Qed.
  Lemma pl_convex : convex q.
  Proof.
    split; [exact pl_symmetric|]. intros v (i & Hi & Hv). pose proof (pl_bound v) as B.
    assert (P : 0 < dot (e_n q) v v).
    { destruct (Rle_lt_or_eq_dec 0 (dot (e_n q) v v) (sumf_sq_nonneg _ _)) as [P|P]; [exact P|]. exfalso. apply Hv. exact (sumf_sq_zero _ _ (eq_sym P) i Hi). }
    nra.
  Qed.
  Lemma pl_row i r : nth_error rows i = Some r -> e_CI q i = vec_of (map Ropp (fst r)) /\ e_ci q i = snd r.
  Proof.
    intros E. unfold q, pl, ineq_qp, eqp_of; cbn [e_CI e_ci qp_CI qp_ci0]. unfold mat_of, vec_of. split.
    - rewrite map_map. erewrite nth_error_nth by (apply map_nth_error; exact E). reflexivity.
    - erewrite nth_error_nth by (apply map_nth_error; exact E). reflexivity.
  Qed.
  Lemma row_len r : In r rows -> length (fst r) = n.
  Proof. rewrite Forall_forall in HR. apply HR. Qed.
  Lemma rdot_opp_l : forall a b, rdot (map Ropp a) b = - rdot a b.
  Proof. induction a as [|u a IH]; intros [|v b]; cbn; try ring. rewrite IH. ring. Qed.
  Lemma rdot_opp2 : forall a, rdot (map Ropp a) (map Ropp a) = rdot a a.
  Proof. induction a as [|u a IH]; cbn; [reflexivity|]. rewrite IH. ring. Qed.
  Lemma pl_slack z i r : nth_error rows i = Some r -> slack q z i = snd r - rdot (fst r) (list_of n z).
  Proof.
    intros E. destruct (pl_row i r E) as [E1 E2]. unfold slack. rewrite E1, E2, pl_n, vec_list.
    - rewrite rdot_opp_l. ring.
    - rewrite map_length. apply row_len. eapply nth_error_In; eauto.
  Qed.
  Lemma pl_ineqs y : length y = n -> satX rows y -> ineqs_hold q (vec_of y).
  Proof.
    intros Ly S i Hi. rewrite pl_I in Hi. destruct (nth_error rows i) as [r|] eqn:E; [|apply nth_error_None in E; lia].
    rewrite (pl_slack _ i r E), (list_of_vec y n Ly). unfold satX in S. rewrite Forall_forall in S. specialize (S r (nth_error_In _ _ E)). lra.
  Qed.
  Lemma pl_objective z : objective q z = 1 / 2 * quad H (list_of n z) + rdot g (list_of n z).
  Proof. unfold objective. rewrite pl_n, pl_quad. change (e_g q) with (vec_of g). rewrite (vec_list n z g Hg). reflexivity. Qed.

  Lemma pl_solve init s x obj : length init = n -> solve_quadprog mem pl init = Ok (s, x, obj) ->
    solve_noeq wg (solve_quadprog mem) glpk (MX n (map fst rows)) (map snd rows) H g init SOLVER_QUADPROG
    = Ok (ResultData (Z.eqb s EIQUADPROG_FAST_OPTIMAL) (if Z.eqb s EIQUADPROG_FAST_OPTIMAL then obj else -1) x).
  Proof.
    intros Hi E. unfold solve_noeq, solve. rewrite Z.eqb_refl. cbn [addBoundaryConstraintsQuadProg addConstraintMinBoundQuadProg addConstraintMaxBoundQuadProg bind fst snd].
    cbn [map mx_rows]. unfold pl, ineq_qp in E. rewrite E. reflexivity.
  Qed.

  (** the unconstrained minimiser *)
  Lemma pl_direct init y : length init = n -> length y = n -> satX rows y ->
    (forall i, (i < n)%nat -> rdot (nth i H []) y + nth i g 0 = 0) ->
    exists obj, solve_noeq wg (solve_quadprog mem) glpk (MX n (map fst rows)) (map snd rows) H g init SOLVER_QUADPROG = Ok (ResultData true obj y).
  Proof.
    intros Hi Ly S G. destruct (solve_direct mem pl init (vec_of y) pl_convex eq_refl (pl_ineqs y Ly S)) as (obj & E).
    { intros i Hn. change (e_n (eqp_of pl)) with (e_n q) in Hn. change (eqp_of pl) with q. rewrite pl_n in Hn. rewrite pl_hmul by exact Hn. rewrite (list_of_vec y n Ly). apply G. exact Hn. }
    exists obj. rewrite (pl_solve init _ _ _ Hi E). rewrite Z.eqb_refl. do 2 f_equal. change (qp_g pl) with g. rewrite Hg. apply list_of_vec. exact Ly.
  Qed.

  Hypothesis HE : eps52 < lam.
  Hypothesis HB : forall r, In r rows -> eps52 * rdot (fst r) (fst r) < lam * lam.
  Lemma pl_conditioned : conditioned q lam.
  Proof.
    split; [exact HE|]. split; [exact pl_bound|]. intros w [(i & Hi & _)|(i & Hi & ->)]; [cbn in Hi; lia|]. rewrite pl_I in Hi.
    destruct (nth_error rows i) as [r|] eqn:E; [|apply nth_error_None in E; lia]. destruct (pl_row i r E) as [-> _].
    pose proof (nth_error_In _ _ E) as IN. rewrite pl_n, rdot_dot by (rewrite map_length; apply row_len; exact IN). rewrite rdot_opp2. apply HB. exact IN.
  Qed.
  Lemma pl_ok init : length init = n -> exists s st,
    solve_noeq wg (solve_quadprog mem) glpk (MX n (map fst rows)) (map snd rows) H g init SOLVER_QUADPROG
      = Ok (ResultData (Z.eqb s EIQUADPROG_FAST_OPTIMAL) (if Z.eqb s EIQUADPROG_FAST_OPTIMAL then q_f st else -1) (list_of n (q_x st))) /\
    returns q mem s st /\
    (s = EIQUADPROG_FAST_OPTIMAL -> forall r, In r rows -> rdot (fst r) (list_of n (q_x st)) <= snd r + accuracy n (length rows) (trace n (mat_of H)) lam).
  Proof.
    intros Hi. destruct (solve_quadprog_ok mem pl init lam pl_symmetric pl_conditioned eq_refl) as (L & s & st & HC & E & RT & HV).
    exists s, st. change (qp_g pl) with g in E. rewrite Hg in E. split; [exact (pl_solve init _ _ _ Hi E)|]. split; [exact RT|].
    intros HO r Hr. specialize (HV HO). fold q in HV, HC. pose proof (tolerance_accuracy q L lam HC HL pl_bound) as TA. rewrite pl_n, pl_I in TA.
    change (e_H q) with (mat_of H) in TA. apply In_nth_error in Hr. destruct Hr as [i Ei].
    assert (Hl : (i < e_I q)%nat) by (rewrite pl_I; apply nth_error_Some; congruence).
    pose proof (slack_violation q (q_x st) i Hl) as SV. rewrite (pl_slack _ _ _ Ei) in SV. lra.
  Qed.
  Lemma pl_optimal s st y : returns q mem s st -> well_scaled q -> length y = n -> satX rows y ->
    (s = EIQUADPROG_FAST_OPTIMAL /\
       1 / 2 * quad H (list_of n (q_x st)) + rdot g (list_of n (q_x st)) <= 1 / 2 * quad H y + rdot g y) \/
    (s = st_MAX_ITER /\ (1000 <= subsets (length rows) n)%nat).
  Proof.
    intros RT HW Ly S. assert (E0 : e_E q = 0%nat) by reflexivity.
    assert (F : feasible q (vec_of y)) by (split; [intros i Hi; rewrite E0 in Hi; lia|apply pl_ineqs; assumption]).
    destruct (c40_solves q mem pl_convex HW ltac:(lia) st s RT) as [E|E].
    - intros (c & (k & Hk & _) & _). rewrite E0 in Hk. lia.
    - exists (vec_of y). exact F.
    - left. split; [exact E|]. destruct (c40_bound q mem pl_convex HW ltac:(lia) st s RT (or_introl E)) as (_ & _ & B).
      specialize (B _ F). rewrite !pl_objective, (list_of_vec y n Ly) in B. exact B.
    - right. split; [exact E|]. subst s. destruct (Nat.le_gt_cases 1000 (subsets (length rows) n)) as [|LT]; [assumption|]. exfalso.
      refine (c59_limit q mem st_MAX_ITER st pl_convex HW ltac:(lia) _ RT eq_refl). rewrite pl_I, pl_n, E0, Nat.sub_0_r. exact LT.
  Qed.
End Lists.
