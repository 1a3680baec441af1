(** The solver object: reuse, and executions from other starting points. *)
From Coq Require Import Lia Lra List FunctionalExtensionality.
From Verif Require Import Vec SpecBezier ModelData ModelSolver ModelQp ModelQpObj SpecQp SpecQpObj ProofBezier ProofQp ProofQp2 ProofQp3 ProofQp4 ProofQp5 ProofQp6 ProofQp7 ProofQpObj.
Open Scope R_scope.

Lemma steps_same q : forall k o o', alike_out o o' -> alike_out (steps q k o) (steps q k o').
Proof.
  induction k as [|k IH]; intros o o' H; [exact H|]. cbn [steps].
  destruct o as [[p st|s st]| |], o' as [[p' st'|s' st']| |]; try contradiction H; try exact H.
  destruct H as [<- H]. apply IH, step_same, H.
Qed.
Lemma add_eq_same q : forall todo i st st', q_iq st = i -> alike i st st' ->
  alike_out (add_equalities q todo i st) (add_equalities q todo i st').
Proof.
  induction todo as [|todo IH]; intros i st st' Hi H; cbn [add_equalities].
  - split; [reflexivity|]. rewrite <- Hi in H. exact H.
  - destruct H as [X Q Rr Jj Rn F It T Ia U A]. rewrite <- X, <- Q, <- Rr, <- Jj, <- Rn, <- F, <- It, <- T, <- Ia, Hi.
    destruct (_ <? _)%nat; [exact I|]. set (d := compute_d _ _ _). set (z := update_z _ _ d i). set (r := update_r _ d i). set (t2 := if Rlt_dec _ _ then _ else _).
    destruct (add_constraint _ _ _ d i _) as [[[[[ok R'] J'] iq'] Rn']| |] eqn:EA; cbn [bind]; [|exact I|exact I].
    pose proof (add_iq _ _ _ _ _ _ _ _ _ _ _ EA) as Eq. subst iq'.
    match goal with |- alike_out (if ok then _ else Ok (Done _ ?a)) (if ok then _ else Ok (Done _ ?b)) => assert (K : alike (S i) a b) end.
    { constructor; qst_cbn; try reflexivity.
      - intros k Hk. unfold setv. destruct (Nat.eqb_spec k i); [reflexivity|]. rewrite (U k) by lia. reflexivity.
      - intros k Hk. unfold setv. destruct (Nat.eqb_spec k i); [reflexivity|]. apply A. lia. }
    destruct ok; [apply IH; [reflexivity|exact K]|]. split; [reflexivity|exact K].
Qed.
Lemma start_alike p st st' x J : alike 0 (start p st x J) (start p st' x J).
Proof. constructor; try reflexivity; intros k Hk; lia. Qed.

Lemma fit_given mem p s : v_given (fit mem p s) = v_given s.
Proof. unfold fit. destruct (_ && _)%bool; reflexivity. Qed.
Lemma report_same q s s' p o o' : v_max s = v_max s' -> alike_out o o' -> same_report (answer s p (steps q 0 o)) (answer s' p (steps q 0 o')).
Proof.
  intros HM H. cbn [steps]. destruct o as [[l st|t st]| |], o' as [[l' st'|t' st']| |]; try contradiction H; try exact I.
  destruct H as [<- H]. unfold answer. cbn [bind]. unfold same_report. destruct H as [X Q Rr Jj Rn F It T Ia U A].
  split; [reflexivity|]. split; [exact X|]. split; [exact F|]. split; [exact It|]. intros N. unfold getActiveSetSize, after. cbn [v_q].
  rewrite (proj2 (Z.eqb_neq _ _) N). split; [exact Q|]. intros k Hk. split; [apply A|apply U]; exact Hk.
Qed.
Lemma reuse_gen init mem mem' s s' p k :
  (forall p st st', match init p st, init p st' with Ok a, Ok b => q_iq a = 0%nat /\ alike 0 a b | UB, UB => True | Throw, Throw => True | _, _ => False end) ->
  v_given s = false -> v_given s' = false -> v_max s = v_max s' -> same_report (call init mem s p k) (call init mem' s' p k).
Proof.
  intros HI G G' HM. unfold call. rewrite G, G', <- HM. specialize (HI p (v_st (fit mem p s)) (v_st (fit mem' p s'))).
  destruct (init p (v_st (fit mem p s))) as [a| |], (init p (v_st (fit mem' p s'))) as [b| |]; try contradiction HI; cbn [bind]; try exact I.
  destruct HI as [H0 HI]. apply (report_same (limited (v_max s) p) s s' p _ _ HM). apply steps_same, add_eq_same; assumption.
Qed.
Lemma dense_start p st st' : match start_dense p st, start_dense p st' with Ok a, Ok b => q_iq a = 0%nat /\ alike 0 a b | UB, UB => True | Throw, Throw => True | _, _ => False end.
Proof. unfold start_dense. destruct (chol _ _); cbn [bind]; try exact I. split; [reflexivity|apply start_alike]. Qed.
Lemma sparse_start p st st' : match start_sparse p st, start_sparse p st' with Ok a, Ok b => q_iq a = 0%nat /\ alike 0 a b | UB, UB => True | Throw, Throw => True | _, _ => False end.
Proof. unfold start_sparse. destruct (chol _ _); cbn [bind]; try exact I. split; [reflexivity|apply start_alike]. Qed.

Lemma call_keeps init mem s p status x s' : gives (call init mem s p) status x s' ->
  v_given s' = v_given s /\ v_max s' = v_max s /\ v_n s' = e_n p /\ v_E s' = e_E p /\ v_I s' = e_I p.
Proof.
  intros (k & E). unfold call in E. destruct (if v_given s then _ else _) as [st| |]; try discriminate. cbn [bind] in E. unfold answer in E.
  destruct (steps _ _ _) as [[l st'|t st']| |]; try discriminate. cbn [bind] in E. injection E as <- <- <-. repeat split.
Qed.
Lemma used_given s : used s -> v_given s = false.
Proof.
  induction 1; try reflexivity; try assumption.
  - unfold setMaxIter. destruct (_ <? _)%Z; assumption.
  - rewrite <- IHused. apply (call_keeps _ _ _ _ _ _ _ H0).
  - rewrite <- IHused. apply (call_keeps _ _ _ _ _ _ _ H0).
Qed.
Lemma c55_dense mem mem' s s' p k : used s -> used s' -> getMaxIter s = getMaxIter s' ->
  same_report (solve_quadprog_dense mem s p k) (solve_quadprog_dense mem' s' p k).
Proof. intros U U'. apply reuse_gen; [apply dense_start|apply used_given; assumption..]. Qed.
Lemma c55_sparse mem mem' s s' p k : used s -> used s' -> getMaxIter s = getMaxIter s' ->
  same_report (solve_quadprog_sparse mem s p k) (solve_quadprog_sparse mem' s' p k).
Proof. intros U U'. apply reuse_gen; [apply sparse_start|apply used_given; assumption..]. Qed.
(** the limit is that of the last accepted setMaxIter *)
Lemma c55_limit_keeps init mem s p status x s' : gives (call init mem s p) status x s' -> getMaxIter s' = getMaxIter s.
Proof. intros H. apply (call_keeps _ _ _ _ _ _ _ H). Qed.
Lemma c55_stale init mem s p x s' : gives (call init mem s p) st_REDUNDANT x s' -> getActiveSetSize s' = getActiveSetSize s.
Proof.
  intros (k & E). unfold call in E. destruct (if v_given s then _ else _) as [st| |]; try discriminate. cbn [bind] in E. unfold answer in E.
  destruct (steps _ _ _) as [[l st'|t st']| |]; try discriminate. cbn [bind] in E. injection E as -> <- <-. reflexivity.
Qed.

(** * The dense solver is that of ModelQp.v *)
Lemma dense_execution mem s p k : v_given s = false ->
  solve_quadprog_dense mem s p k = answer s p (execution (limited (v_max s) p) (v_st (fit mem p s)) k).
Proof.
  intros G. unfold solve_quadprog_dense, call. rewrite G. unfold start_dense, execution, solve_init.
  change (e_n (limited (v_max s) p)) with (e_n p). change (e_H (limited (v_max s) p)) with (e_H p).
  destruct (chol _ _) as [L| |]; cbn [bind]; [reflexivity|..]; destruct k; reflexivity.
Qed.
Lemma dense_returns mem s p status x s' : v_given s = false -> gives (solve_quadprog_dense mem s p) status x s' ->
  exists st, returns (limited (v_max s) p) (v_st (fit mem p s)) status st /\ x = q_x st /\ s' = after s p status st.
Proof.
  intros G (k & E). rewrite dense_execution in E by exact G. unfold answer in E.
  destruct (execution _ _ _) as [[l st|t st]| |] eqn:EX; try discriminate. cbn [bind] in E. injection E as <- <- <-.
  exists st. split; [exists k; exact EX|]. split; reflexivity.
Qed.

(** * From the invariant to the certificate *)
Lemma sumf_cut a b f : (a <= b)%nat -> sumf b f = sumf a f + sumf (b - a) (fun k => f (a + k)%nat).
Proof. intros H. replace b with (a + (b - a))%nat at 1 by lia. apply sumf_split. Qed.
Lemma inv_certificate q st : inv q (e_E q) 0 0 st -> certificate q (q_x st) (q_iq st) (q_A st) (q_u st).
Proof.
  intros I. pose proof (i_e _ _ _ _ _ I) as He. pose proof (i_n _ _ _ _ _ I) as Hn. split; [lia|]. split; [apply I|].
  split; [|split; [apply I|]].
  - intros k Hk. destruct (i_in _ _ _ _ _ I k Hk) as (j & Hj & EA). rewrite EA, Nat2Z.id. split; [lia|]. split; [|apply (i_u _ _ _ _ _ I k Hk)].
    apply (active_slack q _ _ _ st k j I); [lia|exact EA].
  - intros i Hi. rewrite (i_st _ _ _ _ _ I i Hi), Rmult_0_l, Rplus_0_r, (sumf_cut (e_E q)) by exact He. f_equal.
    + apply sumf_ext. intros k Hk. rewrite (i_eq _ _ _ _ _ I k Hk), normal_eq. reflexivity.
    + apply sumf_ext. intros k Hk. destruct (i_in _ _ _ _ _ I (e_E q + k)%nat ltac:(lia)) as (j & Hj & EA). rewrite EA, normal_in, Nat2Z.id. reflexivity.
Qed.
Lemma c56_certificate mem s p status x s' :
  v_given s = false -> convex p -> well_scaled p -> (e_E p <= e_n p)%nat ->
  gives (solve_quadprog_dense mem s p) status x s' -> status = st_OPTIMAL \/ status = st_MAX_ITER ->
  eqs_hold p x /\ getObjValue s' = objective p x /\
  certificate p x (getActiveSetSize s') (getActiveSet s') (getLagrangeMultipliers s').
Proof.
  intros G C W E HG HS. destruct (dense_returns _ _ _ _ _ _ G HG) as (st & R1 & -> & ->).
  destruct (returns_ends (limited (v_max s) p) _ _ _ C W E R1) as (L & _ & EN).
  assert (I : inv (limited (v_max s) p) (e_E p) 0 0 st) by (destruct EN; try assumption; destruct HS; discriminate).
  split; [exact (inv_eqs _ _ I)|]. split; [exact (i_f _ _ _ _ _ I)|].
  unfold getActiveSetSize, after. cbn [v_q]. rewrite (proj2 (Z.eqb_neq _ _)) by (destruct HS; subst status; discriminate).
  exact (inv_certificate _ _ I).
Qed.
(** A certificate is one. *)
Lemma c56_sufficient p x m A u y : symmetric p -> certificate p x m A u -> eqs_hold p x -> eqs_hold p y ->
  (forall k, (e_E p <= k < m)%nat -> 0 <= slack p y (Z.to_nat (A k))) ->
  objective p x + 1 / 2 * dot (e_n p) (fun i => y i - x i) (hmul p (fun i => y i - x i)) <= objective p y.
Proof.
  intros Sy (Hm & _ & HA & _ & HS) X Y YA. set (z := fun k => y k - x k).
  replace y with (fun k => x k + 1 * z k) at 1 by (apply functional_extensionality; intros k; unfold z; ring).
  rewrite obj_move by exact Sy. enough (P : 0 <= dot (e_n p) z (fun i => hmul p x i + e_g p i)) by lra.
  assert (DZ : forall v, dot (e_n p) v z = dot (e_n p) v y - dot (e_n p) v x).
  { intros v. unfold dot, z. rewrite <- sumf_minus. apply sumf_ext. intros; ring. }
  rewrite (dot_ext _ z z _ (fun i => sumf (e_E p) (fun k => u k * e_CE p k i) + 1 * sumf (m - e_E p) (fun k => u (e_E p + k)%nat * e_CI p (Z.to_nat (A (e_E p + k)%nat)) i))).
  2: reflexivity.
  2: { intros i Hi. rewrite HS by exact Hi. ring. }
  rewrite dot_lin, !dot_sum. rewrite (sumf_zero (e_E p)).
  2: { intros k Hk. rewrite dot_sym, DZ. specialize (X k Hk). specialize (Y k Hk). unfold eq_gap in X, Y.
       replace (dot (e_n p) (e_CE p k) y - dot (e_n p) (e_CE p k) x) with 0 by lra. ring. }
  rewrite Rplus_0_l, Rmult_1_l. apply sumf_nonneg. intros k Hk. rewrite dot_sym, DZ.
  destruct (HA (e_E p + k)%nat ltac:(lia)) as (_ & S0 & U0). specialize (YA (e_E p + k)%nat ltac:(lia)). unfold slack in *.
  set (c := e_CI p (Z.to_nat (A (e_E p + k)%nat))) in *. change (fun i => c i) with c. apply Rmult_le_pos; [exact U0|lra].
Qed.
