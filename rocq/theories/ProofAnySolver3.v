(** The same for solveEndEffector. *)
From Verif Require Import Vec SpecBezier ModelData ModelDispatch ModelUtils ModelRows ModelCont ModelSolver ModelTraj ModelEff
  SpecCom SpecEff ProofBezier ProofCurve ProofWaypoints ProofEff5 PropertiesEff.
Open Scope R_scope.

Lemma seg3_ok x i v : seg3 x i = Ok v -> exists rest, skipn i x = l3 v ++ rest.
Proof.
  unfold seg3. destruct (skipn i x) as [|a [|b [|c rest]]]; cbn [head3]; intros H; try discriminate H.
  injection H as <-. exists rest. reflexivity.
Qed.

Lemma skip3 (x : list R) i v rest : skipn i x = l3 v ++ rest -> skipn (3 + i) x = rest.
Proof.
  intros H. assert (K : forall (l : list R) n m, skipn (m + n) l = skipn m (skipn n l)).
  { induction l as [|a l IH]; intros [|n] m; try (now rewrite Nat.add_0_r); [now rewrite !skipn_nil|].
    rewrite Nat.add_succ_r. cbn [skipn]. apply IH. }
  rewrite K, H. reflexivity.
Qed.

Lemma eff_curve_free pData T x cv : In (flag_of pData) effector_flags -> computeC_of_T pData T x = Ok cv ->
  exists xs rest, length xs = eff_free (flag_of pData) /\ x = flat xs ++ rest /\ eff_curve pData T xs = Ok cv /\ 0 < T.
Proof.
  intros Hin H. unfold eff_curve, computeC_of_T in *.
  destruct (computeConstantWaypoints pData T) as [wps| |]; cbn [bind] in *; try discriminate H.
  assert (P : forall w, mk_bezier w T = Ok cv -> 0 < T).
  { intros w E. unfold mk_bezier in E. destruct w; [discriminate E|]. destruct (Rle_dec T 0); [discriminate E|lra]. }
  unfold effector_flags in Hin. cbn [In] in Hin. destruct Hin as [Hf|[Hf|[Hf|[]]]]; symmetry in Hf; unfold dimVar in *; rewrite Hf in *;
    cbn in H; cbn [eff_free].
  all: repeat match type of H with context [seg3 ?x ?i] => let v := fresh "v" in let E := fresh "E" in
      destruct (seg3 x i) as [v| |] eqn:E; cbn [bind] in H; try discriminate H; apply seg3_ok in E;
      let r := fresh "r" in destruct E as [r E];
      match type of H with context [set_wp ?a ?k v] => let w := fresh "w" in let W := fresh "W" in
        destruct (set_wp a k v) as [w| |] eqn:W; cbn [bind] in H; try discriminate H end end.
  - exists [v], r. cbn in E. split; [reflexivity|]. split; [exact E|]. split; [|exact (P _ H)]. cbn. destruct v. cbn. rewrite W. exact H.
  - exists [v; v0; v1], r1. split; [reflexivity|].
    pose proof (skip3 x 0 _ _ E) as S1. pose proof (skip3 x 3 _ _ E0) as S2. cbn [Nat.add] in S1, S2. rewrite E0 in S1. rewrite E1 in S2. subst r r0. cbn in E.
    split; [rewrite E; cbn; reflexivity|]. split; [|exact (P _ H)]. destruct v, v0, v1. cbn. cbn in W, W0, W1.
    rewrite W. cbn [bind]. rewrite W0. cbn [bind]. rewrite W1. exact H.
  - exists [v; v0; v1; v2; v3], r3. split; [reflexivity|].
    pose proof (skip3 x 0 _ _ E) as S1. pose proof (skip3 x 3 _ _ E0) as S2. pose proof (skip3 x 6 _ _ E1) as S3. pose proof (skip3 x 9 _ _ E2) as S4.
    cbn [Nat.add] in S1, S2, S3, S4. rewrite E0 in S1. rewrite E1 in S2. rewrite E2 in S3. rewrite E3 in S4. subst r r0 r1 r2. cbn in E.
    split; [rewrite E; cbn; reflexivity|]. split; [|exact (P _ H)]. destruct v, v0, v1, v2, v3. cbn. cbn in W, W0, W1, W2, W3.
    rewrite W. cbn [bind]. rewrite W0. cbn [bind]. rewrite W1. cbn [bind]. rewrite W2. cbn [bind]. rewrite W3. exact H.
Qed.

Lemma jerk_wps_flag pData T pi w : computeJerkWaypoints pData T pi = Ok w -> In (flag_of pData) effector_flags.
Proof.
  unfold computeJerkWaypoints. cbn [find_flag].
  repeat match goal with |- context [Z.eqb ?a ?b] => destruct (Z.eqb_spec a b) as [e|]; cbn [bind] end; try discriminate; intros _; try rewrite e; try rewrite <- e; cbn; auto.
Qed.

Lemma c112_eff wg quadprog glpk init pData path T wd r :
  solveEndEffector wg quadprog glpk init pData path T wd = Ok r -> rc_success r = true ->
  In (flag_of pData) effector_flags /\ 0 < T /\ bc_T (rc_c r) = T /\ meets_all pData T (cv_fun (rc_c r)) /\
  exists xs rest, length xs = eff_free (flag_of pData) /\ rc_x r = flat xs ++ rest /\ firstn (length xs) (skipn 4 (bc_pts (rc_c r))) = xs.
Proof.
  intros H S. unfold solveEndEffector in H.
  destruct (computeConstantWaypoints pData T) as [pi| |] eqn:Ec; cbn [bind] in H; try discriminate H.
  destruct (computeEndEffectorConstraints pData T pi) as [M| |] eqn:EM; cbn [bind] in H; try discriminate H.
  assert (Hin : In (flag_of pData) effector_flags).
  { unfold computeEndEffectorConstraints in EM. destruct (computeJerkWaypoints pData T pi) as [w| |] eqn:Ej; cbn [bind] in EM; try discriminate EM.
    exact (jerk_wps_flag _ _ _ _ Ej). }
  destruct (computeEndEffectorCost pData path T wd pi) as [Hg| |]; cbn [bind] in H; try discriminate H.
  destruct (solve_noeq _ _ _ _ _ _ _ _ _) as [res| |]; cbn [bind] in H; try discriminate H.
  destruct (rd_success res); [|injection H as <-; discriminate S].
  destruct (computeC_of_T pData T (rd_x res)) as [cv| |] eqn:E; cbn [bind] in H; try discriminate H. injection H as <-. cbn [rc_c rc_x].
  destruct (eff_curve_free _ _ _ _ Hin E) as (xs & rest & Lx & Ex & Ec' & HT).
  destruct (C29_boundary pData T xs Hin Lx HT) as (cv' & E2 & HTc & F & B). rewrite E2 in Ec'. injection Ec' as ->.
  split; [exact Hin|]. split; [exact HT|]. split; [exact HTc|]. split; [exact B|]. exists xs, rest. auto.
Qed.
