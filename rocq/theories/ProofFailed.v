(** Results without success. *)
From Verif Require Import Vec SpecBezier SpecTime ModelData ModelDispatch ModelUtils ModelCom ModelCont ModelNd ModelSolver ModelTraj
  Model0Step ModelEff SpecCom SpecCtr SpecTraj SpecFailed ProofCurve ProofTraj2 ProofPy.
Open Scope R_scope.

Lemma zero_bez s : bez3 [vzero] s = vzero.
Proof. unfold bez3, bezl, bez. cbn [map length Nat.pred sumf binom nth vzero vx vy vz pow Nat.sub]. apply v3_eq; cbn [vx vy vz vzero]; ring. Qed.
Lemma zero_curve t : cv_fun (BCurve [vzero] 1) t = vzero.
Proof. unfold cv_fun, curve. cbn [bc_pts bc_T]. apply zero_bez. Qed.
Lemma default_nothing : nothing default_result.
Proof. repeat split; intros; apply zero_curve. Qed.

Lemma f24_com s g q l pb Ts dt sv r : computeCOMTraj s g q l pb Ts dt sv = Ok r -> rc_success r = false -> nothing r.
Proof. intros H F. destruct (com_x _ _ _ _ _ _ _ _ _ H) as [->|[E _]]; [apply default_nothing|congruence]. Qed.
Lemma f24_fixed s g q l pb Ts p r : computeCOMTrajFixedSize s g q l pb Ts p = Ok r -> rc_success r = false -> nothing r.
Proof.
  unfold computeCOMTrajFixedSize. destruct (negb _); [discriminate|].
  destruct (computeConstraintsOneStep _ _ _ _) as [Ab| |]; try discriminate. cbn [bind].
  destruct (genCostFunction _ _ _ _ _) as [Hg| |]; try discriminate. cbn [bind].
  destruct (solve_noeq _ _ _ _ _ _ _ _ _) as [res| |]; try discriminate. cbn [bind]. intros H F.
  destruct (genTraj_x _ _ _ _ _ H) as [->|[E _]]; [apply default_nothing|congruence].
Qed.
Lemma f24_eff g q l init pb path T w r : solveEndEffector g q l init pb path T w = Ok r ->
  rc_cost r = -1 /\ bc_T (rc_dL r) = 1 /\ (forall t, cv_fun (rc_dL r) t = vzero) /\ rc_dc1 r = vzero /\ rc_ddc1 r = vzero /\
  (rc_success r = false -> nothing r).
Proof.
  unfold solveEndEffector. destruct (computeConstantWaypoints _ _) as [p| |]; try discriminate. cbn [bind].
  destruct (computeEndEffectorConstraints _ _ _) as [Ab| |] eqn:EC; try discriminate. cbn [bind].
  destruct (computeEndEffectorCost _ _ _ _ _) as [Hg| |]; try discriminate. cbn [bind].
  destruct (solve_noeq _ _ _ _ _ _ _ _ _) as [res| |]; try discriminate. cbn [bind].
  destruct (rd_success res).
  - destruct (computeC_of_T _ _ _) as [cv| |]; try discriminate. cbn [bind]. intros H. injection H as <-. cbn.
    repeat split; try apply zero_curve; discriminate.
  - intros H. injection H as <-. pose proof default_nothing as (_ & A & _ & _ & _ & B & C & D & E). auto 10 using default_nothing.
Qed.
Lemma f24_zero g q l pb Ts dt r : solve0step g q l pb Ts dt = Ok r -> r0_success r = false ->
  r0_cost r = -1 /\ r0_x r = [] /\ bc_T (r0_c r) = 1 /\ (forall t, cv_fun (r0_c r) t = vzero) /\
  forall t, 0 <= t <= 1 -> nd_value (r0_dL r) t = Ok vzero.
Proof.
  intros H F. destruct (solve0_x _ _ _ _ _ _ _ H) as [->|[E _]]; [|congruence]. cbn [default_result0 r0_cost r0_x r0_c r0_dL bc_T].
  repeat split; try apply zero_curve. intros t Ht. unfold nd_value. cbn [nd_min nd_max nd_mult nd_pts].
  destruct (Rlt_dec t 0); [lra|]. destruct (Rlt_dec 1 t); [lra|]. f_equal.
  rewrite zero_bez. apply v3_eq; cbn; ring.
Qed.
