(** Which members of ProblemData the planners do not look at. *)
From Verif Require Import Vec SpecBezier ModelData ModelDispatch ModelUtils ModelRows ModelCom ModelCont ModelSolver ModelTraj Model0Step ModelEff
  SpecCom SpecIgnore.
Open Scope R_scope.

Ltac ends H := let E := fresh "E" in destruct H as (E & ? & ? & ? & ? & ? & ? & ? & ?);
  match goal with p : problem, q : problem |- _ => destruct p, q end; cbn [c0 dc0 ddc0 j0 c1 dc1 ddc1 j1] in *; subst.
Ltac by_flag := repeat match goal with |- context [Z.eqb ?a ?b] => destruct (Z.eqb a b) end; reflexivity.

Lemma ends_const p q T : same_ends p q -> computeConstantWaypoints p T = computeConstantWaypoints q T.
Proof. intros H. ends H. unfold computeConstantWaypoints. rewrite E. unfold compConsWps. cbn [find_flag]. by_flag. Qed.
Lemma ends_vel p q T pi : same_ends p q -> computeVelocityWaypoints p T pi = computeVelocityWaypoints q T pi.
Proof. intros H. ends H. unfold computeVelocityWaypoints. rewrite E. cbn [find_flag]. by_flag. Qed.
Lemma ends_acc p q T pi : same_ends p q -> computeAccelerationWaypoints p T pi = computeAccelerationWaypoints q T pi.
Proof. intros H. ends H. unfold computeAccelerationWaypoints. rewrite E. cbn [find_flag]. by_flag. Qed.
Lemma ends_jerk p q T pi : same_ends p q -> computeJerkWaypoints p T pi = computeJerkWaypoints q T pi.
Proof. intros H. ends H. unfold computeJerkWaypoints. rewrite E. cbn [find_flag]. by_flag. Qed.
Lemma ends_cost p q T pi : same_ends p q -> computeVelocityCost p T pi = computeVelocityCost q T pi.
Proof. intros H. ends H. unfold computeVelocityCost. rewrite E. cbn [find_flag]. by_flag. Qed.
Lemma ends_dim p q : same_ends p q -> dimVar p = dimVar q.
Proof. intros H. ends H. unfold dimVar. rewrite E. reflexivity. Qed.
Lemma ends_rows p q T pi : same_ends p q -> computeEndEffectorConstraints p T pi = computeEndEffectorConstraints q T pi.
Proof.
  intros H. unfold computeEndEffectorConstraints. rewrite (ends_vel _ _ _ _ H), (ends_acc _ _ _ _ H), (ends_jerk _ _ _ _ H).
  unfold computeConstraintsMatrix, z_floor. rewrite (ends_dim _ _ H). destruct H as (_ & -> & _ & _ & _ & -> & _). reflexivity.
Qed.
Lemma ends_loop p q pi step pts : same_ends p q -> forall n i M g, dist_loop p pi step pts i n M g = dist_loop q pi step pts i n M g.
Proof.
  intros H. induction n as [|n IH]; intros; cbn [dist_loop]; [reflexivity|].
  rewrite (ends_dim _ _ H). unfold evaluateCurveWaypointAtTime. rewrite (proj1 H).
  destruct (find_flag _ _) as [f| |]; cbn [bind]; try reflexivity. destruct (f pi _) as [w| |]; cbn [bind]; try reflexivity.
  destruct (get pts i) as [y| |]; cbn [bind]; try reflexivity. rewrite IH. reflexivity.
Qed.
Lemma ends_effcost p q path T wd pi : same_ends p q -> computeEndEffectorCost p path T wd pi = computeEndEffectorCost q path T wd pi.
Proof.
  intros H. unfold computeEndEffectorCost. rewrite (ends_dim _ _ H), (ends_cost _ _ _ _ H).
  assert (E : forall n pts, computeDistanceCostFunction n p T pts = computeDistanceCostFunction n q T pts).
  { intros n pts. unfold computeDistanceCostFunction. rewrite (ends_const _ _ _ H), (ends_dim _ _ H).
    destruct (computeConstantWaypoints q T) as [w| |]; cbn [bind]; try reflexivity. rewrite (ends_loop _ _ _ _ _ H). reflexivity. }
  unfold computeDistanceCostFunction_path.
  destruct (mapM _ _) as [pts| |]; cbn [bind]; try reflexivity. rewrite E. reflexivity.
Qed.
Lemma ends_curve p q T x : same_ends p q -> computeC_of_T p T x = computeC_of_T q T x.
Proof. intros H. unfold computeC_of_T. rewrite (ends_const _ _ _ H), (ends_dim _ _ H). reflexivity. Qed.

Lemma c113_effector wg quadprog glpk init p q path T wd : same_ends p q ->
  solveEndEffector wg quadprog glpk init p path T wd = solveEndEffector wg quadprog glpk init q path T wd.
Proof.
  intros H. unfold solveEndEffector. rewrite (ends_const _ _ _ H), (ends_dim _ _ H).
  destruct (computeConstantWaypoints q T) as [pi| |]; cbn [bind]; try reflexivity.
  rewrite (ends_rows _ _ _ _ H), (ends_effcost _ _ _ _ _ _ H).
  destruct (computeEndEffectorConstraints _ _ _) as [M| |]; cbn [bind]; try reflexivity.
  destruct (computeEndEffectorCost _ _ _ _ _) as [Hg| |]; cbn [bind]; try reflexivity.
  destruct (solve_noeq _ _ _ _ _ _ _ _ _) as [res| |]; cbn [bind]; try reflexivity.
  rewrite (ends_curve _ _ _ _ H). reflexivity.
Qed.

Lemma c113_zero wg quadprog glpk p q Ts Us dt :
  nth_error (contacts p) 0 = nth_error (contacts q) 0 -> nth_error Ts 0 = nth_error Us 0 ->
  c0 p = c0 q -> dc0 p = dc0 q -> l0 p = l0 q -> useAngularMomentum p = useAngularMomentum q ->
  solve0step wg quadprog glpk p Ts dt = solve0step wg quadprog glpk q Us dt.
Proof.
  intros H1 H2 H3 H4 H5 H6. unfold solve0step, get, computeRealCost, z_C_of_T, z_dL_of_T. rewrite H1, H2, H3, H4, H5, H6. reflexivity.
Qed.
