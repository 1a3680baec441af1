(** Proofs for the entry points of the python module. *)
From Coq Require Import List Lia Lra.
From Verif Require Import Vec SpecBezier ModelData ModelWaypoints ModelWaypointsJerk ModelDispatch ModelUtils ModelNd ModelCont ModelSolver ModelTraj Model0Step ModelEff ModelHeap ModelQp ModelPy
  SpecCom SpecWp SpecCtr SpecTraj Spec0Step SpecQp SpecEff SpecEnd3 SpecPy Proof0Step Proof0Step2 Proof0Step3 ProofEnd10.
Import ListNotations.
Open Scope R_scope.

Lemma matrix3 K : to_matrixX3 (kin_matrix K) = Ok K.
Proof.
  unfold to_matrixX3, kin_matrix. cbn [mx_cols mx_rows Nat.eqb]. induction K as [|[a b c] K IH]; [reflexivity|].
  cbn [map mapM l3 vx vy vz]. cbn [mapM map] in IH |- *. rewrite IH. reflexivity.
Qed.
Lemma vectorX k : to_vectorX (kin_vector k) = Ok k.
Proof.
  unfold to_vectorX, kin_vector. cbn [mx_cols mx_rows Nat.eqb]. induction k as [|a k IH]; [reflexivity|].
  cbn [map mapM] in IH |- *. rewrite IH. reflexivity.
Qed.
Definition py_ct ph K k : contact := Contact (Some ph) K k zero_rows [].
Lemma py_kin_eq g q l ph com dCom l0 a T dt K k :
  py_zeroStepKin g q l (Some ph) com dCom l0 a T dt (kin_matrix K) (kin_vector k) =
  solve0step g q l (py_problem (py_ct ph K k) com dCom l0 a) [T] dt.
Proof. unfold py_zeroStepKin. rewrite matrix3, vectorX. reflexivity. Qed.
Lemma py_posed ph com dCom l0 a T K k : py_valid ph T K k ->
  z_posed (py_problem (py_ct ph K k) com dCom l0 a) [T] (py_ct ph K k) ph T.
Proof.
  intros (HT & Hm & HF & HK). repeat split; try assumption. exists ph. repeat split; assumption.
Qed.
Lemma py_scale ph com dCom l0 a T K k M kap : py_on_scale ph com dCom a T K M kap ->
  z_on_scale (py_problem (py_ct ph K k) com dCom l0 a) (py_ct ph K k) ph T M kap.
Proof. intros H. exact H. Qed.
Lemma py_rows a tau ph K k x xL : z_geom a (loosen tau (py_ct ph K k)) x xL ->
  rows_near tau K k (if a then vadd x xL else x).
Proof.
  intros H i A b HA Hb. assert (Hi : (i < length k)%nat) by (apply nth_error_Some; congruence).
  destruct a; cbn [z_geom] in H.
  - unfold z_geom, z_mixed in H. cbn [loosen py_ct cd_kin cd_ang cd_Kin] in H. rewrite map_length in H. specialize (H i).
    rewrite Nat.add_0_r in H. specialize (H Hi). assert (L : Nat.ltb i (length k) = true) by (apply Nat.ltb_lt; exact Hi).
    cbn [length] in H. rewrite L in H. cbn [Nat.leb] in H. rewrite Nat.sub_0_r in H.
    rewrite (nth_error_nth _ _ _ HA) in H.
    assert (E : nth i (map (fun k0 => k0 + tau) k) 0 = b + tau).
    { apply nth_error_nth. rewrite nth_error_map, Hb. reflexivity. }
    rewrite E in H. unfold vdot in *. cbn. lra.
  - unfold z_geom, kin_ok in H. apply (H i A (b + tau)); [exact HA|]. cbn. rewrite nth_error_map, Hb. reflexivity.
Qed.
Lemma vec_x a x xL : py_x (z_vec a x xL) = Ok (z_vec a x xL).
Proof. destruct a; reflexivity. Qed.

Lemma c68_continuous with_glpk mem glpk ph com dCom l0 useAng T dt K k M kap : py_valid ph T K k -> z_no_steps T dt ->
  py_on_scale ph com dCom useAng T K M kap ->
  let tau := z_tol useAng (5 * length (cp_poly ph) + length k) in
  exists r, py_zeroStepKin with_glpk (solve_quadprog mem) glpk (Some ph) com dCom l0 useAng T dt (kin_matrix K) (kin_vector k) = Ok r /\
    (r0_success r = true -> exists x xL, py_x (r0_x r) = Ok (z_vec useAng x xL) /\ captured r com dCom T x /\
       (forall t, 0 <= t <= T -> wrench_near tau ph r t) /\ rows_near tau K k (if useAng then vadd x xL else x)).
Proof.
  intros HV HN HS tau. rewrite py_kin_eq.
  destruct (c64_continuous with_glpk mem glpk _ _ _ _ _ dt M kap (py_posed ph com dCom l0 useAng T K k HV) HN (py_scale _ _ _ l0 _ _ _ k _ _ HS)) as (r & E & H).
  exists r. split; [exact E|]. intros Hr. destruct (H Hr) as (x & xL & HP & _ & H1 & H2 & H3 & H4 & H5 & H6).
  change (useAngularMomentum _) with useAng in *.
  assert (ET : z_tol useAng (z_rows useAng (py_ct ph K k) ph 5) = tau).
  { unfold tau, z_rows. cbn [py_ct cd_kin cd_ang length]. f_equal. destruct useAng; lia. }
  rewrite ET in *. destruct HP as (_ & Hx & HT & _). change (useAngularMomentum _) with useAng in *.
  exists x, xL. rewrite Hx, vec_x. split; [reflexivity|]. split; [repeat split; assumption|].
  split; [intros t Ht acc Ha; exact (H5 t acc Ht Ha)|exact (py_rows _ _ _ _ _ _ _ H6)].
Qed.
Lemma c68_samples with_glpk mem glpk ph com dCom l0 useAng T dt N K k M kap : py_valid ph T K k -> z_steps T dt N -> (1 <= N)%nat ->
  py_on_scale ph com dCom useAng T K M kap ->
  let tau := z_tol useAng ((N + 1) * length (cp_poly ph) + length k) in
  exists r, py_zeroStepKin with_glpk (solve_quadprog mem) glpk (Some ph) com dCom l0 useAng T dt (kin_matrix K) (kin_vector k) = Ok r /\
    (r0_success r = true -> exists x xL, py_x (r0_x r) = Ok (z_vec useAng x xL) /\ captured r com dCom T x /\
       (forall i, (i <= N)%nat -> wrench_near tau ph r (INR i * (T / INR N))) /\ rows_near tau K k (if useAng then vadd x xL else x)).
Proof.
  intros HV HN H1 HS tau. rewrite py_kin_eq.
  destruct (c64_samples with_glpk mem glpk _ _ _ _ _ dt M kap (py_posed ph com dCom l0 useAng T K k HV) N HN H1 (py_scale _ _ _ l0 _ _ _ k _ _ HS)) as (r & E & H).
  exists r. split; [exact E|]. intros Hr. destruct (H Hr) as (x & xL & HP & _ & G1 & G2 & G3 & G4 & G5 & G6).
  change (useAngularMomentum _) with useAng in *.
  assert (ET : z_tol useAng (z_rows useAng (py_ct ph K k) ph (N + 1)) = tau).
  { unfold tau, z_rows. cbn [py_ct cd_kin cd_ang length]. f_equal. destruct useAng; lia. }
  rewrite ET in *. destruct HP as (_ & Hx & HT & _). change (useAngularMomentum _) with useAng in *.
  exists x, xL. rewrite Hx, vec_x. split; [reflexivity|]. split; [repeat split; assumption|].
  split; [intros i Hi acc Ha; exact (G5 i acc Hi Ha)|exact (py_rows _ _ _ _ _ _ _ G6)].
Qed.
Lemma c68_plain with_glpk quadprog glpk eq com dCom l0 useAng T dt :
  py_zeroStep with_glpk quadprog glpk eq com dCom l0 useAng T dt =
  py_zeroStepKin with_glpk quadprog glpk eq com dCom l0 useAng T dt (kin_matrix []) (kin_vector []).
Proof.
  destruct eq as [ph|]; [|reflexivity]. rewrite py_kin_eq. unfold py_zeroStep. cbn [deref bind]. unfold solve0step.
  cbn [py_problem contacts get nth_error bind useAngularMomentum c0 dc0 ModelData.l0]. reflexivity.
Qed.
Lemma c68_null with_glpk quadprog glpk com dCom l0 useAng T dt K k :
  py_zeroStep with_glpk quadprog glpk None com dCom l0 useAng T dt = UB /\
  py_zeroStepKin with_glpk quadprog glpk None com dCom l0 useAng T dt (kin_matrix K) (kin_vector k) = UB.
Proof. unfold py_zeroStepKin. rewrite matrix3, vectorX. split; reflexivity. Qed.
Lemma c68_shape with_glpk quadprog glpk eq com dCom l0 useAng T dt Kin kin : mx_cols Kin <> 3%nat ->
  py_zeroStepKin with_glpk quadprog glpk eq com dCom l0 useAng T dt Kin kin = UB.
Proof. intros H. unfold py_zeroStepKin, to_matrixX3. apply Nat.eqb_neq in H. rewrite H. reflexivity. Qed.

(** ** The attribute x *)
Lemma tail3_some v a : tail3 v = Ok a -> v <> [].
Proof. intros H ->. discriminate. Qed.
Lemma head3_some v a : head3 v = Ok a -> v <> [].
Proof. intros H ->. discriminate. Qed.
Lemma px_some v : v <> [] -> py_x v = Ok v.
Proof. destruct v; [contradiction|reflexivity]. Qed.
(** a result of one of the functions: the default one, or a success with x *)
Lemma solve0_x g q l pb Ts dt r : solve0step g q l pb Ts dt = Ok r -> r = default_result0 \/ (r0_success r = true /\ r0_x r <> []).
Proof.
  unfold solve0step. destruct (get (contacts pb) 0) as [c| |]; try discriminate. cbn [bind].
  destruct (get Ts 0) as [T| |]; try discriminate. cbn [bind].
  destruct (compute6dControlPointInequalities _ _ _ _ _ _ _) as [Ab| |]; try discriminate. cbn [bind].
  destruct (z_cost _ _ _) as [Hg| |]; try discriminate. cbn [bind].
  destruct (solve_noeq _ _ _ _ _ _ _ _ _) as [res| |]; try discriminate. cbn [bind].
  destruct (rd_success res); [|intros H; injection H as <-; left; reflexivity].
  destruct (computeRealCost _ _) as [cost| |]; try discriminate. cbn [bind].
  destruct (z_C_of_T _ _ _) as [cv| |] eqn:E; try discriminate. cbn [bind].
  destruct (z_dL_of_T _ _ _) as [dL| |]; try discriminate. cbn [bind]. intros H. injection H as <-. right. split; [reflexivity|].
  unfold z_C_of_T in E. destruct (head3 (rd_x res)) as [x| |] eqn:E3; try discriminate. exact (head3_some _ _ E3).
Qed.
Lemma genTraj_x s res pb T r : genTraj s res pb T = Ok r -> r = default_result \/ (rc_success r = true /\ rc_x r <> []).
Proof.
  unfold genTraj. destruct (rd_success res); [|intros H; injection H as <-; left; reflexivity].
  destruct (head3 _) as [x| |]; try discriminate. cbn [bind].
  destruct (computeConstantWaypoints _ _) as [p| |]; try discriminate. cbn [bind].
  destruct (computeBezierCurve _ _ _ _) as [cv| |]; try discriminate. cbn [bind].
  destruct (bc_derivate _ _ _ 1) as [v| |]; try discriminate. cbn [bind].
  destruct (bc_derivate _ _ _ 2) as [a| |]; try discriminate. cbn [bind].
  destruct (mk_bezier _ _) as [d| |]; try discriminate. cbn [bind]. intros H. injection H as <-. right. split; [reflexivity|discriminate].
Qed.
Lemma com_x s g q l pb Ts dt sv r : computeCOMTraj s g q l pb Ts dt sv = Ok r -> r = default_result \/ (rc_success r = true /\ rc_x r <> []).
Proof.
  unfold computeCOMTraj. destruct (negb _); [discriminate|].
  match goal with |- bind ?m _ = _ -> _ => destruct m as [[[[[[ta A] b] D] d] mb]| |]; try discriminate end. cbn [bind].
  destruct (genCostFunction _ _ _ _ _) as [Hg| |]; try discriminate. cbn [bind].
  destruct (solve _ _ _ _ _ _ _ _ _ _ _ _ _) as [res| |]; try discriminate. cbn [bind]. apply genTraj_x.
Qed.
Lemma velocity_flags pb T pi ws : computeVelocityWaypoints pb T pi = Ok ws -> In (flag_of pb) effector_flags.
Proof.
  unfold computeVelocityWaypoints. cbn [find_flag].
  destruct (Z.eqb_spec j0j1_flag (flag_of pb)) as [<-|]; [intros _; left; reflexivity|].
  destruct (Z.eqb_spec x3_flag (flag_of pb)) as [<-|]; [intros _; right; left; reflexivity|].
  destruct (Z.eqb_spec x5_flag (flag_of pb)) as [<-|]; [intros _; right; right; left; reflexivity|]. discriminate.
Qed.
Lemma eff_x g q l init pb path T w r : solveEndEffector g q l init pb path T w = Ok r ->
  In (flag_of pb) effector_flags /\ (r = default_result \/ (rc_success r = true /\ rc_x r <> [] /\ rc_cost r = -1)).
Proof.
  unfold solveEndEffector. destruct (computeConstantWaypoints _ _) as [p| |]; try discriminate. cbn [bind].
  destruct (computeEndEffectorConstraints _ _ _) as [Ab| |] eqn:EC; try discriminate. cbn [bind].
  assert (F : In (flag_of pb) effector_flags).
  { unfold computeEndEffectorConstraints in EC. destruct (computeJerkWaypoints _ _ _) as [wj| |]; try discriminate. cbn [bind] in EC.
    destruct (computeAccelerationWaypoints _ _ _) as [wa| |]; try discriminate. cbn [bind] in EC.
    destruct (computeVelocityWaypoints _ _ _) as [wv| |] eqn:EV; try discriminate. exact (velocity_flags _ _ _ _ EV). }
  destruct (computeEndEffectorCost _ _ _ _ _) as [Hg| |]; try discriminate. cbn [bind].
  destruct (solve_noeq _ _ _ _ _ _ _ _ _) as [res| |]; try discriminate. cbn [bind].
  destruct (rd_success res); [|intros H; injection H as <-; split; [exact F|left; reflexivity]].
  destruct (computeC_of_T _ _ _) as [cv| |] eqn:E; try discriminate. cbn [bind]. intros H. injection H as <-. split; [exact F|]. right.
  split; [reflexivity|]. split; [|reflexivity]. cbn [rc_x]. intros Hx. rewrite Hx in E. unfold computeC_of_T in E.
  destruct (computeConstantWaypoints pb T) as [wps| |]; try discriminate. cbn [bind] in E.
  unfold dimVar in E. destruct F as [F|[F|[F|[]]]]; rewrite <- F in E; discriminate.
Qed.

Lemma c69_zero_step with_glpk quadprog glpk eq com dCom l0 useAng T dt Kin kin r :
  py_zeroStep with_glpk quadprog glpk eq com dCom l0 useAng T dt = Ok r \/
  py_zeroStepKin with_glpk quadprog glpk eq com dCom l0 useAng T dt Kin kin = Ok r ->
  if r0_success r then py_x (r0_x r) = Ok (r0_x r) else r = default_result0 /\ py_x (r0_x r) = Throw.
Proof.
  intros H. assert (X : r = default_result0 \/ (r0_success r = true /\ r0_x r <> [])).
  { destruct H as [H|H].
    - unfold py_zeroStep in H. destruct eq as [ph|]; [|discriminate]. exact (solve0_x _ _ _ _ _ _ _ H).
    - unfold py_zeroStepKin in H. destruct (to_matrixX3 Kin) as [K| |]; try discriminate. cbn [bind] in H.
      destruct (to_vectorX kin) as [k| |]; try discriminate. cbn [bind] in H. destruct eq as [ph|]; [|discriminate]. exact (solve0_x _ _ _ _ _ _ _ H). }
  destruct X as [->|[-> X]]; [split; reflexivity|]. exact (px_some _ X).
Qed.
Lemma c69_com with_glpk quadprog glpk scaled pData Ts dt solver r :
  py_computeCOMTraj with_glpk quadprog glpk scaled pData Ts dt solver = Ok r ->
  if rc_success r then py_x (rc_x r) = Ok (rc_x r) else r = default_result /\ py_x (rc_x r) = Throw.
Proof. intros H. destruct (com_x _ _ _ _ _ _ _ _ _ H) as [->|[-> X]]; [split; reflexivity|]. exact (px_some _ X). Qed.
Lemma c69_effector with_glpk quadprog glpk init pData T r :
  py_computeEndEffector with_glpk quadprog glpk init pData T = Ok r ->
  if rc_success r then py_x (rc_x r) = Ok (rc_x r) /\ rc_cost r = -1 else r = default_result /\ py_x (rc_x r) = Throw.
Proof. intros H. destruct (eff_x _ _ _ _ _ _ _ _ _ H) as [_ [->|(-> & X & C)]]; [split; reflexivity|]. split; [exact (px_some _ X)|exact C]. Qed.

(** ** Kin x <= kin is not what is enforced with angular momentum *)
Definition off_K : list vec3 := [V3 1 0 0].
Definition off_k : list R := [-1].
Lemma c68_kinematics_refuted : forall mem glpk, exists ph com dCom l0 T dt K k r x, py_valid ph T K k /\
  py_zeroStepKin false (solve_quadprog mem) glpk (Some ph) com dCom l0 true T dt (kin_matrix K) (kin_vector k) = Ok r /\
  r0_success r = true /\ captured r com dCom T x /\ ~ rows_near (1 / 2) K k x.
Proof.
  intros mem glpk. set (l := V3 (-4) 0 0).
  assert (HV : py_valid up_ph 1 off_K off_k).
  { split; [lra|]. split; [cbn; lra|]. split; [|cbn; lia]. apply Forall_cons; [|apply Forall_nil]. cbn. intros H. injection H. lra. }
  pose proof (py_posed up_ph vzero (V3 1 0 0) l true 1 off_K off_k HV) as HP.
  assert (N : z_no_steps 1 0) by (left; lra).
  destruct (c65_best false mem glpk _ _ _ _ _ 0 HP (or_introl N)) as (r & E & HR & _).
  - cbn [py_problem c0 ModelData.l0]. exact (up_ok true (py_ct up_ph off_K off_k) 1 0 0 0 l (vscal (3 / 4) l) 0).
  - cbn [py_problem c0 ModelData.l0 useAngularMomentum]. intros j Hj. cbn in Hj. destruct j as [|j]; [|lia]. cbn -[Rplus Rmult Rdiv]. unfold vdot; cbn -[Rplus Rmult Rdiv]. lra.
  - exists up_ph, vzero, (V3 1 0 0), l, 1, 0, off_K, off_k, r, vzero. split; [exact HV|]. rewrite py_kin_eq. split; [exact E|]. split; [apply HR|].
    split.
    + split; [apply HR|]. exact (z_plan_ends _ _ _ _ _ HP r _ _ HR).
    + intros F. specialize (F 0%nat (V3 1 0 0) (-1) eq_refl eq_refl). unfold vdot in F. cbn in F. lra.
Qed.

Lemma py_geom (a : bool) ph K k (x xL : vec3) : (length k <= length K)%nat -> rows_near 0 K k (if a then vadd x xL else x) -> z_geom a (py_ct ph K k) x xL.
Proof.
  intros L H. destruct a; unfold z_geom.
  - intros j Hj. cbn [py_ct cd_kin cd_ang cd_Kin length Nat.leb] in *. rewrite Nat.add_0_r in Hj. rewrite Nat.sub_0_r.
    assert (E : Nat.ltb j (length k) = true) by (apply Nat.ltb_lt; exact Hj). rewrite E.
    destruct (nth_error K j) as [A|] eqn:EA; [|apply nth_error_None in EA; lia]. destruct (nth_error k j) as [b|] eqn:Eb; [|apply nth_error_None in Eb; lia].
    rewrite (nth_error_nth _ _ _ EA), (nth_error_nth _ _ _ Eb). specialize (H j A b EA Eb). unfold vdot in *. cbn in H. lra.
  - intros i A b HA Hb. specialize (H i A b HA Hb). lra.
Qed.
Lemma c68_return with_glpk mem glpk ph com dCom l0 useAng T dt K k : py_valid ph T K k -> (z_no_steps T dt \/ exists N, z_steps T dt N) ->
  let xL := vscal (3 / 4) l0 in
  (z_no_steps T dt -> z_stable_ctrl ph useAng com dCom l0 T com xL) ->
  (forall N, z_steps T dt N -> (1 <= N)%nat -> forall i, (i <= N)%nat -> z_stable ph useAng com dCom l0 T com xL (INR i * (T / INR N))) ->
  rows_near 0 K k (if useAng then vadd com xL else com) ->
  exists r, py_zeroStepKin with_glpk (solve_quadprog mem) glpk (Some ph) com dCom l0 useAng T dt (kin_matrix K) (kin_vector k) = Ok r /\
    r0_success r = true /\ py_x (r0_x r) = Ok (z_vec useAng com xL) /\ captured r com dCom T com /\ (useAng = false -> r0_cost r = 0).
Proof.
  intros HV HN xL H1 H2 H3. rewrite py_kin_eq. pose proof (py_posed ph com dCom l0 useAng T K k HV) as HP.
  destruct (c65_best with_glpk mem glpk _ _ _ _ _ dt HP HN) as (r & E & HR & HC).
  - split; [exact H1|exact H2].
  - apply py_geom; [apply HV|exact H3].
  - exists r. split; [exact E|]. split; [apply HR|]. split; [|split].
    + destruct HR as (_ & Hx & _). rewrite Hx. apply vec_x.
    + split; [apply HR|]. exact (z_plan_ends _ _ _ _ _ HP r _ _ HR).
    + intros ->. destruct HC as [HC _]. rewrite HC. cbn [py_problem c0]. unfold vnorm. rewrite <- sqrt_0. f_equal. unfold vnorm2, vdot, vsub. cbn. ring.
Qed.

(** ** More entries in kin than rows in Kin *)
Lemma short_kin ph K K' k c0 dc0 l0 a T dt : (length K < length k)%nat ->
  (exists Ab, compute6dControlPointInequalities (py_ct ph K' k) c0 dc0 l0 a T dt = Ok Ab) ->
  compute6dControlPointInequalities (py_ct ph K k) c0 dc0 l0 a T dt = UB.
Proof.
  intros L (Ab & E). unfold compute6dControlPointInequalities in *. cbn [py_ct cd_phase deref bind] in *.
  destruct (ComputeAllWaypoints _ _ _ _ _) as [wps| |]; try discriminate. cbn [bind] in *.
  match goal with E : bind ?m _ = Ok _ |- _ => destruct m as [wpL| |]; try discriminate end. cbn [bind] in *.
  unfold compute6d in *. cbn [py_ct cd_phase deref bind cd_kin cd_ang cd_Kin] in *.
  destruct (mapM z_unit _) as [Hs| |]; try discriminate. cbn [bind] in *. cbv zeta in *.
  destruct (z_fill _ _ _ _ _ _ _ _) as [buf| |]; try discriminate. cbn [bind] in *.
  unfold addKinematic at 1. destruct k as [|b k]; [cbn in L; lia|]. assert (Nat.ltb (length K) (length (b :: k)) = true) as -> by (apply Nat.ltb_lt; exact L). reflexivity.
Qed.
Lemma c68_short with_glpk quadprog glpk ph com dCom l0 useAng T dt K k : py_valid ph T [] [] -> (z_no_steps T dt \/ exists N, z_steps T dt N) ->
  (length K < length k)%nat ->
  py_zeroStepKin with_glpk quadprog glpk (Some ph) com dCom l0 useAng T dt (kin_matrix K) (kin_vector k) = UB.
Proof.
  intros (HT & Hm & HF & _) HN L. rewrite py_kin_eq. unfold solve0step. cbn [py_problem contacts get nth_error bind useAngularMomentum c0 dc0 ModelData.l0].
  assert (WF : contact_wf (py_ct ph (repeat vzero (length k)) k)).
  { exists ph. split; [reflexivity|]. split; [exact Hm|]. split; [exact HF|]. cbn. rewrite repeat_length. lia. }
  rewrite (short_kin ph K (repeat vzero (length k)) k com dCom l0 useAng T dt L); [reflexivity|].
  assert (HN' : z_no_steps T dt \/ exists N, z_steps T dt N /\ (1 <= N)%nat).
  { destruct HN as [HN|([|N] & HN)]; [left; exact HN|left; right; exact HN|right; exists (S N); split; [exact HN|lia]]. }
  destruct HN' as [HN'|(N & HS & H1)].
  - eexists. exact (z_built useAng _ ph com dCom l0 T WF eq_refl HT dt HN').
  - eexists. exact (z_built_disc useAng _ ph com dCom l0 T WF eq_refl HT dt N HS H1).
Qed.
