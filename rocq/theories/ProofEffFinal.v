(** computeFinalVelocityPoint of the end-effector headers. *)
From Verif Require Import Vec SpecBezier ModelData ModelWaypointsJerk ModelDispatch ModelCont ModelTraj ModelEff
  SpecCom SpecEff ProofBezier ProofCurve ProofWaypoints ProofWaypoints2 ProofEff ProofEff2.
Open Scope R_scope.

Lemma c104_one pData T : 0 < T ->
  j0j1_computeFinalVelocityPoint pData T =
    Ok (0, vadd (vsub (vscal (3 / 4) (dc1 pData)) (vscal (3 * T / 14) (ddc1 pData))) (vscal (T * T / 56) (j1 pData))).
Proof.
  intros HT. assert (T <> 0) by lra. unfold j0j1_computeFinalVelocityPoint, j0j1_computeConstantWaypoints. cbn [bind get nth_error].
  do 2 f_equal. apply v3_eq; ecbn; field; auto.
Qed.
Lemma c104_more pData T : 0 < T ->
  x3_computeFinalVelocityPoint pData T = Ok (0, vzero) /\ x5_computeFinalVelocityPoint pData T = Ok (0, vzero).
Proof.
  intros HT. assert (T <> 0) by lra.
  unfold x3_computeFinalVelocityPoint, x3_computeConstantWaypoints, x5_computeFinalVelocityPoint, x5_computeConstantWaypoints.
  cbn [bind get nth_error].
  split; do 2 f_equal; apply v3_eq; unfold vzero; ecbn; field; auto.
Qed.
Lemma c104_right pData T xs : In (flag_of pData) effector_flags -> length xs = eff_free (flag_of pData) -> 0 < T ->
  exists cv v, eff_curve pData T xs = Ok cv /\
    (if Z.eqb (flag_of pData) F_jerk then j0j1_computeFinalVelocityPoint pData T
     else if Z.eqb (flag_of pData) F_x3 then x3_computeFinalVelocityPoint pData T
     else x5_computeFinalVelocityPoint pData T) = Ok (0, v) /\
    (is_deriv_n 1 (cv_fun cv) T v <->
     if Z.eqb (flag_of pData) F_jerk then vscal (T * T) (j1 pData) = vadd (vscal 14 (dc1 pData)) (vscal (12 * T) (ddc1 pData))
     else dc1 pData = vzero).
Proof.
  intros Hin Hl HT. destruct (eff_boundary pData T xs Hin Hl HT) as (cv & Hcv & _ & _ & Hm).
  exists cv. destruct Hm as (_ & _ & _ & _ & _ & Hd & _).
  assert (U : forall v, is_deriv_n 1 (cv_fun cv) T v <-> v = dc1 pData).
  { intros v. split; [intros H; exact (is_deriv_n_unique 1 _ _ T _ _ (fun _ => eq_refl) H Hd)|intros ->; exact Hd]. }
  destruct (c104_more pData T HT) as [E3 E5]. rewrite (c104_one pData T HT), E3, E5.
  destruct (Z.eqb (flag_of pData) F_jerk).
  - eexists. split; [exact Hcv|]. split; [reflexivity|]. rewrite U. clear U Hd.
    destruct (dc1 pData) as [d1 d2 d3], (ddc1 pData) as [e1 e2 e3], (j1 pData) as [k1 k2 k3]. ecbn.
    split; intros E; injection E; intros; apply v3_eq; ecbn; lra.
  - exists vzero. split; [exact Hcv|]. split; [destruct (Z.eqb _ _); reflexivity|]. rewrite U. split; intros E; symmetry; exact E.
Qed.
