(** End-effector constraints: what they do not ensure. *)
From Verif Require Import Vec SpecBezier ModelData ModelUtils ModelRows ModelWaypointsJerk ModelDispatch ModelCont ModelSolver ModelTraj ModelEff
  SpecCom SpecWp SpecSolver SpecTraj SpecEff ProofBezier ProofCurve ProofCom ProofWaypoints ProofSolver ProofTraj
  ProofEff ProofEff2 ProofEff3 ProofEff4 ProofEff5.
Open Scope R_scope.

Definition vX (a : R) : vec3 := V3 a 0 0.
Definition acc_pb : problem :=
  Problem [] (vX 0) (vX (-9232)) (vX 9800) (vX 0) (vX (-4216)) (vX 800) (vX 9800) (vX 0) vzero false
    (Constraints F_jerk false 0 0) 0 0.
Definition acc_pts : list vec3 :=
  [vX 0; vX (-1154); vX (-2133); vX (-2937); vX (-3566); vX (-3991); vX (-4241); vX (-4316); vX (-4216)].

Lemma acc_shape : exists pi, eff_shape acc_pb 1 [vX (-3566)] pi acc_pts /\ computeConstantWaypoints acc_pb 1 = Ok pi.
Proof.
  destruct (eff_shape_total acc_pb 1 [vX (-3566)]) as (pi & pts & Hc & Hs); [left; reflexivity|reflexivity|].
  exists pi. split; [|exact Hc]. replace acc_pts with pts; [exact Hs|].
  inversion Hs as [? ? ? ? ? ? ? ? ? ? ? E Hcc Hp|? ? ? ? ? ? ? ? ? ? ? ? ? ? ? E Hcc Hp|? ? ? ? ? ? ? ? ? ? ? ? ? ? E Hcc Hp]; subst;
    injection Hcc; intros; subst; clear Hcc. unfold acc_pts. 
  cons_eq; try reflexivity; apply v3_eq; unfold vX, acc_pb; cbn [c0 dc0 ddc0 j0 c1 dc1 ddc1 j1]; vcbn; try field.
Qed.

Lemma acc_refuted : exists pData T xs pi M cv,
  In (flag_of pData) effector_flags /\ 0 < T /\ length xs = eff_free (flag_of pData) /\
  boundary_within 10000 pData T /\ within 10000 (ddc0 pData) /\ within 10000 (ddc1 pData) /\
  computeConstantWaypoints pData T = Ok pi /\ computeEndEffectorConstraints pData T pi = Ok M /\ satX M (flat xs) /\
  eff_curve pData T xs = Ok cv /\
  exists a, is_deriv_n 2 (cv_fun cv) (T / 2) a /\ 10300 < vx a.
Proof.
  destruct acc_shape as (pi & Hs & Hc).
  destruct (eff_constraints acc_pb 1 _ pi _ ltac:(lra) Hs) as (wa & wv & wj & M & Ha & Hv & Hj & Hb & HM & HC).
  exists acc_pb, 1, [vX (-3566)], pi, M, (BCurve acc_pts 1).
  split; [left; reflexivity|]. split; [lra|]. split; [reflexivity|].
  assert (W : forall a, -10000 <= a <= 10000 -> within 10000 (vX a)).
  { intros a Ha'. unfold within, vX. cbn [vx vy vz]. rewrite Rabs_R0. split; [unfold Rabs; destruct (Rcase_abs a); lra|]. lra. }
  split.
  { unfold boundary_within. cbv zeta. unfold eff_degree. simpl Z.eqb. cbv iota.
    assert (V : forall v a, v = vX a -> -10000 <= a <= 10000 -> within 10000 v) by (intros v a ->; apply W).
    split; [|split; [|split; [apply W|apply W]; lra]]; unfold end_velocities; cbn [acc_pb dc0 ddc0 j0 dc1 ddc1 j1].
    - apply Forall_cons; [apply (V _ (-9232)); [reflexivity|lra]|]. apply Forall_cons; [apply (V _ (-7832)); [apply v3_eq; unfold vX; vcbn; field|lra]|].
      apply Forall_cons; [apply (V _ (-6432)); [apply v3_eq; unfold vX; vcbn; field|lra]|]. apply Forall_nil.
    - apply Forall_cons; [apply (V _ 800); [reflexivity|lra]|]. apply Forall_cons; [apply (V _ (-600)); [apply v3_eq; unfold vX; vcbn; field|lra]|].
      apply Forall_cons; [apply (V _ (-2000)); [apply v3_eq; unfold vX; vcbn; field|lra]|]. apply Forall_nil. }
  split; [apply W; lra|]. split; [apply W; lra|]. split; [exact Hc|]. split; [exact HM|].
  split.
  { destruct (c34_exact acc_pb wa wv eff_bounds eff_bounds wj eff_bounds Hb) as (M' & HC' & _ & _ & HX). rewrite HC in HC'. injection HC' as <-.
    apply (HX [vX (-3566)]); [reflexivity|].
    assert (G : forall ws P, at_free [vX (-3566)] ws = P -> Forall (within 10000) P -> Forall (bounded (vopp eff_bounds) eff_bounds [vX (-3566)]) ws).
    { intros ws P <- F. unfold at_free in F. rewrite Forall_map in F. eapply Forall_impl; [|exact F]. cbv beta. intros w (A & B & C) _.
      assert (L : forall a, Rabs a <= 10000 -> -10000 <= a <= 10000) by (intros a; unfold Rabs; destruct (Rcase_abs a); lra).
      apply L in A, B, C. unfold le3, eff_bounds. cbn [vopp vx vy vz]. lra. }
    destruct (vel_points acc_pb 1 _ _ _ R1_neq_R0 Hs) as (wv' & Hv' & Pv). rewrite Hv in Hv'. injection Hv' as <-.
    destruct (jerk_points acc_pb 1 _ _ _ R1_neq_R0 Hs) as (wj' & Hj' & Pj). rewrite Hj in Hj'. injection Hj' as <-.
    destruct (acc_points acc_pb 1 _ _ _ R1_neq_R0 Hs) as (wa' & Ha' & Pa). rewrite Ha in Ha'. injection Ha' as <-.
    assert (V : forall v, -10000 <= vx v <= 10000 -> vy v = 0 -> vz v = 0 -> within 10000 v).
    { intros v A B C. unfold within. rewrite B, C, Rabs_R0. split; [unfold Rabs; destruct (Rcase_abs _); lra|]. lra. }
    split; [|split; [|split]].
    - apply (G _ _ Pa). unfold acc_errs. simpl Z.eqb. cbv iota. unfold acc_pts. hodo_vals. cbn [shift_at firstn skipn app nth].
      repeat apply Forall_cons; try apply Forall_nil; (apply V; unfold vX; vcbn; [lra|field|field]).
    - apply (G _ _ Pv). unfold acc_pts. hodo_vals. repeat apply Forall_cons; try apply Forall_nil; (apply V; unfold vX; vcbn; [lra|field|field]).
    - apply (G _ _ Pj). unfold acc_pts. hodo_vals. repeat apply Forall_cons; try apply Forall_nil; (apply V; unfold vX; vcbn; [lra|field|field]).
    - apply Forall_cons; [|apply Forall_nil]. cbn [acc_pb c0 c1 vX vz]. rewrite Rmin_left by lra. lra. }
  split; [rewrite (eff_shape_curve _ _ _ _ _ Hs); apply mk_bezier_ok; lra|].
  exists (curve (hodo_n 2 1 acc_pts) 1 (1 / 2)). split; [apply curve_is_deriv_n|].
  unfold acc_pts. hodo_vals. bez_norm. unfold vX. vcbn. lra.
Qed.

Lemma jerk_bound_refuted : exists pData vb jb wj xs M,
  Forall (fun w => (3 * length (wn_blocks w) = dimVar pData)%nat) wj /\ (3 * length xs = dimVar pData)%nat /\
  computeConstraintsMatrix pData [] [] vb vb wj jb = Ok M /\ satX M (flat xs) /\
  exists w, In w wj /\ dependsb w = true /\ ~ le3 (ev_wpn w xs) jb.
Proof.
  pose (w := Wn [mid] vzero).
  exists acc_pb, (V3 10 10 10), (V3 5 5 5), [w], [V3 7 7 7].
  assert (HB : Forall (fun w => (3 * length (wn_blocks w) = dimVar acc_pb)%nat) ([] ++ [] ++ [w])) by (repeat constructor).
  destruct (c34_exact acc_pb [] [] (V3 10 10 10) (V3 10 10 10) [w] (V3 5 5 5) HB) as (M & HC & _ & _ & HX).
  exists M. split; [exact HB|]. split; [reflexivity|]. split; [exact HC|]. split.
  - apply (HX [V3 7 7 7]); [reflexivity|]. split; [constructor|]. split; [constructor|]. split.
    + apply Forall_cons; [|apply Forall_nil]. intros _. unfold w, le3, mid. vcbn. lra.
    + apply Forall_cons; [|apply Forall_nil]. cbn [acc_pb c0 c1 vX vz]. rewrite Rmin_left by lra. lra.
  - exists w. split; [left; reflexivity|]. split.
    + unfold dependsb, coefficients, w, mid. cbn [wn_blocks map concat row0 row1 row2 l3 app vx vy vz existsb].
      destruct (Rlt_dec (/ 2 ^ 52) (Rabs 1)) as [_|N]; [reflexivity|]. exfalso. apply N. rewrite Rabs_R1.
      assert (1 < 2 ^ 52) by (apply Rlt_pow_R1; [lra|lia]). rewrite <- Rinv_1. apply Rinv_lt_contravar; lra.
    + unfold le3, w, mid. vcbn. lra.
Qed.
