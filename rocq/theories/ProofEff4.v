(** End-effector constraints: bounds on the trajectory. *)
From Coq Require Import Bool.
From Verif Require Import Vec SpecBezier ModelData ModelUtils ModelRows ModelWaypointsJerk ModelDispatch ModelCont ModelSolver ModelTraj ModelEff
  SpecCom SpecWp SpecSolver SpecEff ProofBezier ProofCurve ProofNd ProofWaypoints ProofWaypoints2 ProofEff ProofEff3.
Open Scope R_scope.

Lemma depends_at w a : In a (coefficients w) -> / 2 ^ 52 < Rabs a -> dependsb w = true.
Proof.
  intros Hi Ha. unfold dependsb. apply existsb_exists. exists a. split; [exact Hi|].
  destruct (Rlt_dec _ _); [reflexivity|lra].
Qed.

Definition blocks_ok (pData : problem) (ws : list wpn) : Prop :=
  Forall (fun w => (3 * length (wn_blocks w) = dimVar pData)%nat) ws.
Ltac blocks := unfold blocks_ok, dimVar; eff_flagg; repeat constructor
with eff_flagg := match goal with E : flag_of _ = _ |- _ => rewrite E end.

Lemma eff_constraints pData T xs pi pts : T <> 0 -> eff_shape pData T xs pi pts ->
  exists wa wv wj M, computeAccelerationWaypoints pData T pi = Ok wa /\ computeVelocityWaypoints pData T pi = Ok wv /\
    computeJerkWaypoints pData T pi = Ok wj /\ blocks_ok pData (wa ++ wv ++ wj) /\
    computeEndEffectorConstraints pData T pi = Ok M /\
    computeConstraintsMatrix pData wa wv eff_bounds eff_bounds wj eff_bounds = Ok M.
Proof.
  intros HT Hs.
  assert (H : exists wa wv wj, computeAccelerationWaypoints pData T pi = Ok wa /\ computeVelocityWaypoints pData T pi = Ok wv /\
    computeJerkWaypoints pData T pi = Ok wj /\ blocks_ok pData (wa ++ wv ++ wj)).
  { eff_cases Hs; unfold computeAccelerationWaypoints, computeVelocityWaypoints, computeJerkWaypoints; rewrite E;
      eexists _, _, _; (split; [reflexivity|]); (split; [reflexivity|]); (split; [reflexivity|]);
      unfold blocks_ok, dimVar; rewrite E; cbn [app]; repeat constructor. }
  destruct H as (wa & wv & wj & Ha & Hv & Hj & Hb).
  destruct (c34_exact pData wa wv eff_bounds eff_bounds wj eff_bounds Hb) as (M & HM & _).
  exists wa, wv, wj, M. do 4 (split; [assumption|]). split; [|exact HM].
  unfold computeEndEffectorConstraints. rewrite Hj, Ha, Hv. exact HM.
Qed.

Definition vel_fixed (pData : problem) (T : R) : list vec3 :=
  let n := eff_degree (flag_of pData) in
  end_velocities n T (dc0 pData) (ddc0 pData) (j0 pData) ++ end_velocities n (- T) (dc1 pData) (ddc1 pData) (j1 pData).

Lemma big_coef k T : 0 < T -> 1 <= k -> T <= 1000000 -> / 2 ^ 52 < Rabs (k / T).
Proof.
  intros H0 Hk H1. rewrite pow52. rewrite Rabs_pos_eq by (apply Rlt_le, Rdiv_lt_0_compat; lra).
  apply Rlt_le_trans with (/ T); [apply Rinv_lt_contravar; [|lra]; apply Rmult_lt_0_compat; lra|].
  unfold Rdiv. rewrite <- (Rmult_1_l (/ T)) at 1. apply Rmult_le_compat_r; [left; apply Rinv_0_lt_compat; exact H0|exact Hk].
Qed.
Lemma big_coef3 k T : 0 < T -> 336 <= k -> T <= 1000000 -> / 2 ^ 52 < Rabs (k / (T * T * T)).
Proof.
  intros H0 Hk H1. rewrite pow52. assert (H3 : 0 < T * T * T) by (repeat apply Rmult_lt_0_compat; exact H0).
  assert (HB : T * T * T <= 1000000 * 1000000 * 1000000).
  { repeat apply Rmult_le_compat; try lra. apply Rmult_le_pos; lra. }
  rewrite Rabs_pos_eq by (apply Rlt_le, Rdiv_lt_0_compat; lra).
  apply Rlt_le_trans with (336 / (T * T * T)).
  - apply (Rmult_lt_reg_r (4503599627370496 * (T * T * T))); [lra|].
    replace (/ 4503599627370496 * (4503599627370496 * (T * T * T))) with (T * T * T) by field.
    replace (336 / (T * T * T) * (4503599627370496 * (T * T * T))) with (336 * 4503599627370496) by (field; lra). lra.
  - unfold Rdiv. apply Rmult_le_compat_r; [left; apply Rinv_0_lt_compat; exact H3|exact Hk].
Qed.
Lemma big_neg a : / 2 ^ 52 < Rabs (- a) -> / 2 ^ 52 < Rabs a.
Proof. rewrite Rabs_Ropp. auto. Qed.

Lemma eff_pts pData T xs pi pts : T <> 0 -> eff_shape pData T xs pi pts ->
  let n := eff_degree (flag_of pData) in
  pts = end_positions n T (c0 pData) (dc0 pData) (ddc0 pData) (j0 pData) ++ xs ++
        rev (end_positions n (- T) (c1 pData) (dc1 pData) (ddc1 pData) (j1 pData)).
Proof.
  intros HT Hs. unfold eff_degree.
  inversion Hs as [? ? ? ? ? ? ? ? ? ? ? E Hcc Hp|? ? ? ? ? ? ? ? ? ? ? ? ? ? ? E Hcc Hp|? ? ? ? ? ? ? ? ? ? ? ? ? ? E Hcc Hp]; subst;
    rewrite E; injection Hcc; intros; subst; unfold end_positions; simpl Z.eqb; cbv iota; cbn [rev app]; cons_eq; try reflexivity; wp_field.
Qed.

Lemma dep_block k w : In (mscal k mid) (wn_blocks w) -> / 2 ^ 52 < Rabs k -> dependsb w = true.
Proof.
  intros Hi Hk. apply (depends_at w (k * 1)); [|rewrite Rmult_1_r; exact Hk].
  unfold coefficients. apply in_concat. eexists. split; [apply in_map; exact Hi|]. left; reflexivity.
Qed.
Lemma big1 k c T : 0 < T -> T <= 1000000 -> k = c / T -> (1 <= c \/ 1 <= - c) -> / 2 ^ 52 < Rabs k.
Proof.
  intros H0 H1 -> [H|H]; [apply big_coef; assumption|].
  apply big_neg. replace (- (c / T)) with (- c / T) by (field; lra). apply big_coef; assumption.
Qed.
Lemma big3 k c T : 0 < T -> T <= 1000000 -> k = c / (T * T * T) -> (336 <= c \/ 336 <= - c) -> / 2 ^ 52 < Rabs k.
Proof.
  intros H0 H1 -> [H|H]; [apply big_coef3; assumption|].
  apply big_neg. replace (- (c / (T * T * T))) with (- c / (T * T * T)) by (field; lra). apply big_coef3; assumption.
Qed.
Ltac dep_in := cbn [wn_blocks In]; tauto.
Ltac dep_vel := match goal with |- context [mscal ?k mid] =>
  apply (dep_block k); [dep_in|];
  let go c := (apply (big1 k c _ ltac:(eassumption) ltac:(eassumption)); [field; lra|lra]) in
  first [go 8|go (-8)|go 10|go (-10)|go 12|go (-12)] end.
Ltac dep_jerk := match goal with |- context [mscal ?k mid] =>
  apply (dep_block k); [dep_in|];
  let go c := (apply (big3 k c _ ltac:(eassumption) ltac:(eassumption)); [field; lra|lra]) in
  first [go 336|go (-336)|go 1008|go (-1008)|go 720|go (-720)|go 2160|go (-2160)|go 1320|go (-1320)|go 3960|go (-3960)] end.

Lemma vel_cover pData T xs pi pts : 0 < T -> T <= 1000000 -> eff_shape pData T xs pi pts ->
  exists ws, computeVelocityWaypoints pData T pi = Ok ws /\
    Forall (fun w => dependsb w = true \/ In (ev_wpn w xs) (vel_fixed pData T)) ws.
Proof.
  intros H0 H1 Hs. assert (HT : T <> 0) by lra. unfold vel_fixed, eff_degree, end_velocities.
  inversion Hs as [? ? ? ? ? ? ? ? ? ? ? E Hcc Hp|? ? ? ? ? ? ? ? ? ? ? ? ? ? ? E Hcc Hp|? ? ? ? ? ? ? ? ? ? ? ? ? ? E Hcc Hp]; subst;
    injection Hcc; intros; subst; clear Hcc Hs; unfold computeVelocityWaypoints; rewrite E;
    (eexists; split; [reflexivity|]); simpl Z.eqb; cbv iota; cbn [app];
    repeat (apply Forall_cons; [first [left; dep_vel|right]|]); try apply Forall_nil.
  all: cbn [In]; 
    first [ left; wp_field | right; left; wp_field | do 2 right; left; wp_field
          | do 3 right; left; wp_field | do 4 right; left; wp_field | do 5 right; left; wp_field ].
Qed.

Lemma jerk_cover pData T xs pi pts : 0 < T -> T <= 1000000 -> eff_shape pData T xs pi pts ->
  exists ws, computeJerkWaypoints pData T pi = Ok ws /\
    Forall (fun w => dependsb w = true \/ In (ev_wpn w xs) [j0 pData; j1 pData]) ws.
Proof.
  intros H0 H1 Hs. assert (HT : T <> 0) by lra.
  inversion Hs as [? ? ? ? ? ? ? ? ? ? ? E Hcc Hp|? ? ? ? ? ? ? ? ? ? ? ? ? ? ? E Hcc Hp|? ? ? ? ? ? ? ? ? ? ? ? ? ? E Hcc Hp]; subst;
    injection Hcc; intros; subst; clear Hcc Hs; unfold computeJerkWaypoints; rewrite E;
    (eexists; split; [reflexivity|]);
    repeat (apply Forall_cons; [first [left; dep_jerk|right]|]); try apply Forall_nil.
  all: cbn [In]; first [ left; wp_field | right; left; wp_field ].
Qed.
