(** One free point without path: an effector at rest away from the origin. *)
From Coq Require Import List Lia Lra.
From Verif Require Import Vec SpecBezier ModelData ModelUtils ModelWaypointsJerk ModelDispatch ModelCont ModelSolver ModelTraj ModelEff
  SpecCom SpecWp SpecSolver SpecTraj Spec0Step SpecEff SpecEffMove ProofCurve ProofWaypoints ProofTraj2 ProofSolves ProofEff ProofEff2 ProofEff3 ProofEff4 ProofEff5 ProofEff6 ProofEff7 ProofEff11 ProofEff14
  ProofEff15 ProofEffBest ProofEffAxis3 ExamplesTraj.
Import ListNotations.
Open Scope R_scope.

Definition rest_pb (a : R) : problem :=
  Problem [] (V3 a 0 0) vzero vzero vzero (V3 a 0 0) vzero vzero vzero vzero false (Constraints F_jerk false 0 0) 0 0.
Definition rest_k : R := - (- (78321678321748 / 10000000000000) - 783216783237586 / 100000000000000 + 913752913728184 / 100000000000000 + 913752913758454 / 100000000000000
  - 783216783216697 / 100000000000000 - 783216783216777 / 100000000000000) / 2 / (652680652684107 / 100000000000000).
Lemma rest_k_not : rest_k <> 1 /\ 0 <= rest_k - 1 <= 1 / 1000000.
Proof. unfold rest_k. split; [|split]; lra. Qed.
Definition rest_xs (a : R) : list vec3 := [V3 (a * rest_k) 0 0].
Definition rest_pts (a : R) : list vec3 := repeat (V3 a 0 0) 4 ++ rest_xs a ++ repeat (V3 a 0 0) 4.
Definition no_path (s : R) : outcome vec3 := Ok vzero.
Lemma rest_in a : In (flag_of (rest_pb a)) effector_flags.
Proof. cbn; tauto. Qed.
Lemma rest_shape a xs : length xs = 1%nat -> exists pi, eff_shape (rest_pb a) 1 xs pi (repeat (V3 a 0 0) 4 ++ xs ++ repeat (V3 a 0 0) 4) /\
  computeConstantWaypoints (rest_pb a) 1 = Ok pi.
Proof.
  intros Lx. destruct (eff_shape_total (rest_pb a) 1 xs (rest_in a) Lx) as (pi & pts & Hc & Hs).
  exists pi. split; [|exact Hc]. match goal with |- eff_shape _ _ _ _ ?Q => replace Q with pts; [exact Hs|] end.
  inversion Hs as [? ? ? ? ? ? ? ? ? ? ? E Hcc Hp|? ? ? ? ? ? ? ? ? ? ? ? ? ? ? E Hcc Hp|? ? ? ? ? ? ? ? ? ? ? ? ? ? E Hcc Hp]; subst; try discriminate Lx.
  injection Hcc; intros; subst; clear. cbn [app repeat].
  repeat (apply f_equal2; [try reflexivity; apply v3_eq; unfold vzero; vcbn; cbn [rest_pb c0 c1 dc0 dc1 ddc0 ddc1 j0 j1 vx vy vz]; unfold vzero; cbn [vx vy vz]; field|]). reflexivity.
Qed.
Lemma rest_sat a : -1 <= a <= 1 -> exists pi M, computeConstantWaypoints (rest_pb a) 1 = Ok pi /\ computeEndEffectorConstraints (rest_pb a) 1 pi = Ok M /\
  satX M (flat (rest_xs a)).
Proof.
  intros Ha0. destruct rest_k_not as (_ & RK).
  destruct (rest_shape a (rest_xs a) eq_refl) as (pi & Hs & Hc).
  destruct (eff_constraints (rest_pb a) 1 _ pi _ R1_neq_R0 Hs) as (wa & wv & wj & M & Ha & Hv & Hj & Hb & HM & HC).
  exists pi, M. split; [exact Hc|]. split; [exact HM|].
  destruct (c34_exact (rest_pb a) wa wv eff_bounds eff_bounds wj eff_bounds Hb) as (M' & HC' & _ & _ & HX). rewrite HC in HC'. injection HC' as <-.
  apply (HX (rest_xs a)); [reflexivity|].
  assert (G : forall ws P, at_free (rest_xs a) ws = P -> Forall (fun v => le3 (vopp eff_bounds) v /\ le3 v eff_bounds) P ->
    Forall (bounded (vopp eff_bounds) eff_bounds (rest_xs a)) ws).
  { intros ws P <- F. unfold at_free in F. rewrite Forall_map in F. eapply Forall_impl; [|exact F]. cbv beta. intros w F1 _. exact F1. }
  destruct (vel_points (rest_pb a) 1 _ _ _ R1_neq_R0 Hs) as (wv' & Hv' & Pv). rewrite Hv in Hv'. injection Hv' as <-.
  destruct (jerk_points (rest_pb a) 1 _ _ _ R1_neq_R0 Hs) as (wj' & Hj' & Pj). rewrite Hj in Hj'. injection Hj' as <-.
  destruct (acc_points (rest_pb a) 1 _ _ _ R1_neq_R0 Hs) as (wa' & Ha' & Pa). rewrite Ha in Ha'. injection Ha' as <-.
  assert (B : -2 <= a * rest_k <= 2) by nra.
  unfold rest_xs in Pv, Pj, Pa, G |- *. cbn [repeat app] in Pv, Pj, Pa. revert Pv Pj Pa G. generalize (a * rest_k) B. intros c JC Pv Pj Pa G.
  split; [|split; [|split]].
  - apply (G _ _ Pa). unfold acc_errs. simpl Z.eqb. cbv iota. hodo_vals. cbn [repeat_at shift_at firstn skipn app nth].
    repeat apply Forall_cons; try apply Forall_nil; unfold le3, eff_bounds, vzero; vcbn; lra.
  - apply (G _ _ Pv). hodo_vals.
    repeat apply Forall_cons; try apply Forall_nil; unfold le3, eff_bounds, vzero; vcbn; lra.
  - apply (G _ _ Pj). hodo_vals.
    repeat apply Forall_cons; try apply Forall_nil; unfold le3, eff_bounds, vzero; vcbn; lra.
  - cbn [rest_pb c0 c1 vz]. rewrite Rmin_left by lra. repeat apply Forall_cons; try apply Forall_nil; cbn [vz]; lra.
Qed.
Lemma rest_cost a pi H g : computeConstantWaypoints (rest_pb a) 1 = Ok pi -> computeEndEffectorCost (rest_pb a) no_path 1 0 pi = Ok (H, g) ->
  exists h, 0 < h /\ H = [[h; 0; 0]; [0; h; 0]; [0; 0; h]] /\ g = [- h * (a * rest_k); 0; 0].
Proof.
  intros Hc. destruct (rest_shape a (rest_xs a) eq_refl) as (pi' & Hs & Hc'). rewrite Hc in Hc'. injection Hc' as <-.
  unfold rest_xs in Hs. cbn [repeat app] in Hs.
  inversion Hs as [? ? ? ? ? ? ? ? ? ? ? E Hcc Hp|? ? ? ? ? ? ? ? ? ? ? ? ? ? ? E Hcc Hp|? ? ? ? ? ? ? ? ? ? ? ? ? ? E Hcc Hp]; subst.
  unfold computeEndEffectorCost. destruct (Rlt_dec 0 0) as [A|_]; [lra|]. cbn [bind].
  change (computeVelocityCost (rest_pb a) 1) with (j0j1_computeVelocityCost (rest_pb a) 1). unfold j0j1_computeVelocityCost. cbn [bind get nth_error].
  match goal with |- context [blocks_norm ?B] => assert (HN : 0 < blocks_norm B) by (apply (blocks_norm_pos (652680652684107 / 100000000000000) 1); lra); revert HN; generalize (blocks_norm B) end.
  intros N HN HE. assert (HI : 0 < / N) by (apply Rinv_0_lt_compat; exact HN). exists (652680652684107 / 100000000000000 / N).
  split; [apply Rdiv_lt_0_compat; lra|].
  assert (EH := f_equal (fun o => match o with Ok p => fst p | _ => [] end) HE). assert (Eg := f_equal (fun o => match o with Ok p => snd p | _ => [] end) HE). cbn [fst snd] in EH, Eg.
  split; [rewrite <- EH|rewrite <- Eg]; unfold rest_k; cbn -[Rplus Rmult Rdiv Rminus Ropp IZR]; repeat (apply f_equal2); try reflexivity; field; lra.
Qed.
Lemma rest_plan a wg quadprog glpk init : -1 <= a <= 1 -> qp_solves quadprog -> (forall k, length (init k) = k) ->
  exists r, solveEndEffector wg quadprog glpk init (rest_pb a) no_path 1 0 = Ok r /\ rc_success r = true /\
    vx (cv_fun (rc_c r) (1 / 2)) = a + 35 / 128 * (a * rest_k - a).
Proof.
  intros Ha QO HI. assert (Hw : 0 <= 0 <= 1) by lra. pose proof (fun (s : R) (_ : 0 <= s <= 1) => eq_refl (no_path s)) as Hp0.
  assert (Hp : forall s, 0 <= s <= 1 -> no_path s = Ok ((fun _ => vzero) s)) by reflexivity.
  destruct (eff_qp_ok (rest_pb a) no_path (fun _ => vzero) 1 0 (rest_in a) Rlt_0_1 Hp Hw) as (pi & M & H & c & EQ & _).
  pose proof EQ as (E1 & E2 & E3). destruct (rest_sat a Ha) as (pi1 & M1 & F1 & F2 & HS). rewrite E1 in F1. injection F1 as <-. rewrite E2 in F2. injection F2 as <-.
  destruct (eff_answer (rest_pb a) no_path (fun _ => vzero) 1 0 (rest_in a) Rlt_0_1 Hp Hw pi M H c wg quadprog glpk init (rest_xs a) EQ QO HI eq_refl HS) as (ys & cv & Ay & Cy & ER).
  assert (Ax : eff_least (rest_pb a) M H c (rest_xs a)).
  { split; [reflexivity|]. split; [exact HS|]. intros zs Lz _. destruct (rest_cost a pi H c E1 E3) as (h & Hh & -> & ->).
    destruct zs as [|[x y z] [|? ?]]; try discriminate Lz. unfold lval, quad, rdot, rest_xs, flat. cbn -[Rplus Rmult Rdiv Rminus Ropp IZR rest_k]. generalize (a * rest_k). intros k.
    apply Rminus_le. match goal with |- ?e <= 0 => replace e with (- (h * ((x - k) * (x - k) + y * y + z * z))) by ring end.
    assert (0 <= h * ((x - k) * (x - k) + y * y + z * z)) by (apply Rmult_le_pos; [lra|]; pose proof (Rle_0_sqr (x - k)); pose proof (Rle_0_sqr y); pose proof (Rle_0_sqr z); unfold Rsqr in *; lra). lra. }
  pose proof (eff_least_unique (rest_pb a) no_path (fun _ => vzero) 1 0 (rest_in a) Rlt_0_1 Hp Hw pi M H c _ _ EQ Ax Ay) as EZ.
  apply flat_inj in EZ; [|rewrite (proj1 Ay); reflexivity]. subst ys.
  eexists. split; [exact ER|]. split; [reflexivity|]. cbn [rc_c eff_result].
  destruct (rest_shape a (rest_xs a) eq_refl) as (pi2 & Hs & Hc). destruct (eff_curve_ok (rest_pb a) 1 (rest_xs a) (rest_in a) eq_refl Rlt_0_1) as (pj & ptj & K2 & K3 & K4).
  rewrite Hc in K2. injection K2 as <-. rewrite Cy in K4. injection K4 as ->.
  assert (EP : ptj = repeat (V3 a 0 0) 4 ++ rest_xs a ++ repeat (V3 a 0 0) 4).
  { unfold rest_xs in *. cbn [repeat app] in Hs |- *. clear - K3 Hs. inversion Hs; subst. inversion K3; subst.
    match goal with X : _ :: _ = _ :: _ |- _ => injection X; intros; subst; reflexivity end. }
  rewrite EP. unfold cv_fun, curve, bez3, rest_xs. cbn [bc_pts bc_T repeat app map vx]. generalize (a * rest_k). intros k.
  unfold bezl, bez, bern. cbn [length pred]. unfold sumf. cbn [nth]. simpl binom. cbn [Nat.sub]. rewrite ?INR_IZR_INZ. simpl Z.of_nat. cbn [pow]. field.
Qed.
Lemma c109_smooth_refuted : exists p q v path, flag_of p = F_jerk /\ moved_by v p q /\
  forall wg quadprog glpk init wg' quadprog' glpk' init', qp_solves quadprog -> qp_solves quadprog' ->
  (forall k, length (init k) = k) -> (forall k, length (init' k) = k) ->
  exists r r' t, solveEndEffector wg quadprog glpk init p path 1 0 = Ok r /\ rc_success r = true /\
    solveEndEffector wg' quadprog' glpk' init' q path 1 0 = Ok r' /\ rc_success r' = true /\
    cv_fun (rc_c r') t <> vadd (cv_fun (rc_c r) t) v.
Proof.
  exists (rest_pb 0), (rest_pb 1), (V3 1 0 0), no_path. split; [reflexivity|]. split; [repeat split; apply v3_eq; cbn; ring|].
  intros wg quadprog glpk init wg' quadprog' glpk' init' QO QO' HI HI'.
  destruct (rest_plan 0 wg quadprog glpk init ltac:(lra) QO HI) as (r & E & S & V). destruct (rest_plan 1 wg' quadprog' glpk' init' ltac:(lra) QO' HI') as (r' & E' & S' & V').
  exists r, r', (1 / 2). do 4 (split; [assumption|]). intros Z. apply (f_equal vx) in Z. rewrite V' in Z. cbn [vadd vx] in Z. rewrite V in Z.
  destruct rest_k_not as (K & _). apply K. lra.
Qed.
