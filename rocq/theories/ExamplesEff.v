(** Concrete inputs for the theorems of PropertiesEff.v. *)
From Coq Require Import Lia Lra.
From Verif Require Import Vec SpecBezier ModelData ModelDispatch ModelCont ModelSolver ModelTraj ModelEff
  SpecCom SpecWp SpecSolver SpecTraj Spec0Step SpecEff ProofCurve ProofWaypoints ProofSolver ProofTraj ProofTraj2 Proof0Step2
  ProofEff ProofEff2 ProofEff3 ProofEff4 ProofEff5 ProofEff7 ProofEff14 ProofEff15 PropertiesEff ExamplesTraj.
Open Scope R_scope.

(** A step of the effector from (0,0,0) to (1,0,0) at rest at both ends, lifted
    by three free points. *)
Definition st3_xs : list vec3 := [V3 (1 / 4) 0 (1 / 2); V3 (1 / 2) 0 (1 / 2); V3 (3 / 4) 0 (1 / 2)].
Definition st3_pts : list vec3 := [vzero; vzero; vzero; vzero] ++ st3_xs ++ [V3 1 0 0; V3 1 0 0; V3 1 0 0; V3 1 0 0].
Definition st3_path (s : R) : outcome vec3 := Ok (V3 s 0 0).
Lemma st3_in : In (flag_of x3_pb) effector_flags.
Proof. cbn; tauto. Qed.
Lemma st3_shape : exists pi, eff_shape x3_pb 1 st3_xs pi st3_pts /\ computeConstantWaypoints x3_pb 1 = Ok pi.
Proof.
  destruct (eff_shape_total x3_pb 1 st3_xs st3_in eq_refl) as (pi & pts & Hc & Hs).
  exists pi. split; [|exact Hc]. replace st3_pts with pts; [exact Hs|].
  inversion Hs as [? ? ? ? ? ? ? ? ? ? ? E Hcc Hp|? ? ? ? ? ? ? ? ? ? ? ? ? ? ? E Hcc Hp|? ? ? ? ? ? ? ? ? ? ? ? ? ? E Hcc Hp]; subst.
  injection Hcc; intros; subst; clear. unfold st3_pts, st3_xs. cbn [app].
  repeat (apply f_equal2; [try reflexivity; apply v3_eq; unfold vzero; ecbn; field|]). reflexivity.
Qed.
Lemma st3_curve : eff_curve x3_pb 1 st3_xs = Ok (BCurve st3_pts 1).
Proof.
  destruct st3_shape as (pi & Hs & _). rewrite (eff_shape_curve _ _ _ _ _ Hs). unfold st3_pts. cbn [app]. apply mk_bezier_ok. lra.
Qed.

Lemma st3_sat : exists pi M, computeConstantWaypoints x3_pb 1 = Ok pi /\ computeEndEffectorConstraints x3_pb 1 pi = Ok M /\
  satX M (flat st3_xs).
Proof.
  destruct st3_shape as (pi & Hs & Hc).
  destruct (eff_constraints x3_pb 1 _ pi _ R1_neq_R0 Hs) as (wa & wv & wj & M & Ha & Hv & Hj & Hb & HM & HC).
  exists pi, M. split; [exact Hc|]. split; [exact HM|].
  destruct (C34_exact x3_pb wa wv eff_bounds eff_bounds wj eff_bounds Hb) as (M' & HC' & _ & _ & HX). rewrite HC in HC'. injection HC' as <-.
  apply (HX st3_xs); [reflexivity|].
  assert (G : forall ws P, at_free st3_xs ws = P -> Forall (fun v => le3 (vopp eff_bounds) v /\ le3 v eff_bounds) P ->
    Forall (bounded (vopp eff_bounds) eff_bounds st3_xs) ws).
  { intros ws P <- F. unfold at_free in F. rewrite Forall_map in F. eapply Forall_impl; [|exact F]. cbv beta. intros w F1 _. exact F1. }
  destruct (vel_points x3_pb 1 _ _ _ R1_neq_R0 Hs) as (wv' & Hv' & Pv). rewrite Hv in Hv'. injection Hv' as <-.
  destruct (jerk_points x3_pb 1 _ _ _ R1_neq_R0 Hs) as (wj' & Hj' & Pj). rewrite Hj in Hj'. injection Hj' as <-.
  destruct (acc_points x3_pb 1 _ _ _ R1_neq_R0 Hs) as (wa' & Ha' & Pa). rewrite Ha in Ha'. injection Ha' as <-.
  split; [|split; [|split]].
  - apply (G _ _ Pa). unfold acc_errs. simpl Z.eqb. cbv iota. unfold st3_pts, st3_xs. cbn [app]. hodo_vals. cbn [repeat_at shift_at firstn skipn app nth].
    repeat apply Forall_cons; try apply Forall_nil; unfold le3, eff_bounds, vzero; vcbn; lra.
  - apply (G _ _ Pv). unfold st3_pts, st3_xs. cbn [app]. hodo_vals.
    repeat apply Forall_cons; try apply Forall_nil; unfold le3, eff_bounds, vzero; vcbn; lra.
  - apply (G _ _ Pj). unfold st3_pts, st3_xs. cbn [app]. hodo_vals.
    repeat apply Forall_cons; try apply Forall_nil; unfold le3, eff_bounds, vzero; vcbn; lra.
  - unfold st3_xs. cbn [x3_pb c0 c1 vzero vz]. rewrite Rmin_left by lra. repeat apply Forall_cons; try apply Forall_nil; cbn [vz]; lra.
Qed.

(** The planner with the guessing back end succeeds on feasible free points. *)
Lemma guess_eff wg glpk pData path (p : R -> vec3) T wd pi M ys :
  In (flag_of pData) effector_flags -> 0 < T -> 0 <= wd <= 1 -> (forall s, 0 <= s <= 1 -> path s = Ok (p s)) ->
  computeConstantWaypoints pData T = Ok pi -> computeEndEffectorConstraints pData T pi = Ok M ->
  length ys = eff_free (flag_of pData) -> satX M (flat ys) ->
  exists r, solveEndEffector wg (guess (flat ys)) glpk (repeat 0) pData path T wd = Ok r /\ rc_success r = true /\ rc_x r = flat ys.
Proof.
  intros Hin HT Hw Hp Hc HM Ly Hy.
  destruct (eff_constraints_total pData T Hin HT) as (pi1 & M1 & Hc1 & HM1 & HL). rewrite Hc in Hc1. injection Hc1 as <-. rewrite HM in HM1. injection HM1 as <-.
  destruct (eff_cost pData T path p Hin HT Hp) as (pi2 & a & b & Hc2 & _ & _ & HW). rewrite Hc in Hc2. injection Hc2 as <-.
  destruct (HW wd Hw) as (H & g & K & HE & _).
  destruct (eff_boundary pData T ys Hin Ly HT) as (cv & Ecv & _).
  unfold solveEndEffector. rewrite Hc. cbn [bind]. rewrite HM. cbn [bind]. rewrite HE. cbn [bind fst snd].
  set (n := dimVar pData) in *. assert (DV : n = (3 * eff_free (flag_of pData))%nat) by (apply (dim_nf pData Hin)).
  destruct (c37_ok (MX n (map fst M)) (map snd M) (MX n []) [] H g (repeat 0 n) []) as (q & EH & Eg & HF & HQ).
  { unfold mx_wf. cbn [mx_rows mx_cols]. rewrite Forall_map. exact HL. } { cbn [mx_rows]. now rewrite !map_length. } { left; reflexivity. }
  unfold solve_noeq. cbn [mx_cols]. rewrite HQ.
  assert (Lf : length (flat ys) = n) by (rewrite flat_len, Ly, DV; reflexivity).
  rewrite guess_ok; [|now rewrite repeat_length|].
  - cbn [bind]. change (Z.eqb EIQUADPROG_FAST_OPTIMAL EIQUADPROG_FAST_OPTIMAL) with true. cbn [rd_success rd_x].
    unfold eff_curve in Ecv. rewrite Ecv. cbn [bind]. eexists. split; [reflexivity|]. split; reflexivity.
  - apply HF; [cbn [mx_cols]; exact Lf|]. split; [apply leM_satX; exact Hy|]. split; [constructor|left; reflexivity].
Qed.

Example ex_C29 : exists r, solveEndEffector false (guess (flat st3_xs)) no_lp (repeat 0) x3_pb st3_path 1 (1 / 2) = Ok r /\
  rc_success r = true /\ rc_x r = flat st3_xs /\ meets_all x3_pb 1 (cv_fun (rc_c r)).
Proof.
  destruct st3_sat as (pi & M & Hc & HM & HS).
  destruct (guess_eff false no_lp x3_pb st3_path (fun s => V3 s 0 0) 1 (1 / 2) pi M st3_xs st3_in Rlt_0_1 ltac:(lra) (fun _ _ => eq_refl) Hc HM eq_refl HS)
    as (r & E & Es & Ex).
  destruct (C29_plan false (guess (flat st3_xs)) no_lp (repeat 0) x3_pb st3_path 1 (1 / 2) r (guess_sound _) (fun n => repeat_length 0 n) st3_in Rlt_0_1 E Es)
    as (xs & _ & _ & _ & _ & _ & _ & HB & _).
  exists r. repeat (split; [assumption|]). exact HB.
Qed.
Example ex_C30_C31 : exists pi cv wv wa wj, computeConstantWaypoints x3_pb 1 = Ok pi /\ eff_curve x3_pb 1 st3_xs = Ok cv /\
  computeVelocityWaypoints x3_pb 1 pi = Ok wv /\ computeAccelerationWaypoints x3_pb 1 pi = Ok wa /\ computeJerkWaypoints x3_pb 1 pi = Ok wj /\
  length wv = 10%nat /\ length wa = 10%nat /\ length wj = 8%nat /\
  deriv_points 1 (cv_fun cv) 1 (at_free st3_xs wv) /\ deriv_points 3 (cv_fun cv) 1 (at_free st3_xs wj).
Proof.
  destruct (C30_waypoints x3_pb 1 st3_xs st3_in eq_refl Rlt_0_1) as (pi & cv & wv & wj & E1 & E2 & E3 & E4 & L1 & L3 & D1 & D3).
  destruct (C31_acceleration x3_pb 1 st3_xs st3_in eq_refl Rlt_0_1) as (pi' & cv' & wa & P & E1' & E2' & E5 & LP & _ & HA).
  rewrite E1 in E1'. injection E1' as <-. rewrite E2 in E2'. injection E2' as <-.
  rewrite st3_curve in E2. injection E2 as <-.
  cbn [bc_pts st3_pts st3_xs app length Nat.sub] in L1, L3, LP.
  exists pi, (BCurve st3_pts 1), wv, wa, wj. do 5 (split; [first [assumption | exact st3_curve]|]).
  split; [exact L1|]. split; [|split; [exact L3|split; assumption]].
  apply (f_equal (@length vec3)) in HA. unfold at_free in HA. rewrite map_length in HA. rewrite HA. unfold acc_errs. simpl Z.eqb. cbv iota.
  do 10 (destruct P as [|? P]; try discriminate LP). reflexivity.
Qed.
(** the hypotheses of C34_bounds and C34_floor *)
Example ex_C34 : exists cv, eff_curve x3_pb 1 st3_xs = Ok cv /\ forall t, 0 <= t <= 1 -> 0 <= vz (cv_fun cv t) /\
  exists v, is_deriv_n 1 (cv_fun cv) t v /\ within 10000 v.
Proof.
  destruct st3_sat as (pi & M & Hc & HM & HS).
  assert (F : forall n, 0 < n - 1 -> 0 < n - 2 -> Forall (fun v => v = vzero) (end_velocities n 1 vzero vzero vzero) /\ Forall (fun v => v = vzero) (end_velocities n (-(1)) vzero vzero vzero)).
  { intros n H1 H2. unfold end_velocities, vzero. split; repeat apply Forall_cons; try apply Forall_nil; try reflexivity; apply v3_eq; vcbn; field; lra. }
  assert (W : within 10000 vzero) by (unfold within, vzero; cbn [vx vy vz]; rewrite Rabs_R0; lra).
  assert (D : eff_degree (flag_of x3_pb) = 10) by reflexivity.
  destruct (C34_bounds x3_pb 1 st3_xs pi M st3_in eq_refl Rlt_0_1 ltac:(lra)) as (cv & E & HB); try assumption.
  { unfold boundary_within. cbv zeta. rewrite D. destruct (F 10 ltac:(lra) ltac:(lra)) as [F1 F2]. cbn [x3_pb dc0 ddc0 j0 dc1 ddc1 j1].
    split; [eapply Forall_impl; [|exact F1]; intros v ->; exact W|]. split; [eapply Forall_impl; [|exact F2]; intros v ->; exact W|]. split; exact W. }
  destruct (C34_floor x3_pb 1 st3_xs pi M st3_in eq_refl Rlt_0_1) as (cv' & E' & HF); try assumption.
  { unfold boundary_above. cbv zeta. rewrite D. cbn [x3_pb c0 dc0 ddc0 j0 c1 dc1 ddc1 j1 vzero vz]. rewrite Rmin_left by lra.
    unfold end_positions, vzero. split; repeat apply Forall_cons; try apply Forall_nil; vcbn; lra. }
  rewrite E in E'. injection E' as <-. exists cv. split; [exact E|]. intros t Ht. split.
  - specialize (HF t Ht). cbn [x3_pb c0 c1 vzero vz] in HF. rewrite Rmin_left in HF by lra. exact HF.
  - destruct (HB t Ht) as (v & j & Dv & Wv & _). exists v. split; assumption.
Qed.
(** the hypotheses of C35, with a path along x *)
Example ex_C35 : exists H g k K, computeDistanceCostFunction_path 50 x3_pb 1 st3_path = Ok (H, g) /\ 0 < k /\ length H = 9%nat /\
  exists cv, eff_curve x3_pb 1 st3_xs = Ok cv /\
    k * (quad H (flat st3_xs) + 2 * rdot g (flat st3_xs)) + K = path_gap 50 x3_pb 1 cv (fun i => V3 (INR i * (1 / (INR 50 - 1))) 0 0).
Proof.
  destruct (C35_path 50 x3_pb 1 st3_path (fun s => V3 s 0 0) st3_in Rlt_0_1 ltac:(lia) (fun _ _ => eq_refl)) as (H & g & k & K & E & Hk & [LH _] & _ & HQ).
  pose proof st3_curve as Ec.
  exists H, g, k, K. split; [exact E|]. split; [exact Hk|]. split; [exact LH|]. exists (BCurve st3_pts 1). split; [exact Ec|]. apply (HQ st3_xs _ eq_refl Ec).
Qed.
(** the integral of the squared speed of that step, up to 3e-6 *)
Example ex_C36 : exists N K H g pi i, computeConstantWaypoints x3_pb 1 = Ok pi /\ computeVelocityCost x3_pb 1 pi = Ok (H, g) /\ 0 < N /\
  speed_integral (BCurve st3_pts 1) 1 i /\
  Rabs (N * (quad (blocks_matx H) (flat st3_xs) + 2 * rdot (concat (map l3 g)) (flat st3_xs)) + K - (2 * 10 - 1) * i) <= 3 / 10 ^ 6.
Proof.
  destruct (C36_velocity x3_pb 1 st3_in Rlt_0_1) as (pi & H & g & N & K & Hc & E & HN & _ & HV).
  destruct (HV st3_xs 1 eq_refl) as (cv & Ec & HI).
  rewrite st3_curve in Ec. injection Ec as <-.
  destruct HI as (i & Hi & Hb).
  { unfold st3_pts, st3_xs, within. cbn [bc_pts app]. repeat apply Forall_cons; try apply Forall_nil; unfold vzero; cbn [vx vy vz];
      rewrite ?Rabs_R0; rewrite ?Rabs_pos_eq by lra; lra. }
  exists N, K, H, g, pi, i. split; [exact Hc|]. split; [exact E|]. split; [exact HN|]. split; [exact Hi|].
  change (eff_degree (flag_of x3_pb)) with 10 in Hb. change (velocity_eps (flag_of x3_pb)) with (/ 10 ^ 6) in Hb.
  eapply Rle_trans; [exact Hb|]. right. field.
Qed.
