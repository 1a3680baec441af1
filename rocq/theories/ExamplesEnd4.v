(** Concrete inputs for the theorems of PropertiesEnd4.v. *)
From Coq Require Import Lia Lra Psatz.
From Verif Require Import Vec SpecBezier ModelData ModelUtils ModelRows ModelWaypointsJerk ModelDispatch ModelCont ModelSolver ModelTraj ModelEff ModelQp
  SpecCom SpecWp SpecSolver SpecTraj Spec0Step SpecEff SpecEnd3 SpecEnd4 ProofCurve ProofWaypoints ProofSolver ProofTraj ProofTraj2 Proof0Step2
  ProofEff ProofEff2 ProofEff3 ProofEff4 ProofEff5 ProofEff7 ProofEff14 ProofEff11 ProofEff15 ProofBezier ProofQp3 ProofQp16 ProofEnd12 PropertiesEff PropertiesEnd4 ExamplesTraj ExamplesEff ExamplesEnd3 SpecQp.
Import ListNotations.
Open Scope R_scope.

(** C66: the effector goes from (0,0,0) to (1,0,0) in one second with one free point and
    no path to follow.  The free point is (almost) in the middle. *)
Definition jk_pb : problem :=
  Problem [] vzero vzero vzero vzero (V3 1 0 0) vzero vzero vzero vzero false (Constraints F_jerk false 0 0) 0 0.
Definition jk_c : R := (783216783216697 / 100000000000000 + 783216783216777 / 100000000000000 - 913752913758454 / 100000000000000) / 2 / (652680652684107 / 100000000000000).
Definition jk_path (s : R) : outcome vec3 := Ok vzero.
Lemma jk_half : 49 / 100 <= jk_c <= 51 / 100.
Proof. unfold jk_c. lra. Qed.
Definition jk_xs : list vec3 := [V3 jk_c 0 0].
Definition jk_pts : list vec3 := [vzero; vzero; vzero; vzero] ++ jk_xs ++ [V3 1 0 0; V3 1 0 0; V3 1 0 0; V3 1 0 0].
Lemma jk_in : In (flag_of jk_pb) effector_flags.
Proof. cbn; tauto. Qed.
Lemma jk_shape : exists pi, eff_shape jk_pb 1 jk_xs pi jk_pts /\ computeConstantWaypoints jk_pb 1 = Ok pi.
Proof.
  destruct (eff_shape_total jk_pb 1 jk_xs jk_in eq_refl) as (pi & pts & Hc & Hs).
  exists pi. split; [|exact Hc]. replace jk_pts with pts; [exact Hs|].
  inversion Hs as [? ? ? ? ? ? ? ? ? ? ? E Hcc Hp|? ? ? ? ? ? ? ? ? ? ? ? ? ? ? E Hcc Hp|? ? ? ? ? ? ? ? ? ? ? ? ? ? E Hcc Hp]; subst; unfold jk_xs in *.
  injection Hcc; intros; subst; clear. unfold jk_pts, jk_xs. cbn [app].
  repeat (apply f_equal2; [try reflexivity; apply v3_eq; unfold vzero; ecbn; field|]). reflexivity.
Qed.
Lemma jk_sat : exists pi M, computeConstantWaypoints jk_pb 1 = Ok pi /\ computeEndEffectorConstraints jk_pb 1 pi = Ok M /\
  satX M (flat jk_xs).
Proof.
  pose proof jk_half as JH.
  destruct jk_shape as (pi & Hs & Hc).
  destruct (eff_constraints jk_pb 1 _ pi _ R1_neq_R0 Hs) as (wa & wv & wj & M & Ha & Hv & Hj & Hb & HM & HC).
  exists pi, M. split; [exact Hc|]. split; [exact HM|].
  destruct (C34_exact jk_pb wa wv eff_bounds eff_bounds wj eff_bounds Hb) as (M' & HC' & _ & _ & HX). rewrite HC in HC'. injection HC' as <-.
  apply (HX jk_xs); [reflexivity|].
  assert (G : forall ws P, at_free jk_xs ws = P -> Forall (fun v => le3 (vopp eff_bounds) v /\ le3 v eff_bounds) P ->
    Forall (bounded (vopp eff_bounds) eff_bounds jk_xs) ws).
  { intros ws P <- F. unfold at_free in F. rewrite Forall_map in F. eapply Forall_impl; [|exact F]. cbv beta. intros w F1 _. exact F1. }
  destruct (vel_points jk_pb 1 _ _ _ R1_neq_R0 Hs) as (wv' & Hv' & Pv). rewrite Hv in Hv'. injection Hv' as <-.
  destruct (jerk_points jk_pb 1 _ _ _ R1_neq_R0 Hs) as (wj' & Hj' & Pj). rewrite Hj in Hj'. injection Hj' as <-.
  destruct (acc_points jk_pb 1 _ _ _ R1_neq_R0 Hs) as (wa' & Ha' & Pa). rewrite Ha in Ha'. injection Ha' as <-.
  unfold jk_pts in Pv, Pj, Pa. unfold jk_xs in Pv, Pj, Pa, G |- *. revert Pv Pj Pa G. generalize jk_c JH. intros c JC Pv Pj Pa G.
  split; [|split; [|split]].
  - apply (G _ _ Pa). unfold acc_errs. simpl Z.eqb. cbv iota. cbn [app]. hodo_vals. cbn [repeat_at shift_at firstn skipn app nth].
    repeat apply Forall_cons; try apply Forall_nil; unfold le3, eff_bounds, vzero; vcbn; lra.
  - apply (G _ _ Pv). cbn [app]. hodo_vals.
    repeat apply Forall_cons; try apply Forall_nil; unfold le3, eff_bounds, vzero; vcbn; lra.
  - apply (G _ _ Pj). cbn [app]. hodo_vals.
    repeat apply Forall_cons; try apply Forall_nil; unfold le3, eff_bounds, vzero; vcbn; lra.
  - cbn [jk_pb c0 c1 vzero vz]. rewrite Rmin_left by lra. repeat apply Forall_cons; try apply Forall_nil; cbn [vz]; lra.
Qed.
Lemma jk_cost pi H g : computeConstantWaypoints jk_pb 1 = Ok pi -> computeEndEffectorCost jk_pb jk_path 1 0 pi = Ok (H, g) ->
  exists h, 0 < h /\ H = [[h; 0; 0]; [0; h; 0]; [0; 0; h]] /\ g = [- h * jk_c; 0; 0].
Proof.
  intros Hc. destruct jk_shape as (pi' & Hs & Hc'). rewrite Hc in Hc'. injection Hc' as <-.
  inversion Hs as [? ? ? ? ? ? ? ? ? ? ? E Hcc Hp|? ? ? ? ? ? ? ? ? ? ? ? ? ? ? E Hcc Hp|? ? ? ? ? ? ? ? ? ? ? ? ? ? E Hcc Hp]; subst.
  unfold computeEndEffectorCost. destruct (Rlt_dec 0 0) as [A|_]; [lra|]. cbn [bind].
  change (computeVelocityCost jk_pb 1) with (j0j1_computeVelocityCost jk_pb 1). unfold j0j1_computeVelocityCost. cbn [bind get nth_error].
  match goal with |- context [blocks_norm ?B] => assert (HN : 0 < blocks_norm B) by (apply (blocks_norm_pos (652680652684107 / 100000000000000) 1); lra); revert HN; generalize (blocks_norm B) end.
  intros N HN HE. assert (HI : 0 < / N) by (apply Rinv_0_lt_compat; exact HN). exists (652680652684107 / 100000000000000 / N).
  split; [apply Rdiv_lt_0_compat; lra|].
  assert (EH := f_equal (fun o => match o with Ok p => fst p | _ => [] end) HE). assert (Eg := f_equal (fun o => match o with Ok p => snd p | _ => [] end) HE). cbn [fst snd] in EH, Eg.
  split; [rewrite <- EH|rewrite <- Eg]; unfold jk_c; cbn -[Rplus Rmult Rdiv Rminus Ropp IZR]; repeat (apply f_equal2); try reflexivity; field; lra.
Qed.
Lemma jk_best pi H g : computeConstantWaypoints jk_pb 1 = Ok pi -> computeEndEffectorCost jk_pb jk_path 1 0 pi = Ok (H, g) ->
  unconstrained_best H g (flat jk_xs).
Proof.
  intros Hc HE. destruct (jk_cost pi H g Hc HE) as (h & Hh & -> & ->). intros v Lv. destruct v as [|a [|b [|c [|? ?]]]]; try discriminate Lv.
  unfold quad, rdot; cbn -[Rplus Rmult Rdiv Rminus Ropp IZR jk_c]. generalize jk_c. intros k.
  apply Rminus_le. match goal with |- ?e <= 0 => replace e with (- (h * ((a - k) * (a - k) + b * b + c * c))) by ring end.
  assert (0 <= h * ((a - k) * (a - k) + b * b + c * c)) by (apply Rmult_le_pos; [lra|]; pose proof (Rle_0_sqr (a - k)); pose proof (Rle_0_sqr b); pose proof (Rle_0_sqr c); unfold Rsqr in *; lra). lra.
Qed.
Lemma jk_scale : eff_on_scale (flag_of jk_pb) 1 0.
Proof. pose proof eps_micro. unfold eff_on_scale, eff_convexity, eff_slope. simpl Z.eqb. cbv iota zeta. lra. Qed.
Lemma jk_boundary : boundary_within 10000 jk_pb 1 /\ boundary_above 0 jk_pb 1.
Proof.
  assert (W : within 10000 vzero) by (unfold within, vzero; cbn [vx vy vz]; rewrite Rabs_R0; lra).
  assert (D : eff_degree (flag_of jk_pb) = 8) by reflexivity.
  assert (F : forall n, 0 < n - 1 -> 0 < n - 2 -> Forall (fun v => v = vzero) (end_velocities n 1 vzero vzero vzero) /\ Forall (fun v => v = vzero) (end_velocities n (-(1)) vzero vzero vzero)).
  { intros n H1 H2. unfold end_velocities, vzero. split; repeat apply Forall_cons; try apply Forall_nil; try reflexivity; apply v3_eq; vcbn; field; lra. }
  split.
  - unfold boundary_within. cbv zeta. rewrite D. destruct (F 8 ltac:(lra) ltac:(lra)) as [F1 F2]. cbn [jk_pb dc0 ddc0 j0 dc1 ddc1 j1].
    split; [eapply Forall_impl; [|exact F1]; intros v ->; exact W|]. split; [eapply Forall_impl; [|exact F2]; intros v ->; exact W|]. split; exact W.
  - unfold boundary_above. cbv zeta. rewrite D. cbn [jk_pb c0 dc0 ddc0 j0 c1 dc1 ddc1 j1 vzero vz].
    unfold end_positions, vzero. split; repeat apply Forall_cons; try apply Forall_nil; vcbn; lra.
Qed.
Example ex_C66_C67_best : forall mem glpk, exists r, solveEndEffector false (solve_quadprog mem) glpk (repeat 0) jk_pb jk_path 1 0 = Ok r /\
  rc_success r = true /\ rc_x r = [jk_c; 0; 0] /\ meets_all jk_pb 1 (cv_fun (rc_c r)) /\
  (forall t, 0 <= t <= 1 -> - (1 / 1000000) <= vz (cv_fun (rc_c r) t) /\ exists v, is_deriv_n 1 (cv_fun (rc_c r)) t v /\ within (10000 + 1 / 1000000) v).
Proof.
  intros mem glpk. assert (TT : eff_tol (flag_of jk_pb) 0 <= 1 / 1000000).
  { unfold eff_tol, accuracy, eff_convexity, eff_free, eff_rowcount. change (Z.eqb (flag_of jk_pb) F_jerk) with true. cbv iota.
    replace ((1 - 0) * (1 / 2)) with (/ 2) by field. assert (S : 1 / 2 <= sqrt (/ 2)) by (rewrite <- (sqrt_square (1 / 2)) by lra; apply sqrt_le_1; lra).
    pose proof eps_micro. pose proof eps_pos. apply Rmult_le_reg_r with (sqrt (/ 2)); [lra|]. unfold Rdiv at 1. rewrite Rmult_assoc, Rinv_l by lra.
    replace (INR (3 * 1)) with 3 by (cbn; lra). replace (INR 129) with 129 by (rewrite INR_IZR_INZ; reflexivity). nra. }
  destruct jk_sat as (pi & M & Hc & HM & HS).
  destruct (C67_best false mem glpk (repeat 0) jk_pb jk_path (fun _ => vzero) 1 0 (fun n => repeat_length 0 n) jk_in Rlt_0_1 (fun _ _ => eq_refl) ltac:(lra)) as (pi' & M' & H & g & Hc' & HM' & HE & HB).
  rewrite Hc in Hc'. injection Hc' as <-. rewrite HM in HM'. injection HM' as <-.
  destruct (HB jk_xs eq_refl (jk_best pi H g Hc HE) HS) as (r & E & S1 & Ex & Ec).
  destruct (C66_plan false mem glpk (repeat 0) jk_pb jk_path (fun _ => vzero) 1 0 (fun n => repeat_length 0 n) jk_in Rlt_0_1 ltac:(lra) (fun _ _ => eq_refl) ltac:(lra) jk_scale) as (r' & E' & HP).
  rewrite E in E'. injection E' as <-. destruct (HP S1) as (xs & _ & _ & _ & _ & HA & HV & HF). destruct jk_boundary as [BW BA].
  exists r. split; [exact E|]. split; [exact S1|]. split; [exact Ex|]. split; [exact HA|]. intros t Ht. split.
  - cbn [jk_pb c0 c1 vzero vz] in HF. rewrite Rmin_left in HF by lra. specialize (HF BA t Ht). lra.
  - destruct (HV BW t Ht) as (v & j & Dv & Wv & _). exists v. split; [exact Dv|]. unfold within in *. lra.
Qed.

(** C67_follow: the lifted step of ExamplesEff.v, given as the path. *)
Definition st3_along (s : R) : vec3 := cv_fun (BCurve st3_pts 1) s.
Example ex_C67_follow : forall mem glpk, exists r, solveEndEffector false (solve_quadprog mem) glpk (repeat 0) x3_pb (fun s => Ok (st3_along s)) 1 1 = Ok r /\
  rc_success r = true /\ rc_x r = [1 / 4; 0; 1 / 2; 1 / 2; 0; 1 / 2; 3 / 4; 0; 1 / 2] /\ rc_c r = BCurve st3_pts 1.
Proof.
  intros mem glpk. destruct st3_sat as (pi & M & Hc & HM & HS).
  apply (C67_follow false mem glpk (repeat 0) x3_pb (fun s => Ok (st3_along s)) st3_along 1 pi M st3_xs (BCurve st3_pts 1) (fun n => repeat_length 0 n) st3_in Rlt_0_1 (fun _ _ => eq_refl) Hc HM eq_refl HS st3_curve).
  unfold path_gap. induction (seq 0 50) as [|i l IH]; [reflexivity|]. cbn [map]. cbv zeta.
  match goal with |- sum_list (?a :: ?m) = 0 => change (a + sum_list m = 0) end. rewrite IH, Rmult_1_r, Rplus_0_r.
  unfold st3_along, eval_shift. change (Z.eqb (flag_of x3_pb) F_jerk) with false. cbv iota.
  generalize (cv_fun (BCurve st3_pts 1) (INR i * (1 / (INR 50 - 1)))). intros [x y z]. unfold vnorm2, vdot, vsub, vadd, vzero. cbn [vx vy vz]. ring.
Qed.

(** C67_optimal: rows parallel to the axes. *)
Definition axis_list (r : list R) : Prop :=
  exists a, (a = 0 \/ 1 <= a * a <= 2000000) /\ (r = [a; 0; 0] \/ r = [0; a; 0] \/ r = [0; 0; a]).
Lemma diag_scaled h rows g0 g1 g2 : 1 / 2 <= h <= 1 -> (forall r : list R * R, In r rows -> axis_list (fst r)) ->
  well_scaled (eqp_of (ineq_qp [[h;0;0];[0;h;0];[0;0;h]] [g0;g1;g2] rows)).
Proof.
  intros Hh HR. set (q := eqp_of _). pose proof eps_pos as EP. pose proof eps_micro as ES. assert (EE : eps52 * eps52 < / 100000000000) by nra.
  change (e_n q) with 3%nat.
  assert (HH : forall z i, (i < 3)%nat -> hmul q z i = h * z i).
  { intros z i Hi. unfold hmul, dot. change (e_n q) with 3%nat. cbn [sumf]. unfold q, eqp_of, ineq_qp; cbn [e_H qp_H]. unfold mat_of. destruct i as [|[|[|i]]]; [| | |lia]; cbn [nth]; ring. }
  assert (RW : forall i, (i < e_I q)%nat -> exists a (c : nat), (a = 0 \/ 1 <= a * a <= 2000000) /\ (c < 3)%nat /\ e_CI q i c = a /\ forall d, (d < 3)%nat -> d <> c -> e_CI q i d = 0).
  { intros i Hi. change (e_I q) with (length (qp_ci0 (ineq_qp [[h;0;0];[0;h;0];[0;0;h]] [g0;g1;g2] rows))) in Hi. unfold ineq_qp in Hi. cbn [qp_ci0] in Hi. rewrite ?map_length in Hi.
    destruct (nth_error rows i) as [r|] eqn:E; [|apply nth_error_None in E; lia].
    destruct (HR r (nth_error_In _ _ E)) as (a & Ha & Ea). unfold q, eqp_of, ineq_qp; cbn [e_CI qp_CI]. unfold mat_of.
    assert (EN : nth i (map (map Ropp) (map fst rows)) [] = map Ropp (fst r)) by (rewrite map_map; erewrite nth_error_nth by (apply (map_nth_error (fun r => map Ropp (fst r))); exact E); reflexivity).
    rewrite EN. exists (- a). destruct Ea as [Ea|[Ea|Ea]]; rewrite Ea; [exists 0%nat|exists 1%nat|exists 2%nat];
      (split; [destruct Ha as [->|Ha]; [left; ring|right; lra]|]); (split; [lia|]); (split; [cbn; ring|]);
      intros [|[|[|d]]] Hd Hn; try lia; try (exfalso; apply Hn; reflexivity); cbn; ring. }
  intros v z Hv (a & b & D1 & _ & D3). change (e_n q) with 3%nat in D1, D3. cbn [e_E q eqp_of qp_ce0 ineq_qp length sumf] in D1.
  assert (Hv' : exists i, (i < e_I q)%nat /\ v = e_CI q i) by (destruct Hv as [(i & Hi & _)|Hv]; [cbn in Hi; lia|exact Hv]).
  destruct Hv' as (i0 & Hi0 & ->). destruct (RW i0 Hi0) as (a0 & c0 & Ha0 & Hc0 & V0 & Vd).
  assert (DD3 : forall f g : rvec, dot 3 f g = f 0%nat * g 0%nat + f 1%nat * g 1%nat + f 2%nat * g 2%nat) by (intros; unfold dot; cbn [sumf]; ring).
  assert (DC : forall (u w : rvec) (c : nat), (c < 3)%nat -> (forall d, (d < 3)%nat -> d <> c -> u d = 0) -> dot 3 u w = u c * w c).
  { intros u w c Hc Hu. rewrite DD3. destruct c as [|[|[|c]]]; [| | |lia]; rewrite ?(Hu 0%nat), ?(Hu 1%nat), ?(Hu 2%nat) by lia; ring. }
  assert (Z : forall c : nat, (c < 3)%nat -> z c = 0 \/ h * z c = e_CI q i0 c).
  { intros c Hc. destruct (Req_dec (z c) 0) as [Zc|Zc]; [left; exact Zc|right]. pose proof (D1 c Hc) as E. rewrite HH in E by exact Hc.
    replace (sumf (e_I q) (fun k => b k * e_CI q k c)) with 0 in E; [lra|].
    symmetry. apply ProofBezier.sumf_zero. intros k Hk. destruct (Req_dec (b k) 0) as [B|B]; [rewrite B; ring|].
    specialize (D3 k Hk B). destruct (RW k Hk) as (ak & ck & _ & Hck & W0 & Wd). destruct (Nat.eq_dec c ck) as [->|N]; [|rewrite Wd by auto; ring].
    rewrite (DC _ _ ck Hck Wd) in D3. apply Rmult_integral in D3. destruct D3 as [P|P]; [rewrite P; ring|contradiction]. }
  assert (Zd : forall d, (d < 3)%nat -> d <> c0 -> z d = 0).
  { intros d Hd N. destruct (Z d Hd) as [E|E]; [exact E|]. rewrite (Vd d Hd N) in E. apply Rmult_integral in E. destruct E; [lra|assumption]. }
  destruct (Req_dec (z c0) 0) as [Zc|Zc].
  { left. intros i Hi. destruct (Nat.eq_dec i c0) as [->|N]; auto. }
  right. assert (E1 : z c0 = a0 * / h) by (destruct (Z c0 Hc0) as [E|E]; [contradiction|]; rewrite V0 in E; rewrite <- E; field; lra).
  assert (Ha : 1 <= a0 * a0 <= 2000000) by (destruct Ha0 as [A|A]; [exfalso; apply Zc; rewrite E1, A; ring|exact A]).
  assert (HI : 1 <= / h <= 2). { split; [rewrite <- Rinv_1 at 1; apply Rinv_le_contravar; lra|]. replace 2 with (/ (1 / 2)) by field. apply Rinv_le_contravar; lra. }
  change (e_n q) with 3%nat. rewrite (DC z z c0 Hc0 Zd), (DC _ z c0 Hc0 Vd), E1, V0. set (k := / h) in *.
  assert (A1 : 1 <= a0 * (a0 * k)) by (replace (a0 * (a0 * k)) with (a0 * a0 * k) by ring; nra).
  assert (A2 : 1 <= a0 * k * (a0 * k)) by (replace (a0 * k * (a0 * k)) with (a0 * a0 * k * k) by ring; assert (1 <= a0 * a0 * k) by nra; nra).
  split; [lra|]. split; [lra|].
  intros v' w Hv' Hw. assert (Hv2 : exists i, (i < e_I q)%nat /\ v' = e_CI q i) by (destruct Hv' as [(i & Hi & _)|Hv']; [cbn in Hi; lia|exact Hv']).
  destruct Hv2 as (i1 & Hi1 & ->). destruct (RW i1 Hi1) as (a1 & c1 & Ha1 & Hc1 & W0 & Wd).
  rewrite (DC _ w c1 Hc1 Wd). pose proof (Hw c1 Hc1) as Ew. rewrite HH in Ew by exact Hc1. rewrite W0 in Ew |- *.
  assert (E2 : w c1 = a1 * k) by (rewrite <- Ew; unfold k; field; lra). rewrite E2. replace (a1 * (a1 * k)) with (a1 * a1 * k) by ring.
  assert (0 <= a1 * a1 <= 2000000) by (destruct Ha1 as [A|A]; [rewrite A; lra|lra]).
  assert (0 <= a1 * a1 * k <= 4000000) by (split; nra).
  assert (0 <= eps52 * eps52) by nra. assert (eps52 * eps52 * (a1 * a1 * k) <= / 100000000000 * 4000000) by (apply Rmult_le_compat; lra). lra.
Qed.

Lemma jk_rows pi M : computeConstantWaypoints jk_pb 1 = Ok pi -> computeEndEffectorConstraints jk_pb 1 pi = Ok M ->
  forall r, In r M -> axis_list (fst r).
Proof.
  intros Hc HM.
  assert (NG : forall s r, (s = 1 \/ s = -1) -> axis_list r -> axis_list (map (Rmult s) r)).
  { intros s r Hs (a & Ha & Hr). exists (s * a). split; [destruct Ha as [->|Ha]; [left; ring|right]; destruct Hs as [-> | ->]; lra|].
    destruct Hr as [-> |[-> | ->]]; [left|right; left|right; right]; cbn [map]; rewrite Rmult_0_r; reflexivity. }
  assert (LO : forall s b ws r, (s = 1 \/ s = -1) -> Forall (fun w => Forall axis_list (wpn_rows w)) ws -> In r (loop_rows s b ws) -> axis_list (fst r)).
  { intros s b ws r Hs HF Hr. apply loop_in in Hr. destruct Hr as (w & r0 & Hw & Hr0 & ->). apply NG; [exact Hs|].
    rewrite Forall_forall in HF. specialize (HF w Hw). rewrite Forall_forall in HF. apply HF. exact Hr0. }
  destruct (matrix_shape jk_pb 1 pi M jk_in Rlt_0_1 Hc HM) as (wa & wv & wj & Ha & Hv & Hj & _ & -> & _).
  destruct jk_shape as (pi' & Hs & Hc'). rewrite Hc in Hc'. injection Hc' as <-.
  inversion Hs as [? ? ? ? ? ? ? ? ? ? ? E Hcc Hp|? ? ? ? ? ? ? ? ? ? ? ? ? ? ? E Hcc Hp|? ? ? ? ? ? ? ? ? ? ? ? ? ? E Hcc Hp]; subst; unfold jk_xs in *.
  change (j0j1_computeAccelerationWaypoints jk_pb 1 [vzero; vzero; vzero; vzero; a4; V3 1 0 0; V3 1 0 0; V3 1 0 0; V3 1 0 0] = Ok wa) in Ha.
  change (j0j1_computeVelocityWaypoints jk_pb 1 [vzero; vzero; vzero; vzero; a4; V3 1 0 0; V3 1 0 0; V3 1 0 0; V3 1 0 0] = Ok wv) in Hv.
  change (j0j1_computeJerkWaypoints jk_pb 1 [vzero; vzero; vzero; vzero; a4; V3 1 0 0; V3 1 0 0; V3 1 0 0; V3 1 0 0] = Ok wj) in Hj.
  unfold j0j1_computeAccelerationWaypoints, j0j1_computeVelocityWaypoints, j0j1_computeJerkWaypoints in Ha, Hv, Hj. cbn [bind get nth_error] in Ha, Hv, Hj. cbv zeta in Ha, Hv, Hj.
  assert (E1 := f_equal (fun o => match o with Ok p => p | _ => [] end) Ha). assert (E2 := f_equal (fun o => match o with Ok p => p | _ => [] end) Hv). assert (E3 := f_equal (fun o => match o with Ok p => p | _ => [] end) Hj).
  cbn beta iota in E1, E2, E3. intros r Hr. unfold eff_matrix in Hr.
  assert (AX : forall x y z, (y = 0 /\ z = 0 /\ (x = 0 \/ 1 <= x * x <= 2000000)) \/ (x = 0 /\ z = 0 /\ (y = 0 \/ 1 <= y * y <= 2000000)) \/ (x = 0 /\ y = 0 /\ (z = 0 \/ 1 <= z * z <= 2000000)) -> axis_list [x; y; z]).
  { intros x y z [(-> & -> & A)|[(-> & -> & A)|(-> & -> & A)]]; eexists; (split; [exact A|]); tauto. }
  repeat (apply in_app_or in Hr; destruct Hr as [Hr|Hr]).
  1,2: revert Hr; apply LO; [lra|rewrite <- E1].
  3,4: revert Hr; apply LO; [lra|rewrite <- E2].
  5,6: revert Hr; apply LO; [lra|rewrite <- E3].
  1-6: repeat (apply Forall_cons; [unfold wpn_rows; cbn [wn_blocks map concat app l3 row0 row1 row2 mscal mid mzero mdivs vscal vzero vx vy vz]; repeat (apply Forall_cons; [apply AX; try lra|]); apply Forall_nil|]); try apply Forall_nil.
  change (In r [(repeat 0 3, 0); (repeat 0 3, 0); ([0; 0; -1], - Rmin (vz (c0 jk_pb)) (vz (c1 jk_pb)))]) in Hr.
  destruct Hr as [<-|[<-|[<-|[]]]]; apply AX; lra.
Qed.
Example ex_C67_optimal : forall mem glpk, exists pi M H g r, computeConstantWaypoints jk_pb 1 = Ok pi /\ computeEndEffectorConstraints jk_pb 1 pi = Ok M /\
  computeEndEffectorCost jk_pb jk_path 1 0 pi = Ok (H, g) /\ well_scaled (eqp_of (ineq_qp H g M)) /\ satX M (flat jk_xs) /\
  solveEndEffector false (solve_quadprog mem) glpk (repeat 0) jk_pb jk_path 1 0 = Ok r /\ (rc_success r = true \/ rc_success r = false /\ exists st, returns (eqp_of (ineq_qp H g M)) mem st_MAX_ITER st).
Proof.
  intros mem glpk. destruct (C67_optimal jk_pb jk_path (fun _ => vzero) 1 jk_in Rlt_0_1 (fun _ _ => eq_refl)) as (a & b & _ & _ & HO).
  destruct (HO false mem glpk (repeat 0) 0 (fun n => repeat_length 0 n) ltac:(lra) jk_scale) as (pi & M & H & g & r & Hc & HM & HE & Er & HP).
  destruct jk_sat as (pi' & M' & Hc' & HM' & HS). rewrite Hc in Hc'. injection Hc' as <-. rewrite HM in HM'. injection HM' as <-.
  assert (HW : well_scaled (eqp_of (ineq_qp H g M))).
  { destruct (ProofEnd11.eff_hessian jk_pb 1 jk_path (fun _ => vzero) pi 0 H g jk_in Rlt_0_1 (fun _ _ => eq_refl) ltac:(lra) Hc HE) as (_ & _ & _ & HB & HD).
    destruct (jk_cost pi H g Hc HE) as (h & Hh & -> & ->). apply diag_scaled; [|apply (jk_rows pi M Hc HM)].
    specialize (HB [1; 0; 0] eq_refl). specialize (HD 0%nat). cbn [nth] in HD. rewrite Rabs_pos_eq in HD by lra. split; [|exact HD].
    unfold eff_convexity, quad, rdot in HB. simpl Z.eqb in HB. cbn -[Rplus Rmult Rdiv Rminus Ropp IZR] in HB. lra. }
  exists pi, M, H, g, r. repeat (split; [assumption|]). destruct (HP HW jk_xs eq_refl HS) as [[S _]|(S & _ & st)]; [left; exact S|right; split; assumption].
Qed.
