(** With three or five free points there is a plan only near the origin. *)
From Coq Require Import List Lia Lra.
From Verif Require Import Vec SpecBezier ModelData ModelUtils ModelWaypointsJerk ModelDispatch ModelCont ModelSolver ModelTraj ModelEff
  SpecCom SpecWp SpecSolver SpecTraj Spec0Step SpecEff SpecEffMove ProofCurve ProofEff ProofEff2 ProofEff3 ProofEff4 ProofEff5 ProofEff7.
Import ListNotations.
Open Scope R_scope.

Lemma big2 c T : 0 < T -> T <= 1000000 -> 1 <= c -> / 2 ^ 52 < Rabs (c * (1 / (T * T))).
Proof.
  intros H0 H1 Hc. assert (P : 0 < T * T <= 1000000 * 1000000) by nra.
  assert (Q : / (1000000 * 1000000) <= 1 / (T * T)) by (unfold Rdiv; rewrite Rmult_1_l; apply Rinv_le_contravar; lra).
  assert (Z : / 2 ^ 52 < / (1000000 * 1000000)) by (apply Rinv_lt_contravar; lra).
  assert (0 < / (1000000 * 1000000)) by (apply Rinv_0_lt_compat; lra).
  rewrite Rabs_pos_eq by nra. nra.
Qed.
Lemma big0 c T : 0 < T -> T <= 1000000 -> 1 <= c -> / 2 ^ 52 < Rabs (c * (1 / T)).
Proof. intros H0 H1 Hc. replace (c * (1 / T)) with (c / T) by (field; lra). apply big_coef; lra. Qed.
Lemma box_sum n T x b c : 0 < T -> 2 <= n -> 
  -10000 <= n * (1 / T) * x + 1 / T * n * - b <= 10000 ->
  -10000 <= n * (n - 1) * (1 / (T * T)) * x + 1 / (T * T) * (n * (n - 1)) * (c - b) <= 10000 ->
  - (10000 * (T / n + T * T / (n * (n - 1)))) <= c <= 10000 * (T / n + T * T / (n * (n - 1))).
Proof.
  intros HT Hn V A. assert (D : 0 < n * (n - 1)) by nra.
  assert (V' : - (10000 * (T / n)) <= x - b <= 10000 * (T / n)).
  { assert (P : 0 < T / n) by (apply Rdiv_lt_0_compat; lra). assert (E : x - b = T / n * (n * (1 / T) * x + 1 / T * n * - b)) by (field; lra). rewrite E. nra. }
  assert (A' : - (10000 * (T * T / (n * (n - 1)))) <= x - b + c <= 10000 * (T * T / (n * (n - 1)))).
  { assert (P : 0 < T * T / (n * (n - 1))) by (apply Rdiv_lt_0_compat; nra).
    assert (E : x - b + c = T * T / (n * (n - 1)) * (n * (n - 1) * (1 / (T * T)) * x + 1 / (T * T) * (n * (n - 1)) * (c - b))) by (field; nra). rewrite E. nra. }
  lra.
Qed.

Lemma near_origin p T xs pi M : flag_of p = F_x3 \/ flag_of p = F_x5 -> length xs = eff_free (flag_of p) -> 0 < T -> T <= 1000000 ->
  computeConstantWaypoints p T = Ok pi -> computeEndEffectorConstraints p T pi = Ok M -> satX M (flat xs) ->
  let n := eff_degree (flag_of p) in
  within (10000 * (T / n + T * T / (n * (n - 1)))) (nth 2 (end_positions n T (c0 p) (dc0 p) (ddc0 p) (j0 p)) vzero).
Proof.
  intros Hf Lx H0 H1 Ep EM HS n. assert (HT : T <> 0) by lra.
  assert (Hin : In (flag_of p) effector_flags) by (destruct Hf as [->| ->]; cbn; tauto).
  destruct (eff_shape_total p T xs Hin Lx) as (pi1 & pts & F1 & Hs). rewrite Ep in F1. injection F1 as <-.
  destruct (eff_constraints p T xs pi pts HT Hs) as (wa & wv & wj & N & Ea & Ev & Ej & Xb & XM & XC). rewrite EM in XM. injection XM as <-.
  destruct (c34_exact p wa wv eff_bounds eff_bounds wj eff_bounds Xb) as (N & XN & _ & _ & HX). rewrite XC in XN. injection XN as <-.
  apply HX in HS; [|rewrite Lx; symmetry; apply dim_nf; exact Hin]. destruct HS as (FA & FV & _ & _).
  pose proof (eff_pts p T xs pi pts HT Hs) as EP. fold n in EP. cbv zeta in EP.
  assert (E2 : nth 2 (end_positions n T (c0 p) (dc0 p) (ddc0 p) (j0 p)) vzero = nth 2 pts vzero) by (rewrite EP; reflexivity).
  rewrite E2. clear EP E2.
  assert (G : forall ws w, In w ws -> Forall (bounded (vopp eff_bounds) eff_bounds xs) ws -> dependsb w = true ->
    le3 (vopp eff_bounds) (ev_wpn w xs) /\ le3 (ev_wpn w xs) eff_bounds).
  { intros ws w Hi F D. rewrite Forall_forall in F. exact (F w Hi D). }
  unfold n. eff_cases Hs; try (exfalso; destruct Hf as [Z|Z]; rewrite E in Z; discriminate Z);
  unfold computeAccelerationWaypoints, computeVelocityWaypoints in Ea, Ev; rewrite E in Ea, Ev |- *; unfold eff_degree; simpl Z.eqb; cbv iota.
  - injection Ea as <-. injection Ev as <-. clear Ej XC Xb EM HX Ep.
    assert (GV := fun w Hi => G _ w Hi FV). specialize (GV _ (or_intror (or_intror (or_intror (or_introl eq_refl))))).
    assert (GA := fun w Hi => G _ w Hi FA). specialize (GA _ (or_intror (or_intror (or_introl eq_refl)))).
    match type of GV with dependsb ?w = true -> _ => specialize (GV (dep_block (10 * (1 / T)) w (or_introl eq_refl) (big0 10 T H0 H1 ltac:(lra)))) end.
    match type of GA with dependsb ?w = true -> _ => specialize (GA (dep_block (90 * (1 / (T * T))) w (or_introl eq_refl) (big2 90 T H0 H1 ltac:(lra)))) end.
    cbn [nth]. unfold le3, eff_bounds in GV, GA. revert GV GA. vcbn. intros GV GA.
    split; [|split]; apply Rabs_le.
    + apply (box_sum 10 T (vx x0) (vx a3) (vx a2)); [exact H0|lra|lra|replace (10 * (10 - 1)) with 90 by ring; lra].
    + apply (box_sum 10 T (vy x0) (vy a3) (vy a2)); [exact H0|lra|lra|replace (10 * (10 - 1)) with 90 by ring; lra].
    + apply (box_sum 10 T (vz x0) (vz a3) (vz a2)); [exact H0|lra|lra|replace (10 * (10 - 1)) with 90 by ring; lra].
  - injection Ea as <-. injection Ev as <-. clear Ej XC Xb EM HX Ep.
    assert (GV := fun w Hi => G _ w Hi FV). specialize (GV _ (or_intror (or_intror (or_intror (or_introl eq_refl))))).
    assert (GA := fun w Hi => G _ w Hi FA). specialize (GA _ (or_intror (or_intror (or_introl eq_refl)))).
    match type of GV with dependsb ?w = true -> _ => specialize (GV (dep_block (12 * (1 / T)) w (or_introl eq_refl) (big0 12 T H0 H1 ltac:(lra)))) end.
    match type of GA with dependsb ?w = true -> _ => specialize (GA (dep_block (132 * (1 / (T * T))) w (or_introl eq_refl) (big2 132 T H0 H1 ltac:(lra)))) end.
    cbn [nth]. unfold le3, eff_bounds in GV, GA. revert GV GA. vcbn. intros GV GA.
    split; [|split]; apply Rabs_le.
    + apply (box_sum 12 T (vx x0) (vx a3) (vx a2)); [exact H0|lra|lra|replace (12 * (12 - 1)) with 132 by ring; lra].
    + apply (box_sum 12 T (vy x0) (vy a3) (vy a2)); [exact H0|lra|lra|replace (12 * (12 - 1)) with 132 by ring; lra].
    + apply (box_sum 12 T (vz x0) (vz a3) (vz a2)); [exact H0|lra|lra|replace (12 * (12 - 1)) with 132 by ring; lra].
Qed.

Lemma c109_more : forall wg quadprog glpk init p path T wd r, qp_sound quadprog -> (forall k, length (init k) = k) ->
  flag_of p = F_x3 \/ flag_of p = F_x5 -> 0 < T -> T <= 1000000 ->
  solveEndEffector wg quadprog glpk init p path T wd = Ok r -> rc_success r = true ->
  let n := eff_degree (flag_of p) in
  within (10000 * (T / n + T * T / (n * (n - 1)))) (vadd (vadd (c0 p) (vscal (2 * T / n) (dc0 p))) (vscal (T * T / (n * (n - 1))) (ddc0 p))).
Proof.
  intros wg quadprog glpk init p path T wd r QS HI Hf H0 H1 E S n.
  assert (Hin : In (flag_of p) effector_flags) by (destruct Hf as [->| ->]; cbn; tauto).
  destruct (c29_plan wg quadprog glpk init p path T wd r QS HI Hin H0 E S) as (ys & pi & M & Ly & _ & _ & _ & _ & F1 & F2 & Sy).
  exact (near_origin p T ys pi M Hf Ly H0 H1 F1 F2 Sy).
Qed.
