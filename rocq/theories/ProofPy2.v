(** Proofs for computeEndEffector and computeEndEffectorDistanceCost of the python module. *)
From Coq Require Import List Lia Lra Psatz.
From Verif Require Import Vec SpecBezier ModelData ModelWaypoints ModelWaypointsJerk ModelDispatch ModelUtils ModelNd ModelCont ModelSolver ModelTraj Model0Step ModelEff ModelHeap ModelQp ModelPy
  SpecCom SpecWp SpecCtr SpecTraj Spec0Step SpecEff SpecEnd3 SpecEnd4 SpecPy ProofQp3 ProofEff6 ProofEff7 ProofEnd12 SpecQp.
Import ListNotations.
Open Scope R_scope.

Lemma eps_small : 4500000000000000 * eps52 < 1.
Proof.
  unfold eps52. assert (P : 0 < 2 ^ 52) by (apply pow_lt; lra). apply Rmult_lt_reg_r with (2 ^ 52); [exact P|].
  replace (4500000000000000 * / 2 ^ 52 * 2 ^ 52) with 4500000000000000 by (field; lra). lra.
Qed.
Lemma over_cube s T lo : 0 < lo -> lo <= T -> 0 < s -> 0 <= s / (T * T * T) <= s / (lo * lo * lo).
Proof.
  intros H0 HT Hs. assert (0 < lo * lo * lo) by (repeat apply Rmult_lt_0_compat; lra).
  assert (lo * lo * lo <= T * T * T) by (apply Rmult_le_compat; [nra|lra|nra|lra]).
  assert (0 < / (T * T * T)) by (apply Rinv_0_lt_compat; lra). unfold Rdiv. split; [nra|].
  apply Rmult_le_compat_l; [lra|]. apply Rinv_le_contravar; lra.
Qed.
Lemma scale_ok flag T : In flag effector_flags -> shortest flag <= T -> eff_on_scale flag T 0.
Proof.
  intros HF HT. pose proof eps_small as E. pose proof eps_pos as E0. unfold eff_on_scale, shortest, eff_convexity, eff_slope in *.
  assert (L : forall j b lam, 0 <= j <= b -> b * b <= 4500000000000000 * (lam * lam) -> 0 < lam * lam -> eps52 * (j * j) < lam * lam).
  { intros j b lam Hj Hb Hl. assert (j * j <= b * b) by (apply Rmult_le_compat; lra). nra. }
  destruct HF as [<-|[<-|[<-|[]]]]; cbn [Z.eqb] in *.
  - change (Z.eqb F_jerk F_jerk) with true in *. cbv iota in *. destruct (over_cube 1008 T (1 / 20)) as [A B]; try lra. split; cbv zeta.
    + apply (L _ 1008); lra.
    + apply (L _ (1008 / (1 / 20 * (1 / 20) * (1 / 20)))); [lra| |lra]. lra.
  - change (Z.eqb F_x3 F_jerk) with false in *. change (Z.eqb F_x3 F_x3) with true in *. cbv iota in *. destruct (over_cube 3200 T (1 / 5)) as [A B]; try lra. split; cbv zeta.
    + apply (L _ 3200); lra.
    + apply (L _ (3200 / (1 / 5 * (1 / 5) * (1 / 5)))); [lra| |lra]. lra.
  - change (Z.eqb F_x5 F_jerk) with false in *. change (Z.eqb F_x5 F_x3) with false in *. cbv iota in *. destruct (over_cube 6000 T (4 / 5)) as [A B]; try lra. split; cbv zeta.
    + apply (L _ 6000); lra.
    + apply (L _ (6000 / (4 / 5 * (4 / 5) * (4 / 5)))); [lra| |lra]. lra.
Qed.
Lemma shortest_pos flag : 0 < shortest flag.
Proof. unfold shortest. destruct (Z.eqb _ _); [lra|]. destruct (Z.eqb _ _); lra. Qed.

Lemma c71_plan with_glpk mem glpk init pData T : (forall n, length (init n) = n) -> In (flag_of pData) effector_flags ->
  shortest (flag_of pData) <= T <= 1000000 ->
  let tau := eff_tol (flag_of pData) 0 in
  exists r, py_computeEndEffector with_glpk (solve_quadprog mem) glpk init pData T = Ok r /\
    (rc_success r = true -> exists xs, length xs = eff_free (flag_of pData) /\ py_x (rc_x r) = Ok (flat xs) /\ eff_curve pData T xs = Ok (rc_c r) /\
      bc_T (rc_c r) = T /\ meets_all pData T (cv_fun (rc_c r)) /\
      (boundary_within 10000 pData T -> forall t, 0 <= t <= T ->
         exists v j, is_deriv_n 1 (cv_fun (rc_c r)) t v /\ within (10000 + tau) v /\ is_deriv_n 3 (cv_fun (rc_c r)) t j /\ within (10000 + tau) j) /\
      (boundary_above (Rmin (vz (c0 pData)) (vz (c1 pData))) pData T -> forall t, 0 <= t <= T ->
         Rmin (vz (c0 pData)) (vz (c1 pData)) - tau <= vz (cv_fun (rc_c r) t))).
Proof.
  intros HI HF [H1 H2] tau. pose proof (shortest_pos (flag_of pData)).
  destruct (c66_plan with_glpk mem glpk init pData (fun _ => Ok vzero) (fun _ => vzero) T 0 HI HF) as (r & E & H3); try lra; [reflexivity|exact (scale_ok _ _ HF H1)|].
  exists r. split; [exact E|]. intros Hs. destruct (H3 Hs) as (xs & L & X & G). exists xs. split; [exact L|]. split; [|exact G].
  rewrite X. destruct xs as [|x xs]; [|reflexivity]. exfalso. revert L. destruct HF as [<-|[<-|[<-|[]]]]; discriminate.
Qed.
Lemma c71_best with_glpk mem glpk init pData T : (forall n, length (init n) = n) -> In (flag_of pData) effector_flags -> 0 < T ->
  exists pi M H g, computeConstantWaypoints pData T = Ok pi /\ computeEndEffectorConstraints pData T pi = Ok M /\
    computeEndEffectorCost pData (fun _ => Ok vzero) T 0 pi = Ok (H, g) /\
    forall ys, length ys = eff_free (flag_of pData) -> unconstrained_best H g (flat ys) -> satX M (flat ys) ->
    exists r, py_computeEndEffector with_glpk (solve_quadprog mem) glpk init pData T = Ok r /\ rc_success r = true /\
      rc_x r = flat ys /\ eff_curve pData T ys = Ok (rc_c r).
Proof.
  intros HI HF HT. apply (c67_best with_glpk mem glpk init pData (fun _ => Ok vzero) (fun _ => vzero) T 0 HI HF HT); [reflexivity|lra].
Qed.
Lemma c71_optimal pData T with_glpk mem glpk init : In (flag_of pData) effector_flags -> shortest (flag_of pData) <= T ->
  (forall n, length (init n) = n) ->
  exists pi M H g r, computeConstantWaypoints pData T = Ok pi /\ computeEndEffectorConstraints pData T pi = Ok M /\
    computeEndEffectorCost pData (fun _ => Ok vzero) T 0 pi = Ok (H, g) /\
    py_computeEndEffector with_glpk (solve_quadprog mem) glpk init pData T = Ok r /\
    let q := eqp_of (ineq_qp H g M) in
    (well_scaled q -> forall ys, length ys = eff_free (flag_of pData) -> satX M (flat ys) ->
     (rc_success r = true /\ exists xs, length xs = eff_free (flag_of pData) /\ rc_x r = flat xs /\ eff_curve pData T xs = Ok (rc_c r) /\
        forall zs cv B i j, length zs = eff_free (flag_of pData) -> satX M (flat zs) -> eff_curve pData T zs = Ok cv ->
          Forall (within B) (bc_pts (rc_c r)) -> Forall (within B) (bc_pts cv) ->
          speed_integral (rc_c r) T i -> speed_integral cv T j ->
          i <= j + 6 * velocity_eps (flag_of pData) * (B * B) / ((2 * eff_degree (flag_of pData) - 1) * T)) \/
     (rc_success r = false /\ (1000 <= subsets (length M) (3 * eff_free (flag_of pData)))%nat /\ exists st, returns q mem st_MAX_ITER st)).
Proof.
  intros HF H1 HI. pose proof (shortest_pos (flag_of pData)) as HP.
  destruct (c67_optimal pData (fun _ => Ok vzero) (fun _ => vzero) T HF) as (a & b & Ha & Hb & G); [lra|reflexivity|].
  destruct (G with_glpk mem glpk init 0 HI) as (pi & M & H & g & r & E1 & E2 & E3 & E4 & E5); [lra|exact (scale_ok _ _ HF H1)|].
  exists pi, M, H, g, r. split; [exact E1|]. split; [exact E2|]. split; [exact E3|]. split; [exact E4|]. intros q HW ys L S.
  destruct (E5 HW ys L S) as [(S1 & xs & L1 & X & C & O)|F]; [left|right; exact F]. split; [exact S1|]. exists xs. split; [exact L1|]. split; [exact X|]. split; [exact C|].
  intros zs cv B i j Lz Sz Cz B1 B2 I1 I2. specialize (O zs cv B i j Lz Sz Cz B1 B2 I1 I2).
  apply (Rmult_le_reg_l a); [exact Ha|]. rewrite Rminus_0_r in O. unfold Rdiv in *.
  rewrite Rmult_plus_distr_l. ring_simplify in O. ring_simplify. exact O.
Qed.

(** ** The distance cost *)
Lemma dist_short pData T pi step pts nf : In (flag_of pData) effector_flags -> 0 < T -> computeConstantWaypoints pData T = Ok pi ->
  nf = eff_free (flag_of pData) -> forall n i H g, (length pts < i + n)%nat -> (i <= length pts)%nat -> dist_loop pData pi step pts i n H g = UB.
Proof.
  intros HF HT HP Hn. induction n as [|n IH]; intros i H g Hl Hi; [lia|]. cbn [dist_loop].
  destruct (eval_at pData T (INR i * step) HF HT) as (pi' & w & Hp & Hw & Lw & _). rewrite HP in Hp. injection Hp as <-. rewrite Hw. cbn [bind].
  unfold get. destruct (nth_error pts i) as [pk|] eqn:Ek; [|reflexivity]. cbn [bind].
  destruct (negb _); [reflexivity|]. apply IH; [lia|]. assert (i < length pts)%nat by (apply nth_error_Some; congruence). lia.
Qed.
Lemma c71_distance pData T numPoints pts : In (flag_of pData) effector_flags -> 0 < T ->
  ((exists Hg, py_distanceCost pData T numPoints pts = Ok Hg) <-> (3 <= numPoints <= Z.of_nat (length pts))%Z) /\
  (~ (3 <= numPoints <= Z.of_nat (length pts))%Z -> py_distanceCost pData T numPoints pts = UB).
Proof.
  intros HF HT. unfold py_distanceCost. destruct (eval_at pData T 0 HF HT) as (pi & _ & HP & _). rewrite HP. cbn [bind].
  set (N := Z.to_nat numPoints).
  assert (U : ~ (3 <= numPoints <= Z.of_nat (length pts))%Z -> computeDistanceCostFunction N pData T pts = UB).
  { intros Hn. destruct (le_lt_dec N (length pts)) as [HL|HL]; [apply c35_short; try assumption; unfold N in *; lia|].
    unfold computeDistanceCostFunction. destruct (Nat.eqb N 1); [reflexivity|]. rewrite HP. cbn [bind].
    rewrite (dist_short pData T pi _ pts _ HF HT HP eq_refl); [reflexivity|lia|lia]. }
  split; [|exact U]. split.
  - intros [Hg E]. destruct (Z_le_dec 3 numPoints) as [A|A]; [destruct (Z_le_dec numPoints (Z.of_nat (length pts))) as [B|B]; [lia|]|];
      rewrite U in E by lia; discriminate.
  - intros [A B]. destruct (c35_distance N pData T pts HF HT ltac:(unfold N; lia)) as (H & g & _ & _ & E & _). exists (H, g). exact E.
Qed.

Lemma c69_default wg wg' quadprog glpk glpk' scaled pData Ts dt :
  py_computeCOMTraj wg quadprog glpk scaled pData Ts dt None = py_computeCOMTraj wg' quadprog glpk' scaled pData Ts dt (Some SOLVER_QUADPROG).
Proof. reflexivity. Qed.
