(** A call of computeCOMTrajFixedSize with that flag that reports success. *)
From Verif Require Import Vec SpecBezier SpecTime ModelData ModelWaypointsJerk ModelDispatch ModelUtils ModelRows ModelCom ModelCont ModelSolver ModelTraj
  SpecCom SpecWp SpecCtr SpecCont SpecSolver SpecTraj ProofCurve ProofTime ProofTraj2 ProofJerkCom ExamplesTraj.
Open Scope R_scope.

(** One phase, to be kept at x <= 1, from rest at the origin to (1,0,0) with final velocity (-1,0,0). *)
Definition jc_pb : problem :=
  Problem [Contact (Some (CPhase [] 50 (V3 0 0 (-981/100)) [])) [V3 1 0 0] [1] [] []] vzero vzero vzero vzero (V3 1 0 0) (V3 (-1) 0 0) vzero vzero vzero false
    (Constraints F_jerk false 0 0) DISTANCE_TRAVELED DOUBLE_DESCRIPTION.

Lemma combine_total n u : 0 <= u <= 1 -> forall wps j acc, exists w, combine_w n j u wps acc = Ok w.
Proof.
  intros Hu. induction wps as [|w wps IH]; intros j acc; [eexists; reflexivity|]. cbn [combine_w].
  unfold bern_eval. destruct (Rle_dec 0 u); [|lra]. destruct (Rle_dec u 1); [|lra]. cbn [bind]. apply IH.
Qed.
Lemma jc_ws : exists ws, computeWwaypoints jc_pb 1 = Ok ws.
Proof. unfold computeWwaypoints. cbn -[j0j1_computeWwaypoints]. unfold j0j1_computeWwaypoints, j0j1_computeConstantWaypoints. cbv zeta. cbn [bind get nth_error map front_gravity]. eexists; reflexivity. Qed.
Lemma jc_dw : exists w w', computeDiscretizedWwaypoints jc_pb 1 [(0, 0%Z); (1, 0%Z)] = Ok [w; w'].
Proof.
  destruct jc_ws as (ws & E). unfold computeDiscretizedWwaypoints. rewrite E. cbn [bind mapM fst].
  destruct (combine_total (length ws - 1) (Rmin (0 / 1) 1) ltac:(unfold Rmin; destruct (Rle_dec _ _); lra) ws 0 w6_zero) as (w & ->).
  destruct (combine_total (length ws - 1) (Rmin (1 / 1) 1) ltac:(unfold Rmin; destruct (Rle_dec _ _); lra) ws 0 w6_zero) as (w' & ->).
  exists w, w'. reflexivity.
Qed.
Lemma jc_dc : exists w w', computeDiscretizedWaypoints jc_pb 1 [(0, 0%Z); (1, 0%Z)] = Ok [w; w'] /\
  fst w = 0 /\ vx (snd w) = 1 /\ fst w' = 0 /\ vx (snd w') = 1.
Proof.
  unfold computeDiscretizedWaypoints, computeConstantWaypoints. cbn -[j0j1_computeConstantWaypoints evaluateCurveAtTime].
  unfold j0j1_computeConstantWaypoints. cbv zeta. cbn [bind mapM fst].
  replace (Rmin (0 / 1) 1) with 0 by (unfold Rmin; destruct (Rle_dec _ _); lra). replace (Rmin (1 / 1) 1) with 1 by (unfold Rmin; destruct (Rle_dec _ _); lra).
  unfold evaluateCurveAtTime. cbn -[j0j1_evaluateCurveAtTime vadd vsub vscal vdivs vzero vopp]. unfold j0j1_evaluateCurveAtTime. cbv zeta.
  cbn [bind get nth_error]. do 2 eexists. split; [reflexivity|]. cbn [fst snd].
  unfold vzero, jc_pb. cbn [vx vadd vsub vscal vdivs vopp c0 c1 dc0 dc1 ddc0 ddc1 j0 j1]. repeat split; field.
Qed.
Lemma jc_time : computeDiscretizedTimeFixed [1] 1 = [(0, 0%Z); (1, 0%Z)].
Proof. unfold computeDiscretizedTimeFixed. cbn. repeat f_equal; ring. Qed.
Lemma jc_rows : exists v v', computeConstraintsOneStep jc_pb [1] 1 [(0, 0%Z); (1, 0%Z)] = Ok [(vscal 0 v, 0); (vscal 0 v', 0)].
Proof.
  destruct jc_dw as (w & w' & E). destruct jc_dc as ([a u] & [a' u'] & E' & A & U & A' & U'). cbn in A, U, A', U'. subst a a'.
  exists (V3 1 0 0), (V3 1 0 0).
  unfold computeConstraintsOneStep, constraintsOneStep_raw, assignStabilityConstraints, assignKinematicConstraints. rewrite E, E'.
  cbn -[vscal vdot]. unfold kin_row. cbn [fst snd].
  replace (1 - vdot (V3 1 0 0) u) with 0 by (unfold vdot; cbn; rewrite U; ring). replace (1 - vdot (V3 1 0 0) u') with 0 by (unfold vdot; cbn; rewrite U'; ring).
  reflexivity.
Qed.
Lemma jc_cv : exists cv, com_curve jc_pb 1 vzero = Ok cv /\ bc_T cv = 1 /\ Forall (within 2) (bc_pts cv).
Proof.
  unfold com_curve, computeConstantWaypoints. cbn -[j0j1_computeConstantWaypoints computeBezierCurve]. unfold j0j1_computeConstantWaypoints. cbv zeta. cbn [bind].
  unfold computeBezierCurve.
  cbn -[Rle_dec IZR Rplus Rmult Rminus Rdiv]. destruct (Rle_dec 1 0) as [L|L]; [lra|]. eexists; split; [reflexivity|]. split; [reflexivity|].
  cbn [bc_pts]. repeat (apply Forall_cons; [unfold within; cbn [vx vy vz vzero vadd vsub vscal vdivs vopp]; repeat split; apply Rabs_le; replace (8 * (8 - 1)) with 56 by ring; lra|]). apply Forall_nil.
Qed.
Lemma jc_plan scaled wg glpk : exists r, computeCOMTrajFixedSize scaled wg (guess [0; 0; 0]) glpk jc_pb [1] 1 = Ok r /\ rc_success r = true.
Proof.
  unfold computeCOMTrajFixedSize. cbn [length contacts jc_pb Nat.eqb negb]. fold jc_pb. rewrite total_sumR, jc_time.
  replace (total [1]) with 1 by (cbn; ring). destruct jc_rows as (v & v' & ->). cbn [bind].
  assert (EH : exists Hg, genCostFunction jc_pb [1] 1 [(0, 0%Z); (1, 0%Z)] 3 = Ok Hg) by (eexists; reflexivity).
  destruct EH as (Hg & ->). cbn [bind map mat3cols]. unfold solve_noeq, solve. cbn [mx_cols mx_rows]. rewrite Z.eqb_refl.
  cbn -[guess genTraj vscal].
  rewrite guess_ok; [|reflexivity|split; repeat constructor; cbn; lra]. cbn [bind].
  destruct jc_cv as (cv & EC & ET & _). unfold com_curve in EC. change vzero with (V3 0 0 0) in EC.
  unfold genTraj. cbn [rd_success rd_x rd_cost head3 bind Z.eqb EIQUADPROG_FAST_OPTIMAL].
  destruct (computeConstantWaypoints jc_pb 1) as [pis| |]; cbn [bind] in EC |- *; try discriminate EC. rewrite EC. cbn [bind].
  destruct (bc_derivate_ok scaled cv (bc_T cv) 1) as (d & Ed & _); [lra..|]. rewrite Ed. cbn [bind].
  destruct (bc_derivate_ok scaled cv (bc_T cv) 2) as (a & Ea & _); [lra..|]. rewrite Ea. cbn [bind].
  unfold mk_bezier. destruct (Rle_dec 1 0) as [L|L]; [lra|]. eexists; split; reflexivity.
Qed.
Lemma c111_refuted : exists pData Ts c quadprog, qp_sound quadprog /\ flag_of pData = F_jerk /\ contacts pData = [c] /\ Ts = [1] /\ sampled_fixed Ts 1 0 (total Ts) /\
  forall scaled wg glpk, exists r, computeCOMTrajFixedSize scaled wg quadprog glpk pData Ts 1 = Ok r /\ rc_success r = true /\
    ~ meets_boundary pData (total Ts) (cv_fun (rc_c r)) /\ ~ kin_ok c (cv_fun (rc_c r) (total Ts)).
Proof.
  exists jc_pb, [1]. eexists. exists (guess [0; 0; 0]). split; [apply guess_sound|]. split; [reflexivity|]. split; [reflexivity|]. split; [reflexivity|].
  split; [exists 1%nat, 1; split; [apply le_n|]; split; [reflexivity|]; unfold phase_start; cbn; field|].
  intros scaled wg glpk. destruct (jc_plan scaled wg glpk) as (r & E & S). exists r. split; [exact E|]. split; [exact S|].
  destruct (c111_ends scaled wg (guess [0; 0; 0]) glpk jc_pb [1] r eq_refl (or_intror (ex_intro _ 1%nat E)) S) as (_ & P & _ & _).
  assert (X : vx (cv_fun (rc_c r) (total [1])) = 5 / 4) by (rewrite P; cbn; field).
  split.
  - intros (_ & _ & _ & B & _). specialize (B eq_refl). rewrite B in X. cbn in X. lra.
  - intros K. specialize (K 0%nat (V3 1 0 0) 1 eq_refl eq_refl). unfold vdot in K. cbn [vx vy vz] in K. rewrite X in K. lra.
Qed.
