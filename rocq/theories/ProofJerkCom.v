(** computeCOMTraj with the flag of the end-effector header: the curve it builds
    has the points of a curve of degree 6 taken from a list made for degree 8. *)
From Verif Require Import Vec SpecBezier SpecTime ModelData ModelWaypoints ModelWaypointsJerk ModelDispatch ModelUtils ModelCom ModelCont ModelSolver ModelTraj
  SpecCom ProofBezier ProofCurve ProofWaypoints ProofWaypoints2 ProofWaypoints3 ProofWaypointsDec ProofWaypointsErr ProofTraj2 ProofCom3 ProofTime.
Open Scope R_scope.

Lemma jerk_com_pts pData T x cv : flag_of pData = F_jerk -> com_curve pData T x = Ok cv ->
  0 < T /\ exists p0 p1 p2 p3 p5 p6 p7 p8,
    j0j1_computeConstantWaypoints pData T = Ok [p0; p1; p2; p3; vzero; p5; p6; p7; p8] /\
    cv = BCurve [p0; p1; p2; x; vzero; p5; p6] T.
Proof.
  intros E H. unfold com_curve, computeConstantWaypoints in H. rewrite E in H.
  cbn -[j0j1_computeConstantWaypoints computeBezierCurve] in H.
  unfold j0j1_computeConstantWaypoints in *. cbv zeta in *. cbn [bind] in H.
  unfold computeBezierCurve in H.
  replace (fl_has 255 INIT_POS) with true in H by reflexivity. replace (fl_has 255 INIT_VEL) with true in H by reflexivity.
  replace (fl_has 255 INIT_ACC) with true in H by reflexivity. replace (fl_has 255 END_VEL) with true in H by reflexivity.
  replace (fl_has 255 END_POS) with true in H by reflexivity. replace (fl_has 255 END_ACC) with true in H by reflexivity.
  cbn [bind push_pi push_if push_x get nth_error fst snd app andb negb mk_bezier] in H.
  destruct (Rle_dec T 0) as [L|L]; [discriminate H|]. split; [lra|].
  injection H as <-. do 8 eexists. split; reflexivity.
Qed.

Lemma jerk_rows pData T x p0 p1 p2 p3 p4 p5 p6 p7 p8 g : T <> 0 -> flag_of pData = F_jerk ->
  j0j1_computeConstantWaypoints pData T = Ok [p0;p1;p2;p3;p4;p5;p6;p7;p8] -> front_gravity pData = Ok g ->
  exists ws, computeWwaypoints pData T = Ok ws /\
    map (fun w => ev_w6 w x) ws = map (row_val T g [p0;p1;p2;x;p4;p5;p6]) tab_d6_dec.
Proof.
  intros HT E Hc Hg. unfold computeWwaypoints. rewrite E.
  cbn -[j0j1_computeWwaypoints]. unfold j0j1_computeWwaypoints.
  rewrite Hc, Hg. cbn [bind get nth_error map].
  eexists; split; [reflexivity|]. unfold tab_d6_dec. cbn [map].
  repeat (apply f_equal2; [row_goal HT|]); reflexivity.
Qed.

Lemma c111_wrench pData T x cv g M G :
  flag_of pData = F_jerk -> com_curve pData T x = Ok cv -> front_gravity pData = Ok g ->
  Forall (within M) (bc_pts cv) -> within G g ->
  exists ws, computeWwaypoints pData T = Ok ws /\
    forall t acc, 0 <= t <= T -> is_deriv_n 2 (cv_fun cv) t acc ->
      let d := v6sub (curve6 (map (fun w => ev_w6 w x) ws) T t) (wrench g (cv_fun cv t) acc) in
      within (err_force M T) (fst d) /\ within (err_moment G M T) (snd d).
Proof.
  intros E H Hg HP HG.
  destruct (jerk_com_pts _ _ _ _ E H) as (HT & p0 & p1 & p2 & p3 & p5 & p6 & p7 & p8 & Hc & ->). cbn [bc_pts] in HP.
  assert (HT0 : T <> 0) by lra. assert (HG0 : 0 <= G) by exact (within_nonneg _ _ HG).
  assert (HM0 : 0 <= M) by (inversion HP as [|? ? Hp Hl]; subst; exact (within_nonneg _ _ Hp)).
  destruct (jerk_rows pData T x p0 p1 p2 p3 vzero p5 p6 p7 p8 g HT0 E Hc Hg) as (ws & Hw & Hm).
  exists ws. split; [exact Hw|]. intros t acc Ht Hacc. cbv zeta. unfold cv_fun in *. cbn [bc_pts bc_T] in *.
  rewrite (curve_deriv_n_eq _ _ _ _ _ Hacc), <- (d6_exact T x p0 p1 p2 vzero p5 p6 g t HT0), Hm.
  apply (rows_diff T g _ M G tab_d6_dec tab_d6_ex t); try assumption; [discriminate|exact d6_close].
Qed.


Ltac jerk_hodo := unfold hodo_n, hodo; cbn [length pred vdiffs map hd last]; cbn [INR]; vec_field.

Lemma jerk_com_ends pData T x cv : flag_of pData = F_jerk -> com_curve pData T x = Ok cv ->
  (cv_fun cv 0 = c0 pData /\ is_deriv_n 1 (cv_fun cv) 0 (vscal (3 / 4) (dc0 pData)) /\ is_deriv_n 2 (cv_fun cv) 0 (vscal (15 / 28) (ddc0 pData))) /\
  cv_fun cv T = vadd (vsub (c1 pData) (vscal (T / 4) (dc1 pData))) (vscal (T ^ 2 / 56) (ddc1 pData)) /\
  is_deriv_n 1 (cv_fun cv) T (vadd (vsub (vscal (3 / 4) (dc1 pData)) (vscal (3 * T / 14) (ddc1 pData))) (vscal (T ^ 2 / 56) (j1 pData))) /\
  is_deriv_n 2 (cv_fun cv) T (vadd (vadd (vscal (- (30 / T ^ 2)) (c1 pData)) (vscal (15 / T) (dc1 pData)))
    (vadd (vscal (- (75 / 28)) (ddc1 pData)) (vscal (5 * T / 28) (j1 pData)))).
Proof.
  intros E H. destruct (jerk_com_pts _ _ _ _ E H) as (HT & p0 & p1 & p2 & p3 & p5 & p6 & p7 & p8 & Hc & ->).
  unfold j0j1_computeConstantWaypoints in Hc. cbv zeta in Hc. injection Hc as <- <- <- _ <- <- _ _.
  assert (HT0 : T <> 0) by lra. unfold cv_fun. cbn [bc_pts bc_T]. split.
  - split; [rewrite curve_at_0; reflexivity|]. split; apply is_deriv_n_at_0; jerk_hodo.
  - split; [rewrite curve_at_T by assumption; cbn [last]; vec_field|]. split; (apply is_deriv_n_at_T; [assumption|]); jerk_hodo.
Qed.

Lemma c111_ends scaled wg quadprog glpk pData Ts r : flag_of pData = F_jerk ->
  (exists dt solver, computeCOMTraj scaled wg quadprog glpk pData Ts dt solver = Ok r) \/
  (exists p, computeCOMTrajFixedSize scaled wg quadprog glpk pData Ts p = Ok r) -> rc_success r = true ->
  let T := total Ts in let f := cv_fun (rc_c r) in
  (f 0 = c0 pData /\ is_deriv_n 1 f 0 (vscal (3 / 4) (dc0 pData)) /\ is_deriv_n 2 f 0 (vscal (15 / 28) (ddc0 pData))) /\
  f T = vadd (vsub (c1 pData) (vscal (T / 4) (dc1 pData))) (vscal (T ^ 2 / 56) (ddc1 pData)) /\
  is_deriv_n 1 f T (vadd (vsub (vscal (3 / 4) (dc1 pData)) (vscal (3 * T / 14) (ddc1 pData))) (vscal (T ^ 2 / 56) (j1 pData))) /\
  is_deriv_n 2 f T (vadd (vadd (vscal (- (30 / T ^ 2)) (c1 pData)) (vscal (15 / T) (dc1 pData)))
    (vadd (vscal (- (75 / 28)) (ddc1 pData)) (vscal (5 * T / 28) (j1 pData)))).
Proof.
  intros E H S. cbv zeta.
  assert (G : exists x, com_curve pData (total Ts) x = Ok (rc_c r)).
  { assert (K : exists res, genTraj scaled res pData (total Ts) = Ok r).
    { destruct H as [(dt & solver & H)|(p & H)]; unfold computeCOMTraj, computeCOMTrajFixedSize in H;
        (destruct (negb _); [discriminate H|]); rewrite total_sumR in H.
      - destruct (if Rlt_dec 0 dt then _ else _) as [[[[[[ta A] b] D] d] mb]| |] in H; cbn [bind] in H; try discriminate H.
        destruct (genCostFunction _ _ _ _ _) as [Hg| |] in H; cbn [bind] in H; try discriminate H.
        destruct (solve _ _ _ _ _ _ _ _ _ _ _ _ _) as [res| |] in H; cbn [bind] in H; try discriminate H. exists res; exact H.
      - destruct (computeConstraintsOneStep _ _ _ _) as [Ab| |] in H; cbn [bind] in H; try discriminate H.
        destruct (genCostFunction _ _ _ _ _) as [Hg| |] in H; cbn [bind] in H; try discriminate H.
        destruct (solve_noeq _ _ _ _ _ _ _ _ _) as [res| |] in H; cbn [bind] in H; try discriminate H. exists res; exact H. }
    destruct K as (res & K). destruct (genTraj_inv _ _ _ _ _ K) as [(_ & ->)|(_ & _ & _ & x & beta & _ & _ & Hx)]; [discriminate S|].
    exists x; exact Hx. }
  destruct G as (x & Hx). exact (jerk_com_ends _ _ _ _ E Hx).
Qed.
