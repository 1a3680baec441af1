(** Concrete inputs for the theorems of PropertiesGapEnd.v: standing still at (0,0,4/5), and the walking point of
    ExamplesEnd3.v. *)
From Verif Require Import Vec SpecBezier SpecTime ModelData ModelDispatch ModelUtils ModelCom ModelCont ModelSolver ModelTraj Model0Step ModelQp
  SpecCom SpecWp SpecCtr SpecCont SpecSolver SpecTraj SpecQp Spec0Step SpecEnd SpecEnd3 SpecDec SpecGap SpecGap0 SpecGapEnd Proof0Step3 ProofGapEnd PropertiesGapEnd PropertiesEnd3
  ExamplesCom ExamplesTraj ExamplesEnd ExamplesDec Examples0Step ExamplesEnd3.
Open Scope R_scope.

Lemma st_grav : within 10 (V3 0 0 (-981/100)).
Proof. unfold within; cbn [vx vy vz]. split; [|split]; apply Rabs_le; lra. Qed.
Lemma st_pts : Forall (within 1) (bc_pts st_cv).
Proof. unfold st_cv, st_x; cbn [bc_pts]. repeat (apply Forall_cons; [unfold within; cbn [vx vy vz]; split; [|split]; apply Rabs_le; lra|]). apply Forall_nil. Qed.

Example ex_C83_fixed : forall scaled wg mem glpk p, (1 <= p)%nat -> exists r,
  computeCOMTrajFixedSize scaled wg (solve_quadprog mem) glpk (st_pb DISTANCE_TRAVELED) [1; 1/2] p = Ok r /\ rc_success r = true /\
  let tau := plan_tol (rows_needed (contacts (st_pb DISTANCE_TRAVELED)) (fun _ => S p) 0 + acc_needed (st_pb DISTANCE_TRAVELED) (2 * p + 1)) 1 in
  forall i c d t, nth_error (contacts (st_pb DISTANCE_TRAVELED)) i = Some c -> nth_error [1; 1/2] i = Some d -> in_phase [1; 1/2] i t ->
    contact_between (st_pb DISTANCE_TRAVELED) tau (gap_pos 3 (total [1; 1/2]) 1 (d / INR p)) (tau * 171 + gap_wrench 10 3 (total [1; 1/2]) 1 (d / INR p)) c (cv_fun (rc_c r)) t.
Proof.
  intros scaled wg mem glpk p Hp. destruct (ex_C53_fixed scaled wg mem glpk p Hp) as (H1 & H2 & H3 & H4 & H5 & H6 & r & E & S & _ & Hcv).
  destruct (C83_fixed scaled wg mem glpk (st_pb DISTANCE_TRAVELED) [1; 1/2] p (V3 0 0 (-981/100)) 10 1 171 1 H1 Hp H2 st_grav H3 H4 H5 H6) as (r' & E' & H).
  rewrite E in E'. injection E' as <-. exists r. split; [exact E|]. split; [exact S|]. cbv zeta. intros i c d t Hc Hd Ht.
  rewrite Hcv in *. exact (proj1 (proj2 (H S) 1 ltac:(lra) st_pts i c d t Hc Hd Ht)).
Qed.
Example ex_C83_step : forall scaled wg mem glpk dt, 0 < dt -> exists r tau,
  computeCOMTraj scaled wg (solve_quadprog mem) glpk (st_pb DISTANCE_TRAVELED) [1; 1/2] dt SOLVER_QUADPROG = Ok r /\ rc_success r = true /\
  forall i c t, nth_error (contacts (st_pb DISTANCE_TRAVELED)) i = Some c -> in_phase [1; 1/2] i t ->
    contact_between (st_pb DISTANCE_TRAVELED) tau (gap_pos 3 (total [1; 1/2]) 1 dt) (tau * 171 + gap_wrench 10 3 (total [1; 1/2]) 1 dt) c (cv_fun (rc_c r)) t.
Proof.
  intros scaled wg mem glpk dt Hp. destruct (ex_C53_step scaled wg mem glpk dt Hp) as (ta & Et & H4 & H6 & r & E & S & _ & Hcv).
  destruct (C83_step scaled wg mem glpk (st_pb DISTANCE_TRAVELED) [1; 1/2] dt (V3 0 0 (-981/100)) 10 1 171 1 ta (st_wp _) Hp (st_same _) st_grav ltac:(cbn; tauto) Et H4 st_scale H6)
    as (ns & r' & _ & _ & E' & H).
  rewrite E in E'. injection E' as <-. cbv zeta in H. exists r. eexists. split; [exact E|]. split; [exact S|]. intros i c t Hc Ht.
  rewrite Hcv in *. exact (proj1 (proj2 (H S) 1 ltac:(lra) st_pts i c t Hc Ht)).
Qed.
Example ex_C83_decimal : forall scaled wg mem glpk p, (1 <= p)%nat -> exists r tau,
  computeCOMTrajFixedSize scaled wg (solve_quadprog mem) glpk (dc_pb DISTANCE_TRAVELED) [1; 1/2] p = Ok r /\ rc_success r = true /\
  forall i c d t, nth_error (contacts (dc_pb DISTANCE_TRAVELED)) i = Some c -> nth_error [1; 1/2] i = Some d -> in_phase [1; 1/2] i t ->
    contact_between (dc_pb DISTANCE_TRAVELED) tau (gap_pos (pred (length (bc_pts dc_cv))) (total [1; 1/2]) 1 (d / INR p))
      (tau * (171 + 2 * dec_slack 10 1 (total [1; 1/2])) + dec_slack 10 1 (total [1; 1/2]) + gap_wrench 10 (pred (length (bc_pts dc_cv))) (total [1; 1/2]) 1 (d / INR p))
      c (cv_fun (rc_c r)) t.
Proof.
  intros scaled wg mem glpk p Hp. destruct (ex_C53_fixed_decimal scaled wg mem glpk p Hp) as (H1 & H2 & H3 & H4 & H5 & H6 & H7 & H8 & H9 & r & E & S & _ & Hcv).
  destruct (C83_fixed_decimal scaled wg mem glpk (dc_pb DISTANCE_TRAVELED) [1; 1/2] dg 10 1 (dc_cvx vzero) 1 171 1 H1 H2 H3 H4 ltac:(lra) H5 H6 H8 p Hp H7 H9) as (r' & E' & H).
  rewrite E in E'. injection E' as <-. cbv zeta in H. exists r. eexists. split; [exact E|]. split; [exact S|]. intros i c d t Hc Hd Ht.
  rewrite Hcv in *. exact (proj1 (proj2 (H S) 1 ltac:(lra) (dc_within _ st_in) i c d t Hc Hd Ht)).
Qed.
Example ex_C83_step_decimal : forall scaled wg mem glpk dt, 0 < dt -> exists r tau,
  computeCOMTraj scaled wg (solve_quadprog mem) glpk (dc_pb DISTANCE_TRAVELED) [1; 1/2] dt SOLVER_QUADPROG = Ok r /\ rc_success r = true /\
  forall i c t, nth_error (contacts (dc_pb DISTANCE_TRAVELED)) i = Some c -> in_phase [1; 1/2] i t ->
    contact_between (dc_pb DISTANCE_TRAVELED) tau (gap_pos (pred (length (bc_pts dc_cv))) (total [1; 1/2]) 1 dt)
      (tau * (171 + 2 * dec_slack 10 1 (total [1; 1/2])) + dec_slack 10 1 (total [1; 1/2]) + gap_wrench 10 (pred (length (bc_pts dc_cv))) (total [1; 1/2]) 1 dt)
      c (cv_fun (rc_c r)) t.
Proof.
  intros scaled wg mem glpk dt Hp. destruct (ex_C53_step_decimal scaled wg mem glpk dt Hp) as (ta & Et & H7 & H9 & r & E & S & _ & Hcv).
  destruct (ex_C53_fixed_decimal scaled wg mem glpk 1 ltac:(lia)) as (H1 & H2 & H3 & H4 & H5 & H6 & _ & H8 & _).
  destruct (C83_step_decimal scaled wg mem glpk (dc_pb DISTANCE_TRAVELED) [1; 1/2] dg 10 1 (dc_cvx vzero) 1 171 1 H1 H2 H3 H4 ltac:(lra) H5 H6 H8 dt ta Hp Et H7 H9)
    as (ns & r' & _ & _ & E' & H).
  rewrite E in E'. injection E' as <-. cbv zeta in H. exists r. eexists. split; [exact E|]. split; [exact S|]. intros i c t Hc Ht.
  rewrite Hcv in *. exact (proj1 (proj2 (H S) 1 ltac:(lra) (dc_within _ st_in) i c t Hc Ht)).
Qed.
Example ex_C83_zero : forall mem glpk, exists r, solve0step false (solve_quadprog mem) glpk zb_pb [1] (1 / 4) = Ok r /\ r0_success r = true /\
  forall t acc, 0 <= t <= 1 -> is_deriv_n 2 (cv_fun (r0_c r)) t acc ->
    cone0_near (z_tol true 8 + (2 * gap_wrench 10 3 1 1 (1 / INR 4) + gap_momentum 1 1 (1 / INR 4))) up_ph
      (giwL 2 (V3 0 0 (-10)) (cv_fun (r0_c r) t) acc (dL_fun (r0_dL r) t)).
Proof.
  intros mem glpk.
  destruct (C65_best false mem glpk zb_pb [1] zb_ct up_ph 1 (1 / 4) z_pb_posed (or_intror (ex_intro _ 4%nat steps4)) (up_ok _ _ _ _ _ _ _ _ _) zb_geom) as (r & E & HP & HC).
  destruct (C83_zero false mem glpk zb_pb [1] zb_ct up_ph 1 (1 / 4) 1 1 z_pb_posed 4%nat steps4) as (r' & E' & HS); [lia|exact zb_scale|].
  rewrite E in E'. injection E' as <-. destruct (HS (proj1 HP)) as (x & xL & HP' & HN).
  exists r. split; [exact E|]. split; [apply HP|].
  assert (EX : x = vzero /\ xL = vscal (3 / 4) (V3 0 0 1)).
  { destruct HP as (_ & R1 & _). destruct HP' as (_ & R2 & _). rewrite R1 in R2. unfold z_vec, l3 in R2. cbn [useAngularMomentum zb_pb up_pb app l0 c0] in R2.
    injection R2 as E1 E2 E3 E4 E5 E6. destruct x as [x1 x2 x3]; destruct xL as [y1 y2 y3]. cbn in *. subst. split; reflexivity. }
  destruct EX as [-> ->].
  assert (W : forall B a b c, -B <= a <= B -> -B <= b <= B -> -B <= c <= B -> within B (V3 a b c)).
  { intros B a b c A1 A2 A3. unfold within; cbn [vx vy vz]. split; [|split]; apply Rabs_le; lra. }
  apply (HN 10 1 1); cbn [up_ph cp_gravity zb_pb up_pb c0 dc0 l0]; unfold vadd, vscal, vzero; cbn [vx vy vz]; [apply W; lra|apply W; lra|apply W; lra|apply W; lra|lra|].
  intros _. split; apply W; lra.
Qed.
