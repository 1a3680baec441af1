(** Concrete inputs for the theorems of PropertiesEnd3.v (the problems of
    Proof0Step3.v). *)
From Coq Require Import Lia Lra Psatz.
From Verif Require Import Vec SpecBezier ModelData ModelDispatch ModelUtils ModelRows ModelCom ModelCont ModelSolver ModelTraj Model0Step ModelQp
  SpecCom SpecWp SpecCtr SpecSolver SpecTraj Spec0Step SpecEnd SpecEnd3 ProofCurve Proof0Step Proof0Step2 Proof0Step3 ProofQp3 ProofEnd Properties0Step Examples0Step
  PropertiesEnd3 ExamplesEnd ExamplesEnd2 SpecQp.
Import ListNotations.
Open Scope R_scope.

Lemma eps_micro : 1000000000000000 * eps52 < 1.
Proof.
  unfold eps52. assert (P : 0 < 2 ^ 52) by (apply pow_lt; lra). apply Rmult_lt_reg_r with (2 ^ 52); [exact P|].
  replace (1000000000000000 * / 2 ^ 52 * 2 ^ 52) with 1000000000000000 by (field; lra). lra.
Qed.
Lemma up_scale useAng Kin kin Ang ang v l : (forall K, In K Kin -> vnorm K <= 1) -> vnorm2 v <= 9 ->
  z_on_scale (up_pb useAng (up_ct Kin kin Ang ang) v l) (up_ct Kin kin Ang ang) up_ph 1 1 1.
Proof.
  intros HK Hv. pose proof eps_micro. pose proof eps_pos. split; [apply vnorm_bound; [lra|unfold vnorm2, vdot; cbn; lra]|]. split.
  - apply vnorm_bound; [lra|]. unfold vnorm2, vdot in *; cbn. nra.
  - split; [exact HK|]. assert (G : vnorm (cp_gravity up_ph) <= 10) by (apply vnorm_bound; [lra|unfold vnorm2, vdot; cbn; lra]).
    pose proof (vnorm_ge (cp_gravity up_ph)) as G0.
    assert (B : 0 <= z_steepness (up_pb useAng (up_ct Kin kin Ang ang) v l) up_ph 1 1 <= 47).
    { unfold z_steepness. cbn [up_pb useAngularMomentum cp_mass up_ph]. fold up_ph. replace (6 * (1 + 1) / (1 * 1)) with 12 by field.
      change (V3 0 0 (-10)) with (cp_gravity up_ph) in *. cbn [cp_gravity] in *. destruct useAng; lra. }
    set (b := z_steepness _ _ _ _) in *. assert (b * b <= 47 * 47) by (apply Rmult_le_compat; lra).
    cbn [up_pb useAngularMomentum]. split; unfold z_weight; destruct useAng; nra.
Qed.

(** C64: with angular momentum; the plan of C65_best.  The kinematic constraint is not
    met with equality, the initial angular momentum is not zero. *)
Definition zb_ct : contact := up_ct [V3 1 0 0; V3 0 1 0] [1; 1] [V3 0 0 1] [2].
Definition zb_pb : problem := up_pb true zb_ct (V3 1 0 0) (V3 0 0 1).
Lemma zb_scale : z_on_scale zb_pb zb_ct up_ph 1 1 1.
Proof.
  apply up_scale; [|unfold vnorm2, vdot; cbn; lra]. intros K [<-|[<-|[]]]; apply vnorm_bound; unfold vnorm2, vdot; cbn; lra.
Qed.
Lemma zb_geom : z_geom true zb_ct vzero (vscal (3 / 4) (V3 0 0 1)).
Proof.
  intros j Hj. cbn in Hj. destruct j as [|[|[|j]]]; [| | |lia]; cbn -[Rplus Rmult Rdiv]; unfold vdot; cbn -[Rplus Rmult Rdiv]; lra.
Qed.
Example ex_C64_continuous : forall mem glpk, exists r, solve0step false (solve_quadprog mem) glpk zb_pb [1] 0 = Ok r /\ r0_success r = true /\
  r0_x r = [0; 0; 0; 0; 0; 3 / 4] /\
  (forall t acc, 0 <= t <= 1 -> is_deriv_n 2 (cv_fun (r0_c r)) t acc ->
    cone0_near (z_tol true 8) up_ph (giwL 2 (V3 0 0 (-10)) (cv_fun (r0_c r) t) acc (dL_fun (r0_dL r) t))) /\
  z_tol true 8 <= 1 / 100000000.
Proof.
  intros mem glpk. assert (N : z_no_steps 1 0) by (left; lra).
  destruct (C65_best false mem glpk zb_pb [1] zb_ct up_ph 1 0 z_pb_posed (or_introl N) (up_ok _ _ _ _ _ _ _ _ _) zb_geom) as (r & E & HP & HC).
  destruct (C64_continuous false mem glpk zb_pb [1] zb_ct up_ph 1 0 1 1 z_pb_posed N zb_scale) as (r' & E' & HS).
  rewrite E in E'. injection E' as <-. destruct (HS (proj1 HP)) as (x & xL & _ & _ & _ & _ & _ & _ & HN & _).
  exists r. split; [exact E|]. split; [apply HP|]. split; [|split; [exact HN|]].
  - destruct HP as (_ & Hx & _). rewrite Hx. unfold z_vec, l3, vscal. cbn. repeat (apply (f_equal2 (@cons R)); [lra|]). reflexivity.
  - unfold z_tol. pose proof eps_micro. cbn. lra.
Qed.
Example ex_C64_samples : forall mem glpk, exists r, solve0step false (solve_quadprog mem) glpk zb_pb [1] (1 / 4) = Ok r /\ r0_success r = true /\
  (forall i acc, (i <= 4)%nat -> let t := INR i * (1 / INR 4) in is_deriv_n 2 (cv_fun (r0_c r)) t acc ->
    cone0_near (z_tol true 8) up_ph (giwL 2 (V3 0 0 (-10)) (cv_fun (r0_c r) t) acc (dL_fun (r0_dL r) t))).
Proof.
  intros mem glpk.
  destruct (C65_best false mem glpk zb_pb [1] zb_ct up_ph 1 (1 / 4) z_pb_posed (or_intror (ex_intro _ 4%nat steps4)) (up_ok _ _ _ _ _ _ _ _ _) zb_geom) as (r & E & HP & HC).
  destruct (C64_samples false mem glpk zb_pb [1] zb_ct up_ph 1 (1 / 4) 1 1 z_pb_posed 4%nat steps4) as (r' & E' & HS); [lia|exact zb_scale|].
  rewrite E in E'. injection E' as <-. destruct (HS (proj1 HP)) as (x & xL & _ & _ & _ & _ & _ & _ & HN & _).
  exists r. split; [exact E|]. split; [apply HP|exact HN].
Qed.

(** C65_optimal: the capture point must be behind the initial position. *)
Lemma ineq_plan H g (rows : list (vec3 * R)) : ineq_qp H g (map (fun r => (l3 (fst r), snd r)) rows) = plan_qp H g rows.
Proof.
  unfold ineq_qp, plan_qp. f_equal; rewrite ?map_map; apply map_ext; intros r; reflexivity.
Qed.
Definition zc_ct : contact := up_ct [V3 1 0 0] [-1] [] [].
Definition zc_pb : problem := up_pb false zc_ct (V3 1 0 0) vzero.
Example ex_C65_optimal : forall mem glpk, exists r x xL, solve0step false (solve_quadprog mem) glpk zc_pb [1] 0 = Ok r /\ r0_success r = true /\
  z_plan zc_pb 1 r x xL /\ vnorm2 x <= 1.
Proof.
  intros mem glpk. assert (N : z_no_steps 1 0) by (left; lra).
  assert (WP : z_posed zc_pb [1] zc_ct up_ph 1) by (apply up_posed; cbn; lia).
  assert (OS : z_on_scale zc_pb zc_ct up_ph 1 1 1).
  { apply up_scale; [|unfold vnorm2, vdot; cbn; lra]. intros K [<-|[]]; apply vnorm_bound; unfold vnorm2, vdot; cbn; lra. }
  destruct (C65_optimal false mem glpk zc_pb [1] zc_ct up_ph 1 0 1 1 WP (or_introl N) OS) as (Ab & H & gg & r & EA & EC & E & HO).
  change (useAngularMomentum zc_pb) with false in *. cbv zeta in HO.
  pose proof (z_built false zc_ct up_ph vzero (V3 1 0 0) vzero 1 (proj1 (proj2 (proj2 (proj2 WP)))) eq_refl Rlt_0_1 0 N) as EB.
  change (c0 zc_pb) with vzero in EA. change (dc0 zc_pb) with (V3 1 0 0) in EA. change (l0 zc_pb) with vzero in EA. rewrite EB in EA. injection EA as <-.
  match goal with HO : well_scaled (eqp_of (ineq_qp _ _ (map _ ?A))) -> _ |- _ => set (Ab := A) in * end.
  assert (HW : well_scaled (eqp_of (ineq_qp H gg (map (fun a => (z_row_list false a, zr_b a)) Ab)))).
  { replace (map (fun a => (z_row_list false a, zr_b a)) Ab) with (map (fun r => (l3 (fst r), snd r)) (map (fun a => (zr_x a, zr_b a)) Ab)) by (rewrite map_map; reflexivity).
    rewrite ineq_plan. cbn in EC. injection EC as <- <-.
    match goal with |- well_scaled (eqp_of (plan_qp ?h _ _)) => replace h with [[1;0;0];[0;1;0];[0;0;1]] by (repeat (f_equal; try lra)) end.
    apply axis_scaled. intros q Hq. apply in_map_iff in Hq. destruct Hq as (a & <- & Ha). cbn [fst].
    assert (N1 : norm6 (V3 0 0 1, vzero) = 1) by (unfold norm6, dot6, vdot; cbn; replace (0 * 0 + 0 * 0 + 1 * 1 + (0 * 0 + 0 * 0 + 0 * 0)) with 1 by ring; apply sqrt_1).
    unfold Ab, z_all in Ha. apply in_app_or in Ha. destruct Ha as [Ha|Ha].
    - cbn [z_ws z_us0 repeat combine flat_map map cp_poly up_ph app In] in Ha. unfold z_h in Ha. cbn [fst] in Ha. rewrite N1 in Ha.
      destruct Ha as [<-|[<-|[<-|[<-|[<-|[]]]]]];
        [exists (-12)|exists (-6)|exists 0|exists 6|exists 12]; (split; [try (left; lra); right; lra|right; right];
        unfold z_row, z_lin, v6_mmul, v6_scal, z_w0, z_w1, z_w2, z_w3, z_w4; cbn; unfold vzero; apply v3_eq; cbn; unfold vdot; cbn; field).
    - destruct Ha as [<-|[]]. exists 1. split; [right; lra|left; reflexivity]. }
  destruct (HO HW (V3 (-1) 0 0) vzero) as [(S1 & x & xL & v & v' & HP & Hv & Hv' & HL)|(_ & F & _)].
  - apply up_ok.
  - intros i K k HK Hk. destruct i as [|[|i]]; cbn in HK, Hk; try discriminate. injection HK as <-. injection Hk as <-. unfold vdot; cbn. lra.
  - exists r, x, xL. split; [exact E|]. split; [exact S1|]. split; [exact HP|].
    rewrite z_criterion_iff in Hv, Hv' by lra. unfold z_value in Hv, Hv'. cbn [zc_pb up_pb useAngularMomentum c0] in Hv, Hv'.
    subst v v'. unfold z_weight, vnorm2, vsub, vdot, vzero in HL |- *. cbn in HL |- *. nra.
  - exfalso. vm_compute in F. lia.
Qed.
