(** A problem whose plans violate the constraints between samples: the CoM starts upwards and arrives downwards, and
    is confined to the plane z = 0. *)
From Verif Require Import Vec SpecBezier SpecTime ModelData ModelDispatch ModelUtils ModelRows ModelCom ModelCont ModelSolver ModelTraj
  SpecCom SpecWp SpecCtr SpecCont SpecSolver SpecTraj ProofCurve ProofWaypoints2 ProofCom2 ProofTraj ProofTraj2 ProofTraj3 PropertiesCom PropertiesTraj ExamplesCom ExamplesTraj.
Open Scope R_scope.

Definition gp_g : vec3 := V3 0 0 (-981/100).
Definition gp_ct : contact := Contact (Some (CPhase [] 1 gp_g [])) [V3 0 0 1; V3 0 0 (-1)] [0; 0] [] [].
Definition gp_pb : problem :=
  Problem [gp_ct] vzero (V3 0 0 1) vzero vzero vzero (V3 0 0 (-1)) vzero vzero vzero false
    (Constraints F_dc1_c1 false 0 0) ACCELERATION DOUBLE_DESCRIPTION.
Definition gp_x : vec3 := V3 0 0 (-5/12).
Definition gp_cv (x : vec3) : bcurve := BCurve [vzero; V3 0 0 (1/4); x; V3 0 0 (1/4); vzero] 1.

Lemma gp_wp : well_posed gp_pb [1].
Proof.
  split; [cbn; tauto|]. split; [intro E; discriminate E|]. split; [discriminate|]. split; [apply Forall_cons; [lra|apply Forall_nil]|].
  split; [reflexivity|]. apply Forall_cons; [|apply Forall_nil]. eexists. split; [reflexivity|]. split; [cbn; lra|]. split; [apply Forall_nil|cbn; lia].
Qed.
Lemma gp_same : same_gravity gp_pb gp_g.
Proof. intros c ph [<-|[]] H; injection H as <-; reflexivity. Qed.
Lemma gp_total : total [1] = 1.
Proof. cbn. lra. Qed.
Lemma gp_curve x : com_curve gp_pb (total [1]) x = Ok (gp_cv x).
Proof.
  rewrite gp_total. cbv [com_curve]. cbn. unfold mk_bezier. destruct (Rle_dec 1 0); [lra|].
  unfold gp_cv. repeat f_equal; apply v3_eq; cbn; field.
Qed.
Lemma gp_z x t : vz (cv_fun (gp_cv x) t) = t * (1 - t) * (1 - t) * (1 - t) + 6 * t * t * (1 - t) * (1 - t) * vz x + t * t * t * (1 - t).
Proof. cbv [cv_fun bc_pts bc_T gp_cv vzero length pred map curve bez3 bezl bez sumf bern binom nth vx vy vz Nat.add Nat.sub INR pow]. destruct x as [x1 x2 x3]. field. Qed.
Lemma gp_kin x t : kin_ok gp_ct (cv_fun (gp_cv x) t) <-> vz (cv_fun (gp_cv x) t) = 0.
Proof.
  unfold kin_ok. split.
  - intro H. pose proof (H 0%nat _ _ eq_refl eq_refl) as A. pose proof (H 1%nat _ _ eq_refl eq_refl) as B. unfold vdot in A, B. cbn [vx vy vz] in A, B. lra.
  - intros E [|[|i]] K k HK Hk; [| |destruct i; discriminate HK]; injection HK as <-; injection Hk as <-; unfold vdot; cbn [vx vy vz]; lra.
Qed.
Lemma gp_sample t : sampled_fixed [1] 3 0 t <-> exists j, (j <= 3)%nat /\ t = INR j / 3.
Proof.
  split.
  - intros (j & d & Hj & Hd & ->). injection Hd as <-. exists j. split; [exact Hj|]. unfold phase_start. cbn [firstn total]. replace (INR 3) with 3 by (cbn; lra). field.
  - intros (j & Hj & ->). exists j, 1. split; [exact Hj|]. split; [reflexivity|]. unfold phase_start. cbn [firstn total]. replace (INR 3) with 3 by (cbn; lra). field.
Qed.

Lemma gp_feasible : plan_feasible gp_pb (sampled_fixed [1] 3) (cv_fun (gp_cv gp_x)).
Proof.
  intros i c t Hc Ht. destruct i as [|i]; [|destruct i; discriminate Hc]. injection Hc as <-. split; [|intro E; discriminate E].
  split.
  - apply gp_kin. rewrite gp_z. apply gp_sample in Ht. destruct Ht as (j & Hj & ->).
    destruct j as [|[|[|[|j]]]]; [..|lia]; cbn [INR gp_x vz]; field.
  - eexists; exists (curve (hodo_n 2 1 (bc_pts (gp_cv gp_x))) 1 t). split; [reflexivity|]. split; [apply curve_is_deriv_n|apply Forall_nil].
Qed.
Lemma gp_plan scaled wg : exists r,
  computeCOMTrajFixedSize scaled wg (guess (l3 gp_x)) no_lp gp_pb [1] 3 = Ok r /\ rc_success r = true.
Proof.
  destruct (C15_meaning_fixed gp_pb [1] 3 gp_g gp_wp ltac:(lia) gp_same ltac:(cbn; tauto)) as (rows & EA & HM).
  pose proof (proj2 (HM gp_x (gp_cv gp_x) (gp_curve _)) gp_feasible) as S.
  rewrite (traj_fixed scaled wg _ _ _ _ gp_wp 3 rows EA).
  destruct (C22_acceleration gp_pb [1] (computeDiscretizedTimeFixed [1] 3) 0 gp_wp
    (C22_times_fixed [1] 3 ltac:(lia) ltac:(discriminate) ltac:(apply Forall_cons; [lra|apply Forall_nil])) eq_refl)
    as (H & g & K & EC & _). cbn [Nat.add] in EC. rewrite EC. cbn [bind fst snd].
  destruct (guess_solve wg rows H g gp_x S) as [obj ES]. rewrite ES. cbn [bind].
  destruct (genTraj_ok scaled (ResultData true obj (l3 gp_x)) gp_pb [1] gp_x [] gp_wp eq_refl) as (r & Er & Hs & _).
  { cbn [rd_x]. now rewrite app_nil_r. }
  exists r. split; [exact Er|exact Hs].
Qed.

Lemma gp_violated scaled wg quadprog glpk r : qp_sound quadprog -> lp_sound glpk ->
  computeCOMTrajFixedSize scaled wg quadprog glpk gp_pb [1] 3 = Ok r -> rc_success r = true ->
  exists i c t, nth_error (contacts gp_pb) i = Some c /\ in_phase [1] i t /\ ~ kin_ok c (cv_fun (rc_c r) t).
Proof.
  intros Q L E S. destruct (C16_plan_fixed scaled wg quadprog glpk Q L gp_pb [1] 3 gp_g r gp_wp ltac:(lia) gp_same ltac:(cbn; tauto) E S) as [(_ & (x & _ & Ec) & _) H].
  rewrite gp_curve in Ec. injection Ec as Ec. rewrite <- Ec in *.
  destruct (H 0%nat gp_ct (1/3) eq_refl) as [[K _] _].
  { apply gp_sample. exists 1%nat. split; [lia|]. cbn. lra. }
  apply gp_kin in K. rewrite gp_z in K. exists 0%nat, gp_ct, (1/6). split; [reflexivity|]. split.
  - split; [cbn; lia|]. unfold phase_start, phase_end. cbn [firstn total]. lra.
  - intro K2. apply gp_kin in K2. rewrite gp_z in K2. lra.
Qed.

Lemma gap_refuted : exists pData Ts p g, well_posed pData Ts /\ (1 <= p)%nat /\ same_gravity pData g /\ In (flag_of pData) exact_w_flags /\
  (forall scaled with_glpk quadprog glpk r, qp_sound quadprog -> lp_sound glpk ->
     computeCOMTrajFixedSize scaled with_glpk quadprog glpk pData Ts p = Ok r -> rc_success r = true ->
     exists i c t, nth_error (contacts pData) i = Some c /\ in_phase Ts i t /\ ~ kin_ok c (cv_fun (rc_c r) t)) /\
  (forall scaled with_glpk, exists quadprog glpk r, qp_sound quadprog /\ lp_sound glpk /\
     computeCOMTrajFixedSize scaled with_glpk quadprog glpk pData Ts p = Ok r /\ rc_success r = true).
Proof.
  exists gp_pb, [1], 3%nat, gp_g. split; [exact gp_wp|]. split; [lia|]. split; [exact gp_same|]. split; [cbn; tauto|]. split.
  - intros scaled wg quadprog glpk r. apply gp_violated.
  - intros scaled wg. destruct (gp_plan scaled wg) as (r & E & S). exists (guess (l3 gp_x)), no_lp, r.
    split; [apply guess_sound|]. split; [apply no_lp_sound|]. split; assumption.
Qed.
