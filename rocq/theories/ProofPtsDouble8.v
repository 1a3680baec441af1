(** Fixed control points computed in doubles: the statements. *)
From Flocq Require Import Core BinarySingleNaN.
From Coq Require Import List Lia Lra Psatz.
From Verif Require Import Vec SpecBezier ModelData ModelWaypoints ModelWaypointsJerk ModelDispatch ModelEff SpecCom SpecEff Double ModelPtsDouble SpecDouble SpecPtsDouble
  ProofCurve ProofWaypoints ProofWaypoints2 ProofEff ProofEff8 ProofPtsDouble5 ProofPtsDouble6 ProofPtsDouble7.
Import ListNotations.
Open Scope R_scope.

Ltac flags := repeat match goal with |- context [fl_has ?a ?b] => let v := eval vm_compute in (fl_has a b) in change (fl_has a b) with v end; cbv iota; cbn [app length].
Lemma lens pData : In (flag_of pData) (com_flags ++ effector_flags) ->
  let has b := fl_has (flag_of pData) b = true in
  let ls := length (start_state pData) in let le := length (end_state pData) in
  (has INIT_VEL -> 1 < ls)%nat /\ (has INIT_ACC -> 2 < ls)%nat /\ (has INIT_JERK -> 3 < ls)%nat /\
  (has END_POS -> 0 < le)%nat /\ (has END_VEL -> 1 < le \/ le = 0 /\ ls = 2)%nat /\ (has END_ACC -> 2 < le)%nat /\ (has END_JERK -> 3 < le)%nat.
Proof.
  cbv zeta. unfold start_state, end_state, when. set (f := flag_of pData). clearbody f. intros H.
  in_cases H; subst f; flags; repeat split; intros K; try discriminate K; try lia.
Qed.

Definition meets8 (pData : problem) (T : R) (f : R -> vec3) : Prop :=
  let has b := fl_has (flag_of pData) b = true in
  (has INIT_POS -> f 0 = c0 pData) /\ (has INIT_VEL -> is_deriv_n 1 f 0 (dc0 pData)) /\ (has INIT_ACC -> is_deriv_n 2 f 0 (ddc0 pData)) /\ (has INIT_JERK -> is_deriv_n 3 f 0 (j0 pData)) /\
  (has END_POS -> f T = c1 pData) /\ (has END_VEL -> is_deriv_n 1 f T (dc1 pData)) /\ (has END_ACC -> is_deriv_n 2 f T (ddc1 pData)) /\ (has END_JERK -> is_deriv_n 3 f T (j1 pData)).

Lemma com_meets8 pData T f : In (flag_of pData) com_flags -> meets_boundary pData T f -> meets8 pData T f.
Proof.
  intros Hf (A & B & C & D & E & F). cbv zeta. unfold meets8. cbv zeta. repeat split; try assumption; intros K; exfalso; revert K; in_cases Hf; rewrite Hf; vm_compute; discriminate.
Qed.
Lemma eff_meets8 pData T f : meets_all pData T f -> meets8 pData T f.
Proof. intros (A & B & C & D & E & F & G & H). unfold meets8. cbv zeta. tauto. Qed.

Lemma boundary_of pData T P Q : 0 < T -> In (flag_of pData) (com_flags ++ effector_flags) -> (3 < length P)%nat ->
  points_near T (start_state pData) (end_state pData) P Q -> meets8 pData T (curve Q T) -> boundary_near (INR (length P - 1)) pData T (curve P T).
Proof.
  intros HT Hf HP HN (A & B & C & D & E & F & G & K). cbv zeta in *.
  destruct (lens pData Hf) as (L1 & L2 & L3 & L4 & L5 & L6 & L7). cbv zeta in *.
  destruct HN as (HL & H0 & Hs & Hz & He & Hm).
  assert (Lm : exists m, length P = S (S (S (S m)))) by (exists (length P - 4)%nat; lia). destruct Lm as [m LP].
  assert (LQ : length Q = S (S (S (S m)))) by congruence.
  replace (length P - 1)%nat with (S (S (S m))) by lia.
  assert (Z0 : forall ax, axis ax -> coord ax P 0 - coord ax Q 0 = 0).
  { intros ax Hax. rewrite !coord_nth by apply (axis_linear ax Hax). rewrite H0. ring. }
  assert (Si : forall i ax, axis ax -> (i < length (start_state pData))%nat -> Rabs (coord ax P i - coord ax Q i) <= end_err T (start_state pData) i ax).
  { intros i ax Hax Hi. rewrite !coord_nth by apply (axis_linear ax Hax). now apply Hs. }
  assert (Ei : forall i ax, axis ax -> (i < length (end_state pData))%nat -> Rabs (coord ax P (S (S (S m)) - i) - coord ax Q (S (S (S m)) - i)) <= end_err T (end_state pData) i ax).
  { intros i ax Hax Hi. rewrite !coord_nth by apply (axis_linear ax Hax). specialize (He i Hi ax Hax). rewrite LP in He. replace (S (S (S (S m))) - 1 - i)%nat with (S (S (S m)) - i)%nat in He by lia. exact He. }
  assert (Zn : forall ax, axis ax -> (0 < length (end_state pData))%nat -> coord ax P (S (S (S m))) - coord ax Q (S (S (S m))) = 0).
  { intros ax Hax Hi. rewrite !coord_nth by apply (axis_linear ax Hax).
    assert (Hne : end_state pData <> []) by (intros X; rewrite X in Hi; cbn [length] in Hi; lia).
    specialize (Hz Hne). rewrite LP in Hz. replace (S (S (S (S m))) - 1)%nat with (S (S (S m))) in Hz by lia. rewrite Hz. ring. }
  unfold boundary_near. cbv zeta. repeat apply conj.
  - intros X. rewrite <- (A X). rewrite !curve_at_0, !hd_nth. exact H0.
  - intros X. apply (start1 T m P Q HT LP LQ (end_err T (start_state pData))); [|apply B, X]. specialize (L1 X). intros ax Hax. split; [now apply Z0|apply Si; [exact Hax|lia]].
  - intros X. apply (start2 T m P Q HT LP LQ (end_err T (start_state pData))); [|apply C, X]. specialize (L2 X). intros ax Hax.
    split; [now apply Z0|]. split; apply Si; try exact Hax; lia.
  - intros X. apply (start3 T m P Q HT LP LQ (end_err T (start_state pData))); [|apply D, X]. specialize (L3 X). intros ax Hax.
    split; [now apply Z0|]. split; [|split]; apply Si; try exact Hax; lia.
  - intros X. rewrite <- (E X). specialize (L4 X). rewrite !curve_at_T by lra. rewrite !last_nth, LQ, <- LP, Hz; [reflexivity|]. intros Y. rewrite Y in L4. cbn [length] in L4. lia.
  - intros X. apply (end1 T m P Q HT LP LQ (end_err T (end_state pData))); [|apply F, X]. intros ax Hax. destruct (L5 X) as [L|[L L']].
    + split; [apply Zn; [exact Hax|lia]|apply Ei; [exact Hax|lia]].
    + rewrite !coord_nth by apply (axis_linear ax Hax). rewrite L, L', LP in Hm. rewrite !Hm by lia. split; [ring|]. rewrite Rminus_diag_eq by reflexivity. rewrite Rabs_R0. apply end_err_pos. lra.
  - intros X. apply (end2 T m P Q HT LP LQ (end_err T (end_state pData))); [|apply G, X]. specialize (L6 X). intros ax Hax.
    split; [apply Zn; [exact Hax|lia]|]. split; apply Ei; try exact Hax; lia.
  - intros X. apply (end3 T m P Q HT LP LQ (end_err T (end_state pData))); [|apply K, X]. specialize (L7 X). intros ax Hax.
    split; [apply Zn; [exact Hax|lia]|]. split; [|split]; apply Ei; try exact Hax; lia.
Qed.

Section Main.
  Variables (d : fdata) (pData : problem) (T : f64).
  Hypotheses (Hd : denotes d pData) (Hm : mild_data d) (FT : is_finite T = true) (T0 : 0 < B2R T) (TB : B2R T <= 2 ^ 200).

  Let near2 := points_near (B2R T) (start_state pData) (end_state pData).
  Lemma c86_cases : In (flag_of pData) com_flags -> (flag_of pData = F_capture -> dc1 pData = vzero) ->
    exists pf pi, case_ok d pData T (flag_of pData) pf pi /\ curve_ok pData T pf pi.
  Proof.
    intros Hf Hc. destruct Hd as (Ef & E0 & E1 & E2 & E3 & E4 & E5 & E6 & E7). destruct Hm as (M0 & M1 & M2 & M3 & M4 & M5 & M6 & M7).
    in_cases Hf.
    - eapply case_c1; eassumption.
    - eapply case_capture; try eassumption. apply Hc, Hf.
    - eapply case_dc1_c1; eassumption.
    - eapply case_acc; eassumption.
    - eapply case_acc_c1; eassumption.
    - eapply case_acc_dc1_c1; eassumption.
    - eapply case_acc_all; eassumption.
  Qed.
  Lemma c86_eff_cases : In (flag_of pData) effector_flags ->
    exists pf pi, case_ok d pData T (flag_of pData) pf pi /\ forall xs, length xs = eff_free (flag_of pData) -> effcurve_ok pData T xs pf.
  Proof.
    intros Hf. destruct Hd as (Ef & E0 & E1 & E2 & E3 & E4 & E5 & E6 & E7). destruct Hm as (M0 & M1 & M2 & M3 & M4 & M5 & M6 & M7).
    in_cases Hf; rewrite Hf.
    - eapply case_jerk; eassumption.
    - eapply case_x3; eassumption.
    - eapply case_x5; eassumption.
  Qed.
  Lemma c86_points : In (flag_of pData) (com_flags ++ effector_flags) -> (flag_of pData = F_capture -> dc1 pData = vzero) ->
    exists pf pi, points_f d T = Ok pf /\ computeConstantWaypoints pData (B2R T) = Ok pi /\ Forall finite3 pf /\
      points_near (B2R T) (start_state pData) (end_state pData) (map fv_R pf) pi.
  Proof.
    intros Hf Hc. apply in_app_or in Hf. destruct Hf as [Hf|Hf].
    - destruct (c86_cases Hf Hc) as (pf & pi & H & _). exists pf, pi. exact H.
    - destruct (c86_eff_cases Hf) as (pf & pi & H & _). exists pf, pi. exact H.
  Qed.
  Lemma c86_com x : In (flag_of pData) com_flags -> (flag_of pData = F_capture -> dc1 pData = vzero) ->
    exists cf ce, com_curve_f d T x = Ok cf /\ com_curve pData (B2R T) x = Ok ce /\ bc_T cf = B2R T /\
      (forall u, 0 <= u <= B2R T -> apart (curve_err (B2R T) (start_state pData) (end_state pData)) (cv_fun cf u) (cv_fun ce u)) /\
      boundary_near (INR (length (bc_pts cf) - 1)) pData (B2R T) (cv_fun cf).
  Proof.
    intros Hf Hc. destruct (c86_cases Hf Hc) as (pf & pi & (E1 & E2 & _ & _) & H). destruct (H x) as (P & Q & EP & EQ & LP & HN).
    assert (NP : P <> []) by (intros X; rewrite X in LP; cbn [length] in LP; lia).
    assert (Ee : com_curve pData (B2R T) x = Ok (BCurve Q (B2R T))) by (unfold com_curve; rewrite E2; exact EQ).
    exists (BCurve P (B2R T)), (BCurve Q (B2R T)). split; [|split; [exact Ee|split; [reflexivity|split]]].
    - unfold com_curve_f. rewrite E1. cbn [bind]. destruct Hd as (<- & _). exact EP.
    - apply curve_dev; [exact T0|exact NP|exact HN].
    - apply (boundary_of pData (B2R T) P Q T0); [apply in_or_app; left; exact Hf|exact LP|exact HN|].
      apply com_meets8; [exact Hf|]. destruct (boundary_ok pData _ x _ Hf Ee) as (_ & _ & HB). exact HB.
  Qed.
  Lemma c86_eff xs : In (flag_of pData) effector_flags -> length xs = eff_free (flag_of pData) ->
    exists cf ce, eff_curve_f d T xs = Ok cf /\ eff_curve pData (B2R T) xs = Ok ce /\ bc_T cf = B2R T /\
      (forall u, 0 <= u <= B2R T -> apart (curve_err (B2R T) (start_state pData) (end_state pData)) (cv_fun cf u) (cv_fun ce u)) /\
      boundary_near (INR (length (bc_pts cf) - 1)) pData (B2R T) (cv_fun cf).
  Proof.
    intros Hf Hl. destruct (c86_eff_cases Hf) as (pf & pi & (E1 & E2 & _ & _) & H). destruct (H xs Hl) as (P & Q & EP & EQ & LP & HN).
    assert (NP : P <> []) by (intros X; rewrite X in LP; cbn [length] in LP; lia).
    exists (BCurve P (B2R T)), (BCurve Q (B2R T)). split; [|split; [exact EQ|split; [reflexivity|split]]].
    - unfold eff_curve_f. rewrite E1. cbn [bind]. exact EP.
    - apply curve_dev; [exact T0|exact NP|exact HN].
    - apply (boundary_of pData (B2R T) P Q T0); [apply in_or_app; right; exact Hf|exact LP|exact HN|].
      apply eff_meets8. destruct (eff_boundary pData (B2R T) xs Hf Hl T0) as (cv & Ecv & _ & _ & HB). rewrite EQ in Ecv. injection Ecv as <-. exact HB.
  Qed.
End Main.

Lemma c86_guard d T : fd_flag d = F_capture -> mild3 (fd_dc1 d) ->
  (points_f d T = Throw <-> exists ax, axis ax /\ ax (fv_R (fd_dc1 d)) * ax (fv_R (fd_dc1 d)) > eta) /\
  (points_f d T <> Throw -> exists pf, points_f d T = Ok pf).
Proof.
  intros E M. pose proof (guard_ok _ M) as G.
  assert (Ep : points_f d T = c0_dc0_dc1_points d T) by (unfold points_f; rewrite E; reflexivity). rewrite Ep. unfold c0_dc0_dc1_points.
  destruct (Beqb (fv_norm (fd_dc1 d)) f0) eqn:B; cbn [negb].
  - pose proof (proj1 G eq_refl) as K. split; [|intros _; eexists; reflexivity]. split; [discriminate|]. intros (ax & Hax & X). specialize (K ax Hax). lra.
  - split; [|congruence]. split; [|reflexivity]. intros _.
    set (v := fv_R (fd_dc1 d)) in *.
    destruct (Rle_dec (vx v * vx v) eta) as [A1|A1]; [|exists vx; split; [now left|lra]].
    destruct (Rle_dec (vy v * vy v) eta) as [A2|A2]; [|exists vy; split; [right; now left|lra]].
    destruct (Rle_dec (vz v * vz v) eta) as [A3|A3]; [|exists vz; split; [right; now right|lra]].
    exfalso. assert (X : false = true) by (apply G; intros ax [->|[->| ->]]; assumption). discriminate X.
Qed.
