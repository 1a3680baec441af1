(** End-effector curves with five free points: what the evaluation functions return. *)
From Verif Require Import Vec SpecBezier ModelData ModelWaypointsJerk ModelDispatch ModelCont ModelTraj ModelEff
  SpecCom SpecEff SpecEffFive ProofBezier ProofCurve ProofWaypoints ProofWaypoints2 ProofEff ProofEff2.
Open Scope R_scope.

Section five.
Variables (pData : problem) (T : R) (a0 a1 a2 a3 a9 a10 a11 a12 x0 x1 x2 x3 x4 : vec3).
Hypothesis (HT : T <> 0) (Hf : flag_of pData = F_x5).
Let pi := [a0;a1;a2;a3;vzero;vzero;vzero;vzero;vzero;a9;a10;a11;a12].
Let xs := [x0;x1;x2;x3;x4].
Let Q0 := [a0;a1;a2;a3;vzero;vzero;vzero;vzero;vzero;a9;a10].
Let Q := [a0;a1;a2;a3;x0;x1;x2;vzero;vzero;a9;a10].

Lemma x5_vel_eq s : exists w, evaluateVelocityCurveWaypointAtTime pData T pi s = Ok w /\
  ev_wpn w xs = vadd (vscal (1 / T) (sum_points xs)) (vadd (bez3 (hodo_n 1 T Q0) s) (moved sigma_vel (hodo_n 1 T Q0) s)).
Proof.
  unfold pi, xs, Q0. unfold evaluateVelocityCurveWaypointAtTime; rewrite Hf.
  eexists; split; [reflexivity|]. hodo_vals; bez_norm; unfold moved, mono, sum_points;
   cbn [map length nth seq fold_right sigma_vel sigma_acc]; apply v3_eq; ecbn; mono_norm; field; auto.
Qed.
Lemma x5_acc_eq s : exists w, evaluateAccelerationCurveWaypointAtTime pData T pi s = Ok w /\
  ev_wpn w xs = vadd (bez3 (hodo_n 2 T Q) s) (moved sigma_acc (hodo_n 2 T Q0) s).
Proof.
  unfold pi, xs, Q0, Q. unfold evaluateAccelerationCurveWaypointAtTime; rewrite Hf.
  eexists; split; [reflexivity|]. hodo_vals; bez_norm; unfold moved, mono;
   cbn [map length nth seq fold_right sigma_vel sigma_acc]; apply v3_eq; ecbn; mono_norm; field; auto.
Qed.
Lemma x5_jerk_eq s : exists w, evaluateJerkCurveWaypointAtTime pData T pi s = Ok w /\
  ev_wpn w xs = bez3 (hodo_n 3 T Q) s.
Proof.
  unfold pi, xs, Q. unfold evaluateJerkCurveWaypointAtTime; rewrite Hf.
  eexists; split; [reflexivity|]. hodo_vals; bez_norm; apply v3_eq; ecbn; field; auto.
Qed.
End five.

Lemma c103_five pData T xs : flag_of pData = F_x5 -> length xs = 5%nat -> 0 < T ->
  exists pi cv Pv Pa, computeConstantWaypoints pData T = Ok pi /\ eff_curve pData T xs = Ok cv /\
    length Pv = 10%nat /\ deriv_points 1 (cv_fun (of_ten cv T [vzero;vzero;vzero])) T Pv /\
    length Pa = 9%nat /\ deriv_points 2 (cv_fun (of_ten cv T [vzero;vzero;vzero])) T Pa /\
    forall s, exists wv wa wj, evaluateVelocityCurveWaypointAtTime pData T pi s = Ok wv /\
      evaluateAccelerationCurveWaypointAtTime pData T pi s = Ok wa /\ evaluateJerkCurveWaypointAtTime pData T pi s = Ok wj /\
      ev_wpn wv xs = vadd (vscal (1 / T) (sum_points xs)) (vadd (curve Pv T (s * T)) (moved sigma_vel Pv s)) /\
      is_deriv_n 2 (cv_fun (of_ten cv T xs)) (s * T) (vsub (ev_wpn wa xs) (moved sigma_acc Pa s)) /\
      is_deriv_n 3 (cv_fun (of_ten cv T xs)) (s * T) (ev_wpn wj xs).
Proof.
  intros Hf Hl HT. assert (HT0 : T <> 0) by lra.
  destruct (eff_x5 pData T Hf HT) as (pi & a0 & a1 & a2 & a3 & a9 & a10 & a11 & a12 & Hc & Hp & Hcv).
  destruct xs as [|x0 [|x1 [|x2 [|x3 [|x4 [|? ?]]]]]]; try discriminate Hl.
  set (Q0 := [a0;a1;a2;a3;vzero;vzero;vzero;vzero;vzero;a9;a10]).
  exists pi, (BCurve (x5_pts pi [x0;x1;x2;x3;x4]) T), (hodo_n 1 T Q0), (hodo_n 2 T Q0).
  split; [exact Hc|]. split; [apply Hcv; reflexivity|]. subst pi.
  split; [reflexivity|]. split; [exact (deriv_points_hodo 1 Q0 T)|].
  split; [reflexivity|]. split; [exact (deriv_points_hodo 2 Q0 T)|].
  intros s.
  destruct (x5_vel_eq pData T a0 a1 a2 a3 a9 a10 a11 a12 x0 x1 x2 x3 x4 HT0 Hf s) as (wv & Ev & Vv).
  destruct (x5_acc_eq pData T a0 a1 a2 a3 a9 a10 a11 a12 x0 x1 x2 x3 x4 HT0 Hf s) as (wa & Ea & Va).
  destruct (x5_jerk_eq pData T a0 a1 a2 a3 a9 a10 a11 a12 x0 x1 x2 x3 x4 HT0 Hf s) as (wj & Ej & Vj).
  exists wv, wa, wj. split; [exact Ev|]. split; [exact Ea|]. split; [exact Ej|].
  split; [rewrite Vv, curve_at_sT by exact HT0; reflexivity|].
  split.
  - rewrite Va, vadd_sub, <- (curve_at_sT _ T s) by exact HT0. apply curve_is_deriv_n.
  - rewrite Vj, <- (curve_at_sT _ T s) by exact HT0. apply curve_is_deriv_n.
Qed.

(** At the start. *)
Lemma c103_start pData T xs : flag_of pData = F_x5 -> length xs = 5%nat -> 0 < T ->
  exists pi wv wa wj, computeConstantWaypoints pData T = Ok pi /\
    evaluateVelocityCurveWaypointAtTime pData T pi 0 = Ok wv /\
    evaluateAccelerationCurveWaypointAtTime pData T pi 0 = Ok wa /\ evaluateJerkCurveWaypointAtTime pData T pi 0 = Ok wj /\
    ev_wpn wv xs = vadd (vscal (1 / T) (sum_points xs)) (vscal (5 / 6) (dc0 pData)) /\
    ev_wpn wa xs = vscal (15 / 22) (ddc0 pData) /\ ev_wpn wj xs = vscal (6 / 11) (j0 pData).
Proof.
  intros Hf Hl HT. assert (HT0 : T <> 0) by lra.
  destruct (eff_x5 pData T Hf HT) as (pi & a0 & a1 & a2 & a3 & a9 & a10 & a11 & a12 & Hc & Hp & _).
  destruct xs as [|x0 [|x1 [|x2 [|x3 [|x4 [|? ?]]]]]]; try discriminate Hl.
  exists pi.
  assert (E : a0 = c0 pData /\ a1 = vadd (vscal (T / 12) (dc0 pData)) (c0 pData) /\
    a2 = vadd (vadd (vscal (T * T / 132) (ddc0 pData)) (vscal (T / 6) (dc0 pData))) (c0 pData) /\
    a3 = vadd (vadd (vadd (vscal (T * T * T / 1320) (j0 pData)) (vscal (T * T / 44) (ddc0 pData))) (vscal (T / 4) (dc0 pData))) (c0 pData)).
  { clear Hl. revert Hc. unfold computeConstantWaypoints. rewrite Hf. subst pi. intros Hc. injection Hc; intros; subst.
    repeat split; apply v3_eq; ecbn; field; auto. }
  destruct E as (E0 & E1 & E2 & E3).
  destruct (x5_vel_eq pData T a0 a1 a2 a3 a9 a10 a11 a12 x0 x1 x2 x3 x4 HT0 Hf 0) as (wv & Ev & Vv).
  destruct (x5_acc_eq pData T a0 a1 a2 a3 a9 a10 a11 a12 x0 x1 x2 x3 x4 HT0 Hf 0) as (wa & Ea & Va).
  destruct (x5_jerk_eq pData T a0 a1 a2 a3 a9 a10 a11 a12 x0 x1 x2 x3 x4 HT0 Hf 0) as (wj & Ej & Vj).
  exists wv, wa, wj. subst pi. split; [exact Hc|]. split; [exact Ev|]. split; [exact Ea|]. split; [exact Ej|].
  rewrite Vv, Va, Vj. rewrite E0, E1, E2, E3.
  split; [|split]; hodo_vals; bez_norm; unfold moved, mono, sum_points; cbn [map length nth seq fold_right sigma_vel sigma_acc];
    apply v3_eq; ecbn; mono_norm; field; auto.
Qed.
