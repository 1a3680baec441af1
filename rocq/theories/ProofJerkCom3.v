(** The coefficients that computeCOMTraj samples with that flag belong to the
    curve of degree 8 of the end-effector header. *)
From Verif Require Import Vec SpecBezier ModelData ModelWaypointsJerk ModelDispatch ModelEff SpecCom SpecEff ProofBezier ProofCurve ProofEff ProofEff2.
Open Scope R_scope.

Lemma one_block a v x : ev_wpn (Wn [mscal a mid] v) [x] = vadd (vscal a x) v.
Proof. apply v3_eq; unfold ev_wpn; cbn; unfold vdot; cbn; ring. Qed.

Lemma c111_samples pData T x s : flag_of pData = F_jerk -> 0 < T ->
  exists pi cv co ca, computeConstantWaypoints pData T = Ok pi /\ eff_curve pData T [x] = Ok cv /\
    evaluateCurveAtTime pData pi s = Ok co /\ evaluateAccelerationCurveAtTime pData pi T s = Ok ca /\
    ev_coefs co x = vadd (cv_fun cv (s * T)) (vscal ((1 - s) ^ 8) (vsub (c1 pData) (c0 pData))) /\
    is_deriv_n 2 (cv_fun cv) (s * T) (vsub (ev_coefs ca x) (vscal (56 / (T * T) * (1 - s) ^ 6) (vsub (c1 pData) (c0 pData)))).
Proof.
  intros Hf HT. assert (Hin : In (flag_of pData) effector_flags) by (rewrite Hf; left; reflexivity).
  assert (HL : length [x] = eff_free (flag_of pData)) by (rewrite Hf; reflexivity).
  destruct (c32_curve pData T [x] s Hin HL HT) as (pi & cv & w & Hc & He & Hw & Hv).
  destruct (c33_j pData T [x] s Hf eq_refl HT) as (pi' & cv' & wv & wa & Hc' & He' & _ & Ha & _ & Hd).
  rewrite Hc in Hc'; injection Hc' as <-. rewrite He in He'; injection He' as <-.
  replace (Z.eqb (flag_of pData) F_jerk) with true in Hv by (rewrite Hf; reflexivity).
  unfold evaluateCurveWaypointAtTime in Hw. rewrite Hf in Hw. cbn -[j0j1_evaluateCurveWaypointAtTime] in Hw. unfold j0j1_evaluateCurveWaypointAtTime in Hw.
  unfold evaluateAccelerationCurveWaypointAtTime in Ha. rewrite Hf in Ha. cbn -[j0j1_evaluateAccelerationCurveWaypointAtTime] in Ha. unfold j0j1_evaluateAccelerationCurveWaypointAtTime in Ha.
  destruct (j0j1_evaluateCurveAtTime pi s) as [co| |] eqn:Eco; cbn [bind] in Hw; try discriminate Hw. injection Hw as <-.
  destruct (j0j1_evaluateAccelerationCurveAtTime pi T s) as [ca| |] eqn:Eca; cbn [bind] in Ha; try discriminate Ha. injection Ha as <-.
  rewrite one_block in Hv, Hd. exists pi, cv, co, ca. split; [exact Hc|]. split; [exact He|].
  split; [unfold evaluateCurveAtTime; rewrite Hf; exact Eco|]. split; [unfold evaluateAccelerationCurveAtTime; rewrite Hf; exact Eca|].
  split; [exact Hv|exact Hd].
Qed.
