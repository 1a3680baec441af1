(** Concrete inputs for the theorems of PropertiesJerkCom.v. *)
From Verif Require Import Vec SpecBezier SpecTime ModelData ModelDispatch ModelUtils ModelCom ModelCont ModelSolver ModelTraj ModelEff
  SpecCom SpecSolver SpecEff ProofBezier ProofCurve ProofJerkCom2 PropertiesEff PropertiesJerkCom ExamplesTraj.
Open Scope R_scope.

(** The plan of C111_refuted: it ends a quarter of a metre from c1 = (1,0,0). *)
Example ex_C111_ends : exists r, computeCOMTrajFixedSize true false (guess [0; 0; 0]) no_lp jc_pb [1] 1 = Ok r /\ rc_success r = true /\
  cv_fun (rc_c r) (total [1]) = V3 (5 / 4) 0 0 /\ c1 jc_pb = V3 1 0 0.
Proof.
  destruct (jc_plan true false no_lp) as (r & E & S). exists r. split; [exact E|]. split; [exact S|]. split; [|reflexivity].
  destruct (C111_ends true false (guess [0; 0; 0]) no_lp jc_pb [1] r eq_refl (or_intror (ex_intro _ 1%nat E)) S) as (_ & P & _).
  rewrite P. apply v3_eq; cbn; field.
Qed.

(** Its wrench at the start: all control points within 2, gravity within 10. *)
Example ex_C111_wrench : exists cv, com_curve jc_pb 1 vzero = Ok cv /\ Forall (within 2) (bc_pts cv) /\ exists ws, computeWwaypoints jc_pb 1 = Ok ws /\
  forall t acc, 0 <= t <= 1 -> is_deriv_n 2 (cv_fun cv) t acc ->
    let d := v6sub (curve6 (map (fun w => ev_w6 w vzero) ws) 1 t) (wrench (V3 0 0 (-981/100)) (cv_fun cv t) acc) in
    within (err_force 2 1) (fst d) /\ within (err_moment 10 2 1) (snd d).
Proof.
  destruct jc_cv as (cv & E & _ & B). exists cv. split; [exact E|]. split; [exact B|].
  apply (C111_wrench jc_pb 1 vzero cv (V3 0 0 (-981/100)) 2 10 eq_refl E eq_refl B).
  unfold within; cbn. rewrite !Rabs_R0. rewrite (Rabs_left1 (-981/100)) by lra. repeat split; lra.
Qed.

(** The last sample of that plan is taken at c1, while the plan ends elsewhere. *)
Example ex_C111_samples : exists pi co, computeConstantWaypoints jc_pb 1 = Ok pi /\ evaluateCurveAtTime jc_pb pi 1 = Ok co /\ ev_coefs co vzero = V3 1 0 0.
Proof.
  destruct (C111_samples jc_pb 1 vzero 1 eq_refl Rlt_0_1) as (pi & cv & co & ca & Hc & He & Hco & _ & Hv & _).
  exists pi, co. split; [exact Hc|]. split; [exact Hco|]. rewrite Hv.
  destruct (C29_boundary jc_pb 1 [vzero] ltac:(left; reflexivity) eq_refl Rlt_0_1) as (cv' & He' & _ & _ & B).
  rewrite He in He'; injection He' as <-. destruct B as (_ & _ & _ & _ & B & _).
  replace (1 * 1) with 1 by ring. rewrite B. apply v3_eq; cbn; ring.
Qed.
