(** Concrete inputs for the theorems of PropertiesEffCost.v. *)
From Coq Require Import Lia Lra.
From Verif Require Import Vec SpecBezier ModelData ModelDispatch ModelCont ModelSolver ModelTraj ModelEff ModelEffCost
  SpecCom SpecWp SpecSolver SpecTraj Spec0Step SpecEff SpecEffCost ProofCurve ProofWaypoints ProofEff ProofEff2 ProofEffCost PropertiesEffCost ExamplesEff.
Open Scope R_scope.

(** Two seconds from (0,0,0) to (1,0,0), starting with velocity (0,0,1) and acceleration
    (0,0,-1). *)
Definition pre_pb : problem :=
  Problem [] vzero (V3 0 0 1) (V3 0 0 (-1)) vzero (V3 1 0 0) vzero vzero vzero vzero false (constr x3_pb) ACCELERATION DOUBLE_DESCRIPTION.
Example ex_C60 : exists cv, mk_bezier (computeConstantWaypointsInitPredef pre_pb 2) 2 = Ok cv /\
  bc_pts cv = [vzero; V3 0 0 (1 / 2); V3 0 0 (2 / 3); V3 0 0 (1 / 2); V3 1 0 0] /\
  cv_fun cv 2 = V3 1 0 0 /\ is_deriv_n 2 (cv_fun cv) 0 (V3 0 0 (-1)) /\ is_deriv_n 3 (cv_fun cv) 0 vzero /\
  is_deriv_n 1 (cv_fun cv) 2 (V3 2 0 (-1)).
Proof.
  destruct (C60_init pre_pb 2 ltac:(lra)) as (cv & E & _ & _ & _ & D2 & D3 & F).
  destruct (C60_other_end pre_pb 2 ltac:(lra)) as (cv' & _ & E' & _ & D1 & _). rewrite E in E'. injection E' as <-.
  exists cv. split; [exact E|]. split.
  { unfold computeConstantWaypointsInitPredef in E. rewrite mk_bezier_ok in E by lra. injection E as <-. cbn [bc_pts pre_pb c0 dc0 ddc0 c1].
    repeat (apply f_equal2; [try reflexivity; apply v3_eq; unfold vzero; ecbn; field|]). reflexivity. }
  split; [exact F|]. split; [exact D2|]. split; [exact D3|].
  replace (V3 2 0 (-1)) with (vscal (/ 2) (vsub (vscal 4 (vsub (c1 pre_pb) (c0 pre_pb))) (vadd (vscal (3 * 2) (dc0 pre_pb)) (vscal (2 * 2) (ddc0 pre_pb)))));
    [exact D1|]. cbn [pre_pb c0 dc0 ddc0 c1]. apply v3_eq; unfold vzero; ecbn; field.
Qed.
(** The step of three free points of ExamplesEff.v, five samples. *)
Example ex_C61 : exists H g K v, computeJerkCostFunctionDiscretized 5 x3_pb 1 = Ok (H, g) /\ length g = 9%nat /\
  derivs 3 (cv_fun (BCurve st3_pts 1)) 1 5 v /\ quad H (flat st3_xs) + 2 * rdot g (flat st3_xs) + K = sum_sq 5 v.
Proof.
  destruct (C61_jerk 5 x3_pb 1 st3_in ltac:(discriminate) Rlt_0_1 ltac:(discriminate)) as (H & g & K & E & (_ & _ & L) & HQ).
  destruct (HQ st3_xs eq_refl) as (cv & v & Ec & D & S). rewrite st3_curve in Ec. injection Ec as <-.
  exists H, g, K, v. split; [exact E|]. split; [exact L|]. split; [exact D|exact S].
Qed.
Example ex_C61_velocity : exists H g vs v0, computeVelCostFunctionDiscretized 5 x3_pb 1 = Ok (H, g) /\
  quad H (flat st3_xs) + 2 * rdot g (flat st3_xs)
  = (sum_sq 5 (vs 0%nat) - sum_sq 5 v0) + ((sum_sq 5 (vs 1%nat) - sum_sq 5 v0) + ((sum_sq 5 (vs 2%nat) - sum_sq 5 v0) + 0)) /\
  evaluated evaluateVelocityCurveWaypointAtTime x3_pb 1 5 [vzero; V3 (1 / 2) 0 (1 / 2); vzero] (vs 1%nat).
Proof.
  destruct (C61_velocity 5 x3_pb 1 st3_in Rlt_0_1 ltac:(discriminate)) as (H & g & v0 & E & _ & _ & HQ).
  destruct (HQ st3_xs eq_refl) as (vs & Hv & S). exists H, g, vs, v0. split; [exact E|]. split; [exact S|]. exact (Hv 1%nat ltac:(cbn; lia)).
Qed.
(** One free point. *)
Definition one_pb : problem :=
  Problem [] vzero vzero vzero vzero (V3 1 0 0) vzero vzero vzero vzero false
    (Constraints F_jerk false 0 0) ACCELERATION DOUBLE_DESCRIPTION.
Example ex_C61_one : exists H g K v, computeVelCostFunctionDiscretized 4 one_pb 1 = Ok (H, g) /\
  quad H [1;0;0] + 2 * rdot g [1;0;0] + K = sum_sq 4 (fun k => vadd (v k) (vscal (- (8 / 1) * (1 - sample 4 k) ^ 7) (vsub (V3 1 0 0) vzero))).
Proof.
  destruct (C61_velocity_one 4 one_pb 1 eq_refl Rlt_0_1 ltac:(discriminate)) as (H & g & K & E & _ & HQ).
  destruct (HQ (V3 1 0 0)) as (cv & v & _ & _ & S). exists H, g, K, v. split; [exact E|]. exact S.
Qed.
