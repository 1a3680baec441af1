(** The final position matters with the distance cost, although the flag does
    not ask for it. *)
From Verif Require Import Vec SpecBezier SpecTime ModelData ModelDispatch ModelUtils ModelRows ModelCom ModelCont ModelSolver ModelTraj
  SpecCom SpecCtr SpecSolver SpecTraj SpecEnd SpecBest SpecIgnore ProofBezier ProofCurve ProofWaypoints ProofCom2 ProofSolves PropertiesBest.
Open Scope R_scope.

(** A body at rest at the origin, to be brought to rest anywhere. *)
Definition stop_pb (c : vec3) : problem :=
  Problem [Contact (Some (CPhase [] 50 (V3 0 0 (-981/100)) [])) [] [] [] []] vzero vzero vzero vzero c vzero vzero vzero vzero false
    (Constraints F_capture false 0 0) DISTANCE_TRAVELED DOUBLE_DESCRIPTION.

Lemma stop_plan scaled wg quadprog glpk c : qp_solves quadprog -> exists r,
  computeCOMTrajFixedSize scaled wg quadprog glpk (stop_pb c) [1] 1 = Ok r /\ rc_success r = true /\ rc_x r = l3 (vscal (1 / 2) c) /\
  cv_fun (rc_c r) 1 = vscal (1 / 2) c.
Proof.
  intros QS. set (x := vscal (1 / 2) c).
  assert (EC : exists cv, com_curve (stop_pb c) (total [1]) x = Ok cv /\ cv_fun cv 1 = x).
  { replace (total [1]) with 1 by (cbn; ring). unfold com_curve, computeConstantWaypoints. cbn -[x Rle_dec ModelWaypoints.c0_dc0_dc1_computeConstantWaypoints computeBezierCurve].
    unfold ModelWaypoints.c0_dc0_dc1_computeConstantWaypoints.
    assert (Z : vnorm (dc1 (stop_pb c)) = 0) by (cbn; unfold vnorm, vnorm2, vdot, vzero; cbn [vx vy vz]; replace (0 * 0 + 0 * 0 + 0 * 0) with 0 by ring; apply sqrt_0).
    destruct (Req_EM_T _ 0) as [_|N]; [|contradiction]. cbn [bind]. unfold computeBezierCurve. cbn -[x Rle_dec]. unfold mk_bezier. destruct (Rle_dec 1 0) as [L|L]; [lra|]. eexists. split; [reflexivity|].
    unfold cv_fun. cbn [bc_pts bc_T]. rewrite curve_at_T by lra. reflexivity. }
  destruct EC as (cv & EC & E1).
  assert (PL : plannable (stop_pb c) [1]).
  { split; [|split; [exists (V3 0 0 (-981/100)); intros d ph [<-|[]] E; injection E as <-; reflexivity|cbn; tauto]].
    repeat split; try (cbn; tauto); try discriminate; repeat constructor; try lra. all: cbn; try lra. eexists; repeat split; try reflexivity; cbn; try lra; constructor. }
  assert (B : best (stop_pb c) [1] (PerPhase 1) (computeDiscretizedTimeFixed [1] 1) x cv).
  { split; [exact EC|]. split.
    - intros i d t Hd _. destruct i as [|[|i]]; try discriminate Hd. injection Hd as <-. split; [|intros F; discriminate F].
      split; [intros [|] K k E; discriminate E|]. destruct (com_acc cv t) as (a & Ha). exists (CPhase [] 50 (V3 0 0 (-981/100)) []), a.
      split; [reflexivity|]. split; [exact Ha|constructor].
    - intros y cvy s s' _ _ [[_ ->]|[F _]] [[_ ->]|[F' _]]; try discriminate.
      assert (E : vsub x (mid_of (stop_pb c)) = vzero) by (destruct c; apply v3_eq; cbn; lra).
      rewrite E. unfold vnorm2, vdot, vzero; cbn [vx vy vz]. nra. }
  destruct (C90_found scaled wg quadprog glpk QS _ _ PL (PerPhase 1) _ x cv ltac:(cbn; lia) eq_refl (or_introl eq_refl) B) as (r & Er & S & Ex & Ecv).
  exists r. split; [exact Er|]. split; [exact S|]. split; [exact Ex|]. rewrite Ecv. exact E1.
Qed.

Lemma c113_refuted scaled wg quadprog glpk : qp_solves quadprog -> exists p c Ts n r r',
  In (flag_of p) com_flags /\ fl_has (flag_of p) END_POS = false /\
  computeCOMTrajFixedSize scaled wg quadprog glpk p Ts n = Ok r /\ rc_success r = true /\
  computeCOMTrajFixedSize scaled wg quadprog glpk (with_c1 p c) Ts n = Ok r' /\ rc_success r' = true /\
  cv_fun (rc_c r) (total Ts) <> cv_fun (rc_c r') (total Ts).
Proof.
  intros QS. exists (stop_pb vzero), (V3 1 0 0), [1], 1%nat.
  destruct (stop_plan scaled wg quadprog glpk vzero QS) as (r & E & S & _ & C).
  destruct (stop_plan scaled wg quadprog glpk (V3 1 0 0) QS) as (r' & E' & S' & _ & C').
  exists r, r'. split; [cbn; tauto|]. split; [reflexivity|]. split; [exact E|]. split; [exact S|]. split; [exact E'|]. split; [exact S'|].
  replace (total [1]) with 1 by (cbn; ring). rewrite C, C'. intros X. apply (f_equal vx) in X. cbn in X. lra.
Qed.
