(** Flag dispatch: rejection of unknown flags, and no out-of-range access. *)
From Verif Require Import Vec SpecBezier ModelData ModelWaypoints ModelWaypointsJerk ModelDispatch
  SpecCom ProofBezier ProofCurve ProofWaypoints.
Open Scope R_scope.

Lemma find_flag_throw {A} (tbl : list (Z * A)) f :
  ~ In f (map fst tbl) -> find_flag tbl f = Throw.
Proof.
  induction tbl as [|[k a] tbl IH]; intros H; [reflexivity|]. simpl in *.
  destruct (Z.eqb_spec k f) as [->|Hne]; [exfalso; apply H; left; reflexivity|].
  apply IH. intros Hin. apply H. right; exact Hin.
Qed.

(** The bits of each family's key. *)
Lemma keys_com : map fst compFinalVelPs = com_flags. Proof. reflexivity. Qed.
Lemma keys_eval : map fst evalCurveAtTimes = com_flags ++ [F_jerk]. Proof. reflexivity. Qed.
Lemma keys_acc : map fst evalAccCurveAtTimes = com_flags ++ [F_jerk]. Proof. reflexivity. Qed.
Lemma keys_w : map fst compWps = com_flags ++ [F_jerk]. Proof. reflexivity. Qed.
Lemma keys_cons : map fst compConsWps = com_flags ++ effector_flags. Proof. reflexivity. Qed.

Lemma c08_reject pData :
  (~ In (flag_of pData) (com_flags ++ [F_jerk]) -> forall T pi t,
     evaluateCurveAtTime pData pi t = Throw /\
     evaluateAccelerationCurveAtTime pData pi T t = Throw /\
     computeWwaypoints pData T = Throw) /\
  (~ In (flag_of pData) com_flags -> forall T, computeFinalVelocityPoint pData T = Throw) /\
  (~ In (flag_of pData) (com_flags ++ effector_flags) -> forall T,
     computeConstantWaypoints pData T = Throw /\ computeConstantWaypointsSymbolic pData T = Throw) /\
  (~ In (flag_of pData) effector_flags -> forall T pi t,
     evaluateCurveWaypointAtTime pData pi t = Throw /\
     evaluateVelocityCurveWaypointAtTime pData T pi t = Throw /\
     evaluateAccelerationCurveWaypointAtTime pData T pi t = Throw /\
     evaluateJerkCurveWaypointAtTime pData T pi t = Throw /\
     computeVelocityWaypoints pData T pi = Throw /\
     computeAccelerationWaypoints pData T pi = Throw /\
     computeJerkWaypoints pData T pi = Throw /\
     computeVelocityCost pData T pi = Throw).
Proof.
  split; [|split; [|split]].
  - intros H T pi t. unfold evaluateCurveAtTime, evaluateAccelerationCurveAtTime, computeWwaypoints.
    rewrite !find_flag_throw; auto; rewrite ?keys_eval, ?keys_acc, ?keys_w; exact H.
  - intros H T. unfold computeFinalVelocityPoint. rewrite find_flag_throw; auto.
  - intros H T. assert (G : computeConstantWaypoints pData T = Throw).
    { unfold computeConstantWaypoints. rewrite find_flag_throw; [reflexivity|]. rewrite keys_cons; exact H. }
    split; [exact G|]. unfold computeConstantWaypointsSymbolic. rewrite G. reflexivity.
  - intros H T pi t. repeat split;
    unfold evaluateCurveWaypointAtTime, evaluateVelocityCurveWaypointAtTime,
      evaluateAccelerationCurveWaypointAtTime, evaluateJerkCurveWaypointAtTime,
      computeVelocityWaypoints, computeAccelerationWaypoints, computeJerkWaypoints, computeVelocityCost;
    (rewrite find_flag_throw; [reflexivity|exact H]).
Qed.

Lemma all_flags_cases f : In f (com_flags ++ effector_flags) \/ ~ In f (com_flags ++ effector_flags).
Proof. destruct (in_dec Z.eq_dec f (com_flags ++ effector_flags)); auto. Qed.

Ltac nub := let H := fresh in intros H; cbn in H; discriminate H.

(** Every query on the waypoints of an accepted flag stays in range. *)
Lemma c09_ok pData T pi :
  computeConstantWaypoints pData T = Ok pi -> forall t x,
  evaluateCurveAtTime pData pi t <> UB /\
  evaluateAccelerationCurveAtTime pData pi T t <> UB /\
  evaluateCurveWaypointAtTime pData pi t <> UB /\
  evaluateVelocityCurveWaypointAtTime pData T pi t <> UB /\
  evaluateAccelerationCurveWaypointAtTime pData T pi t <> UB /\
  evaluateJerkCurveWaypointAtTime pData T pi t <> UB /\
  computeVelocityWaypoints pData T pi <> UB /\
  computeAccelerationWaypoints pData T pi <> UB /\
  computeJerkWaypoints pData T pi <> UB /\
  computeVelocityCost pData T pi <> UB /\
  computeFinalVelocityPoint pData T <> UB /\
  computeBezierCurve (flag_of pData) T pi x <> UB /\
  (front_gravity pData <> UB -> computeWwaypoints pData T <> UB).
Proof.
  intros Hpi t x.
  destruct (all_flags_cases (flag_of pData)) as [Hin|Hout].
  2:{ exfalso. unfold computeConstantWaypoints in Hpi.
      rewrite find_flag_throw in Hpi; [discriminate Hpi|rewrite keys_cons; exact Hout]. }
  unfold evaluateCurveAtTime, evaluateAccelerationCurveAtTime, evaluateCurveWaypointAtTime,
    evaluateVelocityCurveWaypointAtTime, evaluateAccelerationCurveWaypointAtTime,
    evaluateJerkCurveWaypointAtTime, computeVelocityWaypoints, computeAccelerationWaypoints,
    computeJerkWaypoints, computeVelocityCost, computeFinalVelocityPoint, computeWwaypoints.
  unfold computeConstantWaypoints in Hpi.
  in_cases Hin; rewrite Hin in *; clear Hin; cbn in Hpi.
  2: unfold c0_dc0_dc1_computeConstantWaypoints in Hpi; match type of Hpi with context [Req_EM_T ?a ?b] => destruct (Req_EM_T a b) as [H0|H0]; [|discriminate Hpi] end.
  all: injection Hpi; intros Hpi'; clear Hpi; rewrite <- Hpi'; clear Hpi' pi.
  all: repeat match goal with |- _ /\ _ => split end.
  all: try solve [lazy -[Rplus Rmult Ropp Rinv Rdiv Rminus IZR vadd vsub vscal vdivs vzero
          vnorm Req_EM_T sqrt blocks_norm]; discriminate].
  all: try solve [cbn -[mk_bezier]; unfold mk_bezier;
     match goal with |- (if ?b then _ else _) <> _ => destruct b; discriminate end].
  all: try solve [intros Hg; destruct (front_gravity pData) as [g| |] eqn:Eg;
     [lazy -[Rplus Rmult Ropp Rinv Rdiv Rminus IZR vadd vsub vscal vdivs vzero mscal madd msub mvmul mdivs
          vnorm Req_EM_T sqrt blocks_norm skew vcross front_gravity]; rewrite Eg; discriminate
     | lazy -[Rplus Rmult Ropp Rinv Rdiv Rminus IZR vadd vsub vscal vdivs vzero mscal madd msub mvmul mdivs
          vnorm Req_EM_T sqrt blocks_norm skew vcross front_gravity]; rewrite Eg; discriminate
     | contradiction]].
  - cbn -[c0_dc0_dc1_computeFinalVelocityPoint]. unfold c0_dc0_dc1_computeFinalVelocityPoint,
      c0_dc0_dc1_computeConstantWaypoints.
    destruct (Req_EM_T (vnorm (dc1 pData)) 0); discriminate.
  - intros Hg. cbn -[c0_dc0_dc1_computeWwaypoints]. unfold c0_dc0_dc1_computeWwaypoints,
      c0_dc0_dc1_computeConstantWaypoints.
    destruct (Req_EM_T (vnorm (dc1 pData)) 0); [|discriminate]. cbn [bind map].
    destruct (front_gravity pData) as [g| |]; [discriminate|discriminate|contradiction].
Qed.

(** computeConstantWaypoints itself never leaves the defined behaviour. *)
Lemma ccw_not_ub pData T : computeConstantWaypoints pData T <> UB.
Proof.
  destruct (all_flags_cases (flag_of pData)) as [Hin|Hout].
  - unfold computeConstantWaypoints. in_cases Hin; rewrite Hin; try discriminate.
    cbn. unfold c0_dc0_dc1_computeConstantWaypoints.
    destruct (Req_EM_T (vnorm (dc1 pData)) 0); discriminate.
  - unfold computeConstantWaypoints.
    rewrite find_flag_throw; [discriminate|rewrite keys_cons; exact Hout].
Qed.
