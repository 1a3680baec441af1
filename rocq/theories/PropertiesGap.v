(** Property theorems C81: the constraints of a discretised plan between its samples.  Vocabulary: SpecGap.v. *)
From Verif Require Import Vec SpecBezier SpecTime ModelData ModelDispatch ModelTraj SpecCom SpecCtr SpecCont SpecSolver SpecTraj SpecGap ProofGap2 ProofGap3.
Open Scope R_scope.

(** C81, steps of [dt]: throughout each phase the constraints hold up to terms proportional to [dt]^2. *)
Theorem C81_step : forall scaled with_glpk quadprog glpk, qp_sound quadprog -> lp_sound glpk ->
  forall pData Ts dt solver g G r M, well_posed pData Ts -> 0 < dt -> same_gravity pData g -> within G g -> In (flag_of pData) exact_w_flags ->
  computeCOMTraj scaled with_glpk quadprog glpk pData Ts dt solver = Ok r -> rc_success r = true ->
  0 <= M -> Forall (within M) (bc_pts (rc_c r)) ->
  forall i c t, nth_error (contacts pData) i = Some c -> in_phase Ts i t ->
    let n := pred (length (bc_pts (rc_c r))) in
    contact_near pData (gap_pos n (total Ts) M dt) (gap_wrench G n (total Ts) M dt) c (cv_fun (rc_c r)) t /\
    accel_near pData (gap_acc n (total Ts) M dt) (cv_fun (rc_c r)) t.
Proof. exact c81_step. Qed.
Print Assumptions C81_step.
Theorem C81_step_decimal : forall scaled with_glpk quadprog glpk, qp_sound quadprog -> lp_sound glpk ->
  forall pData Ts dt solver g G r M, well_posed pData Ts -> 0 < dt -> same_gravity pData g -> within G g -> In (flag_of pData) dec_w_flags ->
  computeCOMTraj scaled with_glpk quadprog glpk pData Ts dt solver = Ok r -> rc_success r = true ->
  0 <= M -> Forall (within M) (bc_pts (rc_c r)) ->
  forall i c t, nth_error (contacts pData) i = Some c -> in_phase Ts i t ->
    let n := pred (length (bc_pts (rc_c r))) in
    contact_near pData (gap_pos n (total Ts) M dt)
      (3 * (err_force M (total Ts) + err_moment G M (total Ts)) + gap_wrench G n (total Ts) M dt) c (cv_fun (rc_c r)) t /\
    accel_near pData (gap_acc n (total Ts) M dt) (cv_fun (rc_c r)) t.
Proof. exact c81_step_dec. Qed.
Print Assumptions C81_step_decimal.

(** C81, [p] points per phase: samples of a phase of duration [d] are [d / p] apart. *)
Theorem C81_fixed : forall scaled with_glpk quadprog glpk, qp_sound quadprog -> lp_sound glpk ->
  forall pData Ts p g G r M, well_posed pData Ts -> (1 <= p)%nat -> same_gravity pData g -> within G g -> In (flag_of pData) exact_w_flags ->
  computeCOMTrajFixedSize scaled with_glpk quadprog glpk pData Ts p = Ok r -> rc_success r = true ->
  0 <= M -> Forall (within M) (bc_pts (rc_c r)) ->
  forall i c d t, nth_error (contacts pData) i = Some c -> nth_error Ts i = Some d -> in_phase Ts i t ->
    let n := pred (length (bc_pts (rc_c r))) in
    contact_near pData (gap_pos n (total Ts) M (d / INR p)) (gap_wrench G n (total Ts) M (d / INR p)) c (cv_fun (rc_c r)) t /\
    accel_near pData (gap_acc n (total Ts) M (d / INR p)) (cv_fun (rc_c r)) t.
Proof. exact c81_fixed. Qed.
Print Assumptions C81_fixed.
Theorem C81_fixed_decimal : forall scaled with_glpk quadprog glpk, qp_sound quadprog -> lp_sound glpk ->
  forall pData Ts p g G r M, well_posed pData Ts -> (1 <= p)%nat -> same_gravity pData g -> within G g -> In (flag_of pData) dec_w_flags ->
  computeCOMTrajFixedSize scaled with_glpk quadprog glpk pData Ts p = Ok r -> rc_success r = true ->
  0 <= M -> Forall (within M) (bc_pts (rc_c r)) ->
  forall i c d t, nth_error (contacts pData) i = Some c -> nth_error Ts i = Some d -> in_phase Ts i t ->
    let n := pred (length (bc_pts (rc_c r))) in
    contact_near pData (gap_pos n (total Ts) M (d / INR p))
      (3 * (err_force M (total Ts) + err_moment G M (total Ts)) + gap_wrench G n (total Ts) M (d / INR p)) c (cv_fun (rc_c r)) t /\
    accel_near pData (gap_acc n (total Ts) M (d / INR p)) (cv_fun (rc_c r)) t.
Proof. exact c81_fixed_dec. Qed.
Print Assumptions C81_fixed_decimal.

(** Between samples the constraints need not hold: there is a problem all of whose plans violate the kinematic
    constraints at some time. *)
Theorem C81_refuted : exists pData Ts p g, well_posed pData Ts /\ (1 <= p)%nat /\ same_gravity pData g /\ In (flag_of pData) exact_w_flags /\
  (forall scaled with_glpk quadprog glpk r, qp_sound quadprog -> lp_sound glpk ->
     computeCOMTrajFixedSize scaled with_glpk quadprog glpk pData Ts p = Ok r -> rc_success r = true ->
     exists i c t, nth_error (contacts pData) i = Some c /\ in_phase Ts i t /\ ~ kin_ok c (cv_fun (rc_c r) t)) /\
  (forall scaled with_glpk, exists quadprog glpk r, qp_sound quadprog /\ lp_sound glpk /\
     computeCOMTrajFixedSize scaled with_glpk quadprog glpk pData Ts p = Ok r /\ rc_success r = true).
Proof. exact gap_refuted. Qed.
Print Assumptions C81_refuted.
