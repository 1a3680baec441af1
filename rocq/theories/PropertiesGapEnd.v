(** Property theorems C83: discretised plans made with the bundled solver meet the constraints at every instant, up
    to the accuracy of the solver and the square of the time between samples.  Vocabulary: SpecEnd.v ([on_scale],
    [plan_tol], ...), SpecEnd3.v (zero-step), SpecDec.v, SpecGap.v, SpecGap0.v, SpecGapEnd.v. *)
From Verif Require Import Vec SpecBezier SpecTime ModelData ModelDispatch ModelUtils ModelCom ModelCont ModelSolver ModelTraj Model0Step ModelQp
  SpecCom SpecWp SpecCtr SpecCont SpecSolver SpecTraj SpecQp Spec0Step SpecEnd SpecEnd3 SpecDec SpecGap SpecGap0 SpecGapEnd ProofGapEnd.
Open Scope R_scope.

(** [p] points per phase, flags with exact wrench formulas. *)
Theorem C83_fixed : forall scaled with_glpk mem glpk pData Ts p g G lam B kap,
  well_posed pData Ts -> (1 <= p)%nat -> same_gravity pData g -> within G g -> In (flag_of pData) exact_w_flags ->
  cost_weight pData Ts (computeDiscretizedTimeFixed Ts p) lam -> on_scale pData lam B kap ->
  (forall i t, sampled_fixed Ts p i t -> wrench_rate pData (total Ts) g B t) ->
  let tau := plan_tol (rows_needed (contacts pData) (fun _ => S p) 0 + acc_needed pData (length Ts * p + 1)) lam in
  exists r, computeCOMTrajFixedSize scaled with_glpk (solve_quadprog mem) glpk pData Ts p = Ok r /\
    (rc_success r = true -> plan_curve pData Ts r /\
     forall M, 0 <= M -> Forall (within M) (bc_pts (rc_c r)) ->
     forall i c d t, nth_error (contacts pData) i = Some c -> nth_error Ts i = Some d -> in_phase Ts i t ->
       let n := pred (length (bc_pts (rc_c r))) in let h := d / INR p in
       contact_between pData tau (gap_pos n (total Ts) M h) (tau * B + gap_wrench G n (total Ts) M h) c (cv_fun (rc_c r)) t /\
       SpecGap.accel_near pData (tau + gap_acc n (total Ts) M h) (cv_fun (rc_c r)) t).
Proof. exact c83_fixed. Qed.
Print Assumptions C83_fixed.

(** Steps of [dt]. *)
Theorem C83_step : forall scaled with_glpk mem glpk pData Ts dt g G lam B kap ta,
  well_posed pData Ts -> 0 < dt -> same_gravity pData g -> within G g -> In (flag_of pData) exact_w_flags ->
  computeDiscretizedTime Ts dt = Ok ta -> cost_weight pData Ts ta lam -> on_scale pData lam B kap ->
  (forall i t, sampled_step Ts dt i t -> wrench_rate pData (total Ts) g B t) ->
  exists ns r, length ns = length Ts /\ (forall i k, nth_error ns i = Some k -> steps_to (phase_start Ts i) (phase_end Ts i) dt k) /\
    computeCOMTraj scaled with_glpk (solve_quadprog mem) glpk pData Ts dt SOLVER_QUADPROG = Ok r /\
    let tau := plan_tol (rows_needed (contacts pData) (fun i => nth i ns 0 + (if Nat.eqb i 0 then 1 else 2)) 0
                         + acc_needed pData (fold_right Nat.add 0 (map S ns)))%nat lam in
    (rc_success r = true -> plan_curve pData Ts r /\
     forall M, 0 <= M -> Forall (within M) (bc_pts (rc_c r)) ->
     forall i c t, nth_error (contacts pData) i = Some c -> in_phase Ts i t ->
       let n := pred (length (bc_pts (rc_c r))) in
       contact_between pData tau (gap_pos n (total Ts) M dt) (tau * B + gap_wrench G n (total Ts) M dt) c (cv_fun (rc_c r)) t /\
       SpecGap.accel_near pData (tau + gap_acc n (total Ts) M dt) (cv_fun (rc_c r)) t).
Proof. exact c83_step. Qed.
Print Assumptions C83_step.

(** The two flags whose wrench formulas use decimals. *)
Theorem C83_fixed_decimal : forall scaled with_glpk mem glpk pData Ts g G M0 cv0 lam B kap,
  well_posed pData Ts -> same_gravity pData g -> within G g -> In (flag_of pData) dec_w_flags ->
  1 <= M0 -> com_curve pData (total Ts) vzero = Ok cv0 -> Forall (within M0) (bc_pts cv0) ->
  let B' := B + 2 * dec_slack G M0 (total Ts) in on_scale pData lam B' kap ->
  forall p, (1 <= p)%nat -> cost_weight pData Ts (computeDiscretizedTimeFixed Ts p) lam ->
  (forall i t, sampled_fixed Ts p i t -> wrench_rate pData (total Ts) g B t) ->
  let tau := plan_tol (rows_needed (contacts pData) (fun _ => S p) 0 + acc_needed pData (length Ts * p + 1)) lam in
  exists r, computeCOMTrajFixedSize scaled with_glpk (solve_quadprog mem) glpk pData Ts p = Ok r /\
    (rc_success r = true -> plan_curve pData Ts r /\
     forall M, 0 <= M -> Forall (within M) (bc_pts (rc_c r)) ->
     forall i c d t, nth_error (contacts pData) i = Some c -> nth_error Ts i = Some d -> in_phase Ts i t ->
       let n := pred (length (bc_pts (rc_c r))) in let h := d / INR p in
       contact_between pData tau (gap_pos n (total Ts) M h) (tau * B' + dec_slack G M (total Ts) + gap_wrench G n (total Ts) M h) c (cv_fun (rc_c r)) t /\
       SpecGap.accel_near pData (tau + gap_acc n (total Ts) M h) (cv_fun (rc_c r)) t).
Proof. exact c83_fixed_dec. Qed.
Print Assumptions C83_fixed_decimal.

Theorem C83_step_decimal : forall scaled with_glpk mem glpk pData Ts g G M0 cv0 lam B kap,
  well_posed pData Ts -> same_gravity pData g -> within G g -> In (flag_of pData) dec_w_flags ->
  1 <= M0 -> com_curve pData (total Ts) vzero = Ok cv0 -> Forall (within M0) (bc_pts cv0) ->
  let B' := B + 2 * dec_slack G M0 (total Ts) in on_scale pData lam B' kap ->
  forall dt ta, 0 < dt -> computeDiscretizedTime Ts dt = Ok ta -> cost_weight pData Ts ta lam ->
  (forall i t, sampled_step Ts dt i t -> wrench_rate pData (total Ts) g B t) ->
  exists ns r, length ns = length Ts /\ (forall i k, nth_error ns i = Some k -> steps_to (phase_start Ts i) (phase_end Ts i) dt k) /\
    computeCOMTraj scaled with_glpk (solve_quadprog mem) glpk pData Ts dt SOLVER_QUADPROG = Ok r /\
    let tau := plan_tol (rows_needed (contacts pData) (fun i => nth i ns 0 + (if Nat.eqb i 0 then 1 else 2)) 0
                         + acc_needed pData (fold_right Nat.add 0 (map S ns)))%nat lam in
    (rc_success r = true -> plan_curve pData Ts r /\
     forall M, 0 <= M -> Forall (within M) (bc_pts (rc_c r)) ->
     forall i c t, nth_error (contacts pData) i = Some c -> in_phase Ts i t ->
       let n := pred (length (bc_pts (rc_c r))) in
       contact_between pData tau (gap_pos n (total Ts) M dt) (tau * B' + dec_slack G M (total Ts) + gap_wrench G n (total Ts) M dt) c (cv_fun (rc_c r)) t /\
       SpecGap.accel_near pData (tau + gap_acc n (total Ts) M dt) (cv_fun (rc_c r)) t).
Proof. exact c83_step_dec. Qed.
Print Assumptions C83_step_decimal.

(** The zero-step planner. *)
Theorem C83_zero : forall with_glpk mem glpk pData Ts ct ph T dt M kap,
  z_posed pData Ts ct ph T ->
  forall N, z_steps T dt N -> (1 <= N)%nat -> z_on_scale pData ct ph T M kap ->
  let tau := z_tol (useAngularMomentum pData) (z_rows (useAngularMomentum pData) ct ph (N + 1)) in
  exists r, solve0step with_glpk (solve_quadprog mem) glpk pData Ts dt = Ok r /\
    (r0_success r = true -> exists x xL, z_plan pData T r x xL /\
      forall G M' L, within G (cp_gravity ph) ->
        within M' (c0 pData) -> within M' (vadd (c0 pData) (vscal (T / 3) (dc0 pData))) -> within M' x ->
        0 <= L -> (useAngularMomentum pData = true -> within L (l0 pData) /\ within L xL) ->
      forall t acc, 0 <= t <= T -> is_deriv_n 2 (cv_fun (r0_c r)) t acc ->
        cone0_near (tau + (cp_mass ph * gap_wrench G 3 T M' (T / INR N) + gap_momentum T L (T / INR N))) ph
          (giwL (cp_mass ph) (cp_gravity ph) (cv_fun (r0_c r) t) acc (dL_fun (r0_dL r) t))).
Proof. exact c83_zero. Qed.
Print Assumptions C83_zero.
