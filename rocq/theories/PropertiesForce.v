(** Property theorems C73: continuous plans in the force formulation, made with the
    bundled QP solver.  Vocabulary: SpecForce.v; SpecCtr.v, SpecCont.v, SpecEnd.v and
    SpecEnd2.v for the constraints of a plan and the rates.  [mem] is whatever the
    solver's vectors contain beforehand. *)
From Verif Require Import Vec SpecBezier SpecTime ModelData ModelDispatch ModelUtils ModelCont ModelSolver ModelTraj ModelQp
  SpecCom SpecCtr SpecCont SpecTraj SpecEnd SpecEnd2 SpecForce ProofForce4.
Open Scope R_scope.

(** A call returns, and a plan it calls successful is a motion of the family.  Where
    a phase keeps the control points of its wrench, contact forces balance the motion
    at every instant of it up to the solver's tolerance; the kinematic constraints and
    the acceleration bound hold up to that tolerance. *)
Theorem C73_plan : forall scaled with_glpk mem glpk pData Ts dt g lam B kap s pi ws,
  well_posed pData Ts -> splittable Ts -> dt <= 0 -> same_gravity pData g ->
  representation pData <> DOUBLE_DESCRIPTION -> In (flag_of pData) exact_w_flags ->
  computeConstantWaypoints pData (total Ts) = Ok pi -> computeWwaypoints pData (total Ts) = Ok ws ->
  cost_weight pData Ts (computeDiscretizedTimeFixed Ts 7) lam -> force_scale pData lam B kap s ->
  acc_ctrl_rate scaled Ts <= B -> wrench_ctrl_rate pData (total Ts) g (length ws) B ->
  let tau := force_tol (force_vars (force_counts (length ws) 0 (contacts pData)))
               (cont_rows_needed false (length pi) (length ws) (contacts pData)) lam in
  exists r, computeCOMTraj scaled with_glpk (solve_quadprog mem) glpk pData Ts dt SOLVER_QUADPROG = Ok r /\
    (rc_success r = true -> plan_curve pData Ts r /\
      (forall i c ph t acc, nth_error (contacts pData) i = Some c -> cd_phase c = Some ph ->
         ~ left_to_prev (contacts pData) i -> ~ left_to_next (contacts pData) i -> in_phase Ts i t ->
         is_deriv_n 2 (cv_fun (rc_c r)) t acc ->
         near_cone (tau * gen_len (cp_G ph)) (cp_G ph) (giw (cp_mass ph) (cp_gravity ph) (cv_fun (rc_c r) t) acc)) /\
      (plan_no_zero_point r -> forall i c t, nth_error (contacts pData) i = Some c -> in_phase Ts i t ->
         kin_near tau c (cv_fun (rc_c r) t) /\
         accel_within (acc_bound_near scaled pData Ts tau) (cv_fun (rc_c r)) t)).
Proof. exact c73_plan. Qed.
Print Assumptions C73_plan.

(** With nested cones contact forces balance the motion at every instant of every
    phase. *)
Theorem C73_nested : forall scaled with_glpk mem glpk pData Ts dt g lam B kap s pi ws,
  well_posed pData Ts -> splittable Ts -> dt <= 0 -> same_gravity pData g ->
  representation pData <> DOUBLE_DESCRIPTION -> In (flag_of pData) exact_w_flags ->
  computeConstantWaypoints pData (total Ts) = Ok pi -> computeWwaypoints pData (total Ts) = Ok ws ->
  cost_weight pData Ts (computeDiscretizedTimeFixed Ts 7) lam -> force_scale pData lam B kap s ->
  acc_ctrl_rate scaled Ts <= B -> wrench_ctrl_rate pData (total Ts) g (length ws) B ->
  forall E, long_phases Ts -> cones_nested (contacts pData) ->
  (forall c ph, In c (contacts pData) -> cd_phase c = Some ph -> gen_len (cp_G ph) <= E * cp_mass ph) ->
  let tau := force_tol (force_vars (force_counts (length ws) 0 (contacts pData)))
               (cont_rows_needed false (length pi) (length ws) (contacts pData)) lam in
  exists r, computeCOMTraj scaled with_glpk (solve_quadprog mem) glpk pData Ts dt SOLVER_QUADPROG = Ok r /\
    (rc_success r = true -> forall i c ph t acc, nth_error (contacts pData) i = Some c -> cd_phase c = Some ph ->
       in_phase Ts i t -> is_deriv_n 2 (cv_fun (rc_c r)) t acc ->
       near_cone (tau * E * cp_mass ph) (cp_G ph) (giw (cp_mass ph) (cp_gravity ph) (cv_fun (rc_c r) t) acc)).
Proof. exact c73_nested. Qed.
Print Assumptions C73_nested.
