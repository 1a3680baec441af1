(** Property theorems C82: the wrench of a discretised zero-step plan between its samples.
    Vocabulary: Spec0Step.v, SpecEnd3.v ([cone0_near]), SpecGap.v,
    SpecGap0.v. *)
From Verif Require Import Vec SpecBezier ModelData ModelDispatch ModelCont ModelSolver ModelTraj Model0Step
  SpecCom SpecWp SpecCtr SpecSolver SpecTraj Spec0Step SpecEnd3 SpecGap SpecGap0 ProofGap0.
Open Scope R_scope.

(** [M] bounds the coordinates of the four control points of the motion, [L] those of the angular momentum and
    [G] those of gravity.  The samples are [T / N] apart. *)
Theorem C82_gap : forall with_glpk quadprog glpk pData Ts ct ph T dt, z_posed pData Ts ct ph T ->
  forall r N, qp_sound quadprog -> z_steps T dt N -> (1 <= N)%nat ->
  solve0step with_glpk quadprog glpk pData Ts dt = Ok r -> r0_success r = true -> exists x xL,
  z_plan pData T r x xL /\
  forall G M L, within G (cp_gravity ph) ->
    within M (c0 pData) -> within M (vadd (c0 pData) (vscal (T / 3) (dc0 pData))) -> within M x ->
    0 <= L -> (useAngularMomentum pData = true -> within L (l0 pData) /\ within L xL) ->
  forall t acc, 0 <= t <= T -> is_deriv_n 2 (cv_fun (r0_c r)) t acc ->
    cone0_near (cp_mass ph * gap_wrench G 3 T M (T / INR N) + gap_momentum T L (T / INR N)) ph
      (giwL (cp_mass ph) (cp_gravity ph) (cv_fun (r0_c r) t) acc (dL_fun (r0_dL r) t)).
Proof. exact c82_gap. Qed.
Print Assumptions C82_gap.

(** Between samples the wrench need not be in the cone: there is a problem all of whose plans leave it. *)
Theorem C82_refuted : exists pData ct ph, z_posed pData [1] ct ph 1 /\ z_steps 1 1 1 /\
  (forall with_glpk quadprog glpk r, qp_sound quadprog ->
     solve0step with_glpk quadprog glpk pData [1] 1 = Ok r -> r0_success r = true ->
     exists t acc, 0 <= t <= 1 /\ is_deriv_n 2 (cv_fun (r0_c r)) t acc /\
       ~ cone0 ph (giwL (cp_mass ph) (cp_gravity ph) (cv_fun (r0_c r) t) acc (dL_fun (r0_dL r) t))) /\
  (forall with_glpk glpk, exists quadprog r, qp_sound quadprog /\
     solve0step with_glpk quadprog glpk pData [1] 1 = Ok r /\ r0_success r = true).
Proof. exact gap0_refuted. Qed.
Print Assumptions C82_refuted.
