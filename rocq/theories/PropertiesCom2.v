(** Property theorems C46 and C47 with a time step.  Vocabulary: SpecBezier.v, SpecTime.v, SpecCom.v, SpecCtr.v. *)
From Verif Require Import Vec SpecBezier SpecTime ModelData ModelDispatch ModelUtils ModelRows ModelCom ModelCont
  SpecCom SpecWp SpecCtr SpecCont ProofCom4 ProofComFlag.
Open Scope R_scope.

(** C46: with a time step, phase 0's gravity [g0] is used at every sampled time of phase i, and at its start the constraint
    holds with phase i's gravity in the force part as well. *)
Theorem C46_gravity_used_step : forall pData Ts dt g0, well_posed pData Ts -> 0 < dt ->
  front_gravity pData = Ok g0 -> In (flag_of pData) exact_w_flags -> exists ta rows,
  computeDiscretizedTime Ts dt = Ok ta /\ computeConstraintsOneStep pData Ts (total Ts) ta = Ok rows /\
  forall x cv, com_curve pData (total Ts) x = Ok cv ->
    (sat rows x <-> forall i c ph t, nth_error (contacts pData) i = Some c -> cd_phase c = Some ph -> sampled_step Ts dt i t ->
       kin_ok c (cv_fun cv t) /\ accel_ok pData (cv_fun cv) t /\
       exists acc, is_deriv_n 2 (cv_fun cv) t acc /\
         cone_ok (margin pData) 0 ph (giw2 (cp_mass ph) g0 g0 (cv_fun cv t) acc) /\
         ((0 < i)%nat /\ t = phase_start Ts i -> cone_ok (margin pData) 0 ph (giw2 (cp_mass ph) (cp_gravity ph) g0 (cv_fun cv t) acc))).
Proof. exact c46_step. Qed.
Print Assumptions C46_gravity_used_step.

(** C47: the discretised formulation limits the acceleration exactly if the flag is set. *)
Theorem C47_discretised_uses_flag_step : forall pData Ts dt g,
  well_posed pData Ts -> 0 < dt -> same_gravity pData g -> In (flag_of pData) exact_w_flags ->
  exists ta rows1 rows0, computeDiscretizedTime Ts dt = Ok ta /\
  computeConstraintsOneStep (with_acc_flag pData true) Ts (total Ts) ta = Ok rows1 /\
  computeConstraintsOneStep (with_acc_flag pData false) Ts (total Ts) ta = Ok rows0 /\
  forall x cv, com_curve pData (total Ts) x = Ok cv ->
    (sat rows0 x <-> forall i c t, nth_error (contacts pData) i = Some c -> sampled_step Ts dt i t -> contact_ok pData 0 c (cv_fun cv) t) /\
    (sat rows1 x <-> sat rows0 x /\ forall i c t, nth_error (contacts pData) i = Some c -> sampled_step Ts dt i t ->
       accel_within (k_maxAcceleration (constr pData)) (cv_fun cv) t).
Proof. exact c47_step. Qed.
Print Assumptions C47_discretised_uses_flag_step.
