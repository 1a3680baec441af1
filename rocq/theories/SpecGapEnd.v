(** Specification: constraints between the samples of a plan made with a solver of limited accuracy.
    Independent of the model. *)
From Verif Require Import Vec SpecBezier ModelData SpecCom SpecCtr SpecGap.
Open Scope R_scope.

(** The constraints of contact [ct] hold at time [t] up to the tolerance [tau] of the solver and the distance
    [dk] that a coordinate of the motion can deviate (kinematics), and up to the slack [sl] (wrench). *)
Definition contact_between (pData : problem) (tau dk sl : R) (ct : contact) (f : R -> vec3) (t : R) : Prop :=
  (forall i K k, nth_error (cd_Kin ct) i = Some K -> nth_error (cd_kin ct) i = Some k -> vdot K (f t) <= k + tau + norm1 K * dk) /\
  exists ph acc, cd_phase ct = Some ph /\ is_deriv_n 2 f t acc /\
    cone_ok (margin pData) sl ph (giw (cp_mass ph) (cp_gravity ph) (f t) acc).
