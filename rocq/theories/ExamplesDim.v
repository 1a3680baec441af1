(** Concrete inputs for the theorems of PropertiesDim.v. *)
From Coq Require Import List ZArith Reals Lia.
From Verif Require Import Vec ModelData ModelDispatch SpecCom SpecEff PropertiesDim.
Import ListNotations.
Open Scope R_scope.

Definition dim_pb (fl : Z) : problem :=
  Problem [] vzero vzero vzero vzero vzero vzero vzero vzero vzero false (Constraints fl false 0 0) 0 0.
(** Position and velocity at both ends (1 + 2 + 8 + 16), four free points. *)
Example ex_C106_count : dimVar (dim_pb (27 + 1024)%Z) = 12%nat.
Proof.
  apply Nat2Z.inj. refine (C106_count (dim_pb (27 + 1024)%Z) 27 4 1024 ltac:(lia) _ eq_refl). cbn; tauto.
Qed.
Example ex_C106_planned : In (flag_of (dim_pb F_x5)) effector_flags /\ dimVar (dim_pb F_x5) = 15%nat.
Proof. split; [cbn; tauto|]. exact (proj2 (C106_planned (dim_pb F_x5)) ltac:(cbn; tauto)). Qed.
