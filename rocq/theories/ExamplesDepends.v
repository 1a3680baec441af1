(** Concrete inputs for the theorems of PropertiesDepends.v. *)
From Coq Require Import List Reals Lra Lia.
From Verif Require Import Vec SpecBezier SpecTime ModelData ModelDispatch ModelUtils ModelCont ModelSolver ModelTraj ModelQp
  SpecCom SpecCtr SpecTraj SpecEnd SpecBest PropertiesDepends ExamplesCom ExamplesTraj ExamplesBest.
Import ListNotations.
Open Scope R_scope.

(** two phases sampled only at their ends *)
Example ex_C96_six : acc_depends (st_pb ACCELERATION) [1; 1/2] (computeDiscretizedTimeFixed [1; 1/2] 1) /\
  cost_decides (st_pb ACCELERATION) [1; 1/2] (computeDiscretizedTimeFixed [1; 1/2] 1).
Proof.
  split; [apply (C96_six (st_pb ACCELERATION) [1; 1/2] (PerPhase 1)); [apply st_wp|discriminate|cbn; lia|reflexivity]|].
  apply (C96_decides (st_pb ACCELERATION) [1; 1/2] (PerPhase 1)); [apply st_plannable|right; reflexivity|cbn; lia|reflexivity].
Qed.
(** both ends prescribed up to the acceleration, with contact and kinematic constraints *)
Definition dp_pb : problem :=
  Problem [Contact (Some (ex_ph [((V3 2 0 1, vzero), 0)])) [V3 0 0 1] [1] [] []] (V3 0 0 (4/5)) vzero vzero vzero (V3 1 0 (4/5)) vzero vzero vzero vzero false
    (Constraints F_acc_all true 5 (1/10)) ACCELERATION DOUBLE_DESCRIPTION.
Lemma dp_wp : well_posed dp_pb [2].
Proof.
  split; [cbn; tauto|]; split; [discriminate|]; split; [discriminate|]; split; [repeat constructor; lra|]; split; [reflexivity|].
  repeat constructor; eexists; (split; [reflexivity|]; split; [cbn; lra|]; split; [|cbn; lia]); repeat constructor; cbn; intros E; injection E; intros; lra.
Qed.
Lemma dp_grav : exists g, same_gravity dp_pb g.
Proof. eexists. intros c ph [<-|[]] H; injection H as <-; reflexivity. Qed.
Example ex_C96_ends : forall mem, computeCOMTrajFixedSize true false (solve_quadprog mem) no_lp dp_pb [2] 1 = UB.
Proof. intros mem. apply (C96_ends_refuted dp_pb 2 dp_wp dp_grav eq_refl eq_refl). Qed.
(** one sample more, in the middle, is enough *)
Example ex_C96_seventh : acc_depends dp_pb [2] (computeDiscretizedTimeFixed [2] 2).
Proof.
  apply (C96_seventh dp_pb [2] _ dp_wp eq_refl). exists (1, 0%Z). split; [|cbn; lra].
  right. left. cbn. f_equal. lra.
Qed.
