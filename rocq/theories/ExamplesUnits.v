(** Concrete inputs for the theorems of PropertiesUnits.v. *)
From Coq Require Import List Reals Lra Lia.
From Verif Require Import Vec SpecBezier SpecTime ModelData ModelDispatch ModelUtils ModelCont ModelSolver ModelTraj
  SpecCom SpecCtr SpecTraj SpecEnd SpecBest SpecUnits ProofSolves ProofCurve PropertiesBest PropertiesUnits ExamplesCom ExamplesTraj ExamplesSolves ExamplesBest ExamplesMove.
Import ListNotations.
Open Scope R_scope.

(** milliseconds: with a margin *)
Example ex_C94_time : exists r, call true false exact_solver no_lp (units 1 1000 be_easy) (map (Rmult 1000) [1; 1/2]) (PerPhase 2) = Ok r /\ rc_success r = true /\
  0 < margin be_easy.
Proof.
  destruct ex_C91_eases as (_ & _ & _ & r & E & S).
  destruct (C94_plan 1 1000 ltac:(lra) ltac:(lra) be_easy [1; 1/2] (be_plannable _ (or_intror eq_refl)) (or_introl eq_refl)
    true false exact_solver no_lp exact_solves exact_sound no_lp_sound (PerPhase 2) _ r ltac:(cbn; lia) eq_refl (or_introl eq_refl) E S) as (r' & x & E' & S' & _).
  exists r'. split; [exact E'|]. split; [exact S'|]. unfold margin; cbn. rewrite Rmax_right; lra.
Qed.
(** millimetres and milliseconds: without *)
Lemma mv_length l : length_free mv_pb l.
Proof. right. destruct (mv_shifts (V3 1 0 0)) as [E|E]; [injection E; lra|exact E]. Qed.
Example ex_C94_length : exists r, call true false exact_solver no_lp (units 1000 1000 mv_pb) (map (Rmult 1000) [1; 1/2]) (PerPhase 2) = Ok r /\ rc_success r = true /\
  vz (c0 (units 1000 1000 mv_pb)) = 800.
Proof.
  destruct ex_C90 as (_ & r & E & S & _).
  destruct (C91_eases true false exact_solver no_lp exact_solves exact_sound no_lp_sound (st_pb DISTANCE_TRAVELED) mv_pb [1; 1/2] (st_plannable _) mv_plannable
    (PerPhase 4) (PerPhase 2) (computeDiscretizedTimeFixed [1; 1/2] 2) r mv_eases ltac:(cbn; lia) ltac:(cbn; lia) ltac:(exists 2%nat; split; [lia|reflexivity]) eq_refl (or_introl eq_refl) E S) as (r1 & _ & _ & _ & _ & E1 & S1 & _).
  destruct (C94_plan 1000 1000 ltac:(lra) ltac:(lra) mv_pb [1; 1/2] mv_plannable (mv_length _)
    true false exact_solver no_lp exact_solves exact_sound no_lp_sound (PerPhase 2) _ r1 ltac:(cbn; lia) eq_refl (or_introl eq_refl) E1 S1) as (r' & x & E' & S' & _).
  exists r'. split; [exact E'|]. split; [exact S'|]. cbv [units c0 mv_pb vscal vz]. lra.
Qed.
