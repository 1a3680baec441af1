(** Concrete inputs for the theorems of PropertiesMove.v. *)
From Coq Require Import List Reals Lra Lia.
From Verif Require Import Vec SpecBezier SpecTime ModelData ModelDispatch ModelUtils ModelCont ModelSolver ModelTraj
  SpecCom SpecCtr SpecTraj SpecEnd SpecBest SpecMove ProofSolves ProofCurve ProofMove2 PropertiesBest PropertiesMove ExamplesCom ExamplesTraj ExamplesSolves ExamplesBest.
Import ListNotations.
Open Scope R_scope.

(** turned only: with a margin and an offset of 1 *)
Example ex_C92_turn : exists r, call true false exact_solver no_lp (move ax_Q vzero be_easy) [1; 1/2] (PerPhase 2) = Ok r /\ rc_success r = true.
Proof.
  destruct ex_C91_eases as (_ & _ & _ & r & E & S).
  destruct (C92_plan ax_Q vzero ax_rotation be_easy [1; 1/2] (be_plannable _ (or_intror eq_refl)) ltac:(discriminate) (or_introl eq_refl)
    true false exact_solver no_lp exact_solves exact_sound no_lp_sound (PerPhase 2) _ r ltac:(cbn; lia) eq_refl (or_introl eq_refl) E S) as (r' & x & E' & S' & _).
  exists r'. split; assumption.
Qed.
(** turned and shifted, with neither *)
Definition mv_pb : problem :=
  Problem [be_c0; Contact (Some (ex_ph [])) [V3 0 0 1] [1] [] []] (V3 0 0 (4/5)) vzero vzero vzero (V3 0 0 (4/5)) vzero vzero vzero vzero false
    (Constraints F_c1 false 5 0) DISTANCE_TRAVELED DOUBLE_DESCRIPTION.
Lemma mv_plannable : plannable mv_pb [1; 1/2].
Proof.
  split; [split; [cbn; tauto|]; split; [reflexivity|]; split; [discriminate|];
    split; [repeat constructor; lra|]; split; [reflexivity|];
    repeat constructor; eexists; (split; [reflexivity|]; split; [cbn; lra|]; split; [|cbn; lia]);
    repeat constructor; cbn; intros E; injection E; intros; lra|].
  split; [exists (V3 0 0 (-981/100)); intros c ph [<-|[<-|[]]] H; injection H as <-; reflexivity|cbn; tauto].
Qed.
Lemma mv_shifts v : shifts_freely mv_pb v.
Proof.
  right. assert (M : margin mv_pb = 0) by (unfold margin; cbn; apply Rmax_left; lra). rewrite M.
  intros c ph Hh [<-|[<-|[]]] E; injection E as <-; [intros [<-|[<-|[<-|[]]]]; reflexivity|intros []].
Qed.
Lemma mv_eases : eases (st_pb DISTANCE_TRAVELED) mv_pb.
Proof.
  split; [repeat split|]. split.
  - constructor; [exact be_to|constructor; [|constructor]]. split; [intros w Hw; exact Hw|].
    intros ph E. injection E as <-. eexists. split; [reflexivity|]. split; [cbn; lra|]. split; [cbn; lra|]. split; [reflexivity|]. intros K k [].
  - split; [unfold margin; cbn; rewrite Rmax_left, Rmax_right; lra|]. discriminate.
Qed.
Example ex_C92_move : exists r, call true false exact_solver no_lp (move ax_Q (V3 1 2 3) mv_pb) [1; 1/2] (PerPhase 2) = Ok r /\ rc_success r = true /\
  c0 (move ax_Q (V3 1 2 3) mv_pb) <> c0 mv_pb.
Proof.
  destruct ex_C90 as (_ & r & E & S & _).
  destruct (C91_eases true false exact_solver no_lp exact_solves exact_sound no_lp_sound (st_pb DISTANCE_TRAVELED) mv_pb [1; 1/2] (st_plannable _) mv_plannable
    (PerPhase 4) (PerPhase 2) (computeDiscretizedTimeFixed [1; 1/2] 2) r mv_eases ltac:(cbn; lia) ltac:(cbn; lia) ltac:(exists 2%nat; split; [lia|reflexivity]) eq_refl (or_introl eq_refl) E S) as (r1 & _ & _ & _ & _ & E1 & S1 & _).
  destruct (C92_plan ax_Q (V3 1 2 3) ax_rotation mv_pb [1; 1/2] mv_plannable ltac:(discriminate) (mv_shifts _)
    true false exact_solver no_lp exact_solves exact_sound no_lp_sound (PerPhase 2) _ r1 ltac:(cbn; lia) eq_refl (or_introl eq_refl) E1 S1) as (r' & x & E' & S' & _).
  exists r'. split; [exact E'|]. split; [exact S'|]. intros F. apply (f_equal vx) in F. cbv [move c0 mv_pb place vadd mvmul ax_Q vdot row0 row1 row2 vx vy vz] in F. lra.
Qed.
