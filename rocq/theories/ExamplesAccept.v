(** Concrete inputs for the theorems of PropertiesAccept.v: standing still at (0,0,4/5) (ExamplesTraj.v) in two phases. *)
From Coq Require Import List Reals Lra Lia.
From Verif Require Import Vec SpecBezier SpecTime ModelData ModelDispatch ModelUtils ModelCont ModelSolver ModelTraj
  SpecCom SpecWp SpecCtr SpecCont SpecTraj SpecEnd SpecEnd2 SpecBest ProofCurve ProofWaypoints ProofCont7 ProofSolves PropertiesTraj PropertiesAccept ExamplesCom ExamplesTraj ExamplesEnd2 ExamplesBest.
Import ListNotations.
Open Scope R_scope.

(** the continuous plan exists, and so do discretised ones with any number of points *)
Example ex_C97 : exists r, computeCOMTraj true false exact_solver no_lp (st_pb DISTANCE_TRAVELED) [1; 1/2] (-1) SOLVER_QUADPROG = Ok r /\ rc_success r = true /\
  plan_no_zero_point r /\ forall n, (1 <= n)%nat ->
  exists r', call true false exact_solver no_lp (st_pb DISTANCE_TRAVELED) [1; 1/2] (PerPhase n) = Ok r' /\ rc_success r' = true.
Proof.
  destruct st_ws as (ws & Ews & Lws).
  assert (NZ : forall p, In p (bc_pts st_cv) -> p = st_x) by (intros p [<-|[<-|[<-|[<-|[]]]]]; reflexivity).
  destruct (C97_found true false exact_solver no_lp exact_solves (st_pb DISTANCE_TRAVELED) [1; 1/2] (-1) ws st_x st_cv (st_plannable _) st_long ltac:(lra) eq_refl (or_introl eq_refl) Ews
    (st_curve _) (fun p Hp _ => NZ p Hp) ltac:(rewrite Lws; apply st_ctrl)) as (r & x & s & s' & E & S & X & _).
  exists r. split; [exact E|]. split; [exact S|].
  destruct (C17_plan_kinematics true false exact_solver no_lp exact_sound no_lp_sound (st_pb DISTANCE_TRAVELED) [1; 1/2] (-1) _ r (st_wp _) (long_split _ st_long) ltac:(lra) E S) as ((_ & (y & Hy & Hcv) & _) & _).
  assert (N : plan_no_zero_point r).
  { rewrite st_total in Hcv. cbv [com_curve] in Hcv. cbn in Hcv. unfold mk_bezier in Hcv. destruct (Rle_dec (3/2) 0); [lra|]. injection Hcv as Hcv.
    assert (Z : forall q, vz q = 4/5 -> vec_isZero q = true -> False).
    { intros q Hq. unfold vec_isZero, coeff_isZero, isZero_prec. rewrite Hq, (Rabs_right (4/5)) by lra. destruct (Rle_dec (4/5) _); [lra|]. rewrite Bool.andb_false_r. discriminate. }
    intros q Hq HZ. rewrite <- Hcv in Hq. cbn [bc_pts In] in Hq. rewrite Hy.
    destruct Hq as [<-|[<-|[<-|[<-|[]]]]]; [exfalso|exfalso|reflexivity|exfalso]; (eapply Z; [|exact HZ]); cbn; lra. }
  split; [exact N|]. intros n Hn.
  destruct (C97_accepted true false exact_solver no_lp exact_solves exact_sound no_lp_sound (st_pb DISTANCE_TRAVELED) [1; 1/2] (-1) _ r (PerPhase n) _ (st_plannable _) (long_split _ st_long)
    ltac:(lra) eq_refl (or_introl eq_refl) (or_intror (or_introl eq_refl)) Hn eq_refl E S N) as (_ & r' & _ & _ & _ & _ & E' & S' & _).
  exists r'. split; assumption.
Qed.
