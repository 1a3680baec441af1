(** Concrete inputs for the theorems of PropertiesBest.v. *)
From Coq Require Import List Reals Lra Lia.
From Verif Require Import Vec SpecBezier SpecTime ModelData ModelDispatch ModelUtils ModelCont ModelSolver ModelTraj
  SpecCom SpecCtr SpecTraj SpecEnd SpecBest ProofSolves ProofCurve PropertiesBest ExamplesCom ExamplesTraj ExamplesSolves.
Import ListNotations.
Open Scope R_scope.

Lemma st_plannable cost : plannable (st_pb cost) [1; 1/2].
Proof. split; [apply st_wp|]. split; [exists (V3 0 0 (-981/100)); apply st_same|]. cbn; tauto. Qed.
Lemma dist_decides p Ts ta : costFunction p = DISTANCE_TRAVELED -> cost_decides p Ts ta.
Proof. left. assumption. Qed.

(** standing still is the best plan, and what is returned *)
Example ex_C90 : (exists x cv, best (st_pb DISTANCE_TRAVELED) [1; 1/2] (PerPhase 4) (computeDiscretizedTimeFixed [1; 1/2] 4) x cv) /\
  exists r, call true false exact_solver no_lp (st_pb DISTANCE_TRAVELED) [1; 1/2] (PerPhase 4) = Ok r /\ rc_success r = true /\
    rc_x r = l3 st_x /\ rc_c r = st_cv.
Proof.
  assert (B : best (st_pb DISTANCE_TRAVELED) [1; 1/2] (PerPhase 4) (computeDiscretizedTimeFixed [1; 1/2] 4) st_x st_cv).
  { split; [apply st_curve|]. split; [apply st_feasible|]. intros y cvy s s' _ _ [[_ ->]|[F _]] [[_ ->]|[F' _]]; try discriminate.
    assert (E : vsub st_x (mid_of (st_pb DISTANCE_TRAVELED)) = vzero) by (apply v3_eq; cbn; lra).
    rewrite E. unfold vnorm2, vdot, vzero; cbn [vx vy vz]. nra. }
  split; [exists st_x, st_cv; exact B|].
  exact (C90_found true false exact_solver no_lp exact_solves _ _ (st_plannable _) (PerPhase 4) _ st_x st_cv ltac:(cbn; lia) eq_refl (or_introl eq_refl) B).
Qed.
Example ex_C90_step : exists ta r, cost_times [1; 1/2] (Every (1/5)) ta /\ cost_decides (st_pb ACCELERATION) [1; 1/2] ta /\
  call true false exact_solver no_lp (st_pb ACCELERATION) [1; 1/2] (Every (1/5)) = Ok r /\ rc_success r = true.
Proof.
  destruct (PropertiesCom.C15_meaning_step (st_pb ACCELERATION) [1; 1/2] (1/5) (V3 0 0 (-981/100)) (st_wp _) ltac:(lra) (st_same _) ltac:(cbn; tauto)) as (ta & _ & Et & _).
  destruct ex_C51_acceleration_step as (r & E & S). exists ta, r. split; [exact Et|]. split; [right; split; [reflexivity|]|split; assumption].
  destruct st_apart as (y0 & cv0 & a0 & a1 & H1 & H2 & H3 & H4). exists (0, 0%Z), st_x, y0, st_cv, cv0, a0, a1.
  split; [exact (starts_at_0 ta Et)|]. split; [apply st_curve|]. repeat (split; [assumption|]). assumption.
Qed.

(** the first phase with another mass, its rows in the other order, scaled, and one twice; kinematic rows in the other order *)
Definition be_c0 : contact :=
  Contact (Some (CPhase [((V3 (-3) 0 (3/2), vzero), 0); ((V3 2 0 1, vzero), 0); ((V3 1 0 (1/2), vzero), 0)] 70 (V3 0 0 (-981/100)) []))
    [V3 0 1 0; V3 1 0 0] [3; 2] [] [].
Definition be_pb : problem :=
  Problem [be_c0; ex_c1] (V3 0 0 (4/5)) vzero vzero vzero (V3 0 0 (4/5)) vzero vzero vzero vzero false
    (Constraints F_c1 true 5 (1/10)) DISTANCE_TRAVELED DOUBLE_DESCRIPTION.
(** the same without the acceleration bound and without the second kinematic row, and a lower margin *)
Definition be_easy : problem :=
  Problem [Contact (cd_phase be_c0) [V3 0 1 0] [3] [] []; ex_c1] (V3 0 0 (4/5)) vzero vzero vzero (V3 0 0 (4/5)) vzero vzero vzero vzero false
    (Constraints F_c1 false 5 (1/20)) DISTANCE_TRAVELED DOUBLE_DESCRIPTION.
Lemma be_plannable p : p = be_pb \/ p = be_easy -> plannable p [1; 1/2].
Proof.
  intros [->| ->]; (split; [split; [cbn; tauto|]; split; [reflexivity|]; split; [discriminate|];
    split; [repeat constructor; lra|]; split; [reflexivity|];
    repeat constructor; eexists; (split; [reflexivity|]; split; [cbn; lra|]; split; [|cbn; lia]);
    repeat constructor; cbn; intros E; injection E; intros; lra|]);
  (split; [exists (V3 0 0 (-981/100)); intros c ph [<-|[<-|[]]] H; injection H as <-; reflexivity|cbn; tauto]).
Qed.
Lemma same_row_refl H : same_row H H.
Proof. exists 1. split; [lra|]. split; apply v3_eq; cbn; ring. Qed.
Lemma eases_refl c : contact_wf c -> eases_contact c c.
Proof.
  intros (ph & E & Hm & _). split; [tauto|]. intros ph' E'. rewrite E in E'. injection E' as <-. exists ph. repeat (split; [assumption || reflexivity|]).
  intros K k HK. exists K, k. split; [assumption|]. split; [apply same_row_refl|lra].
Qed.
Lemma ex_c1_wf : contact_wf ex_c1.
Proof. eexists; (split; [reflexivity|]; split; [cbn; lra|]; split; [|cbn; lia]). repeat constructor; cbn; intros E; injection E; intros; lra. Qed.
Ltac row H h s := exists H, h; split; [cbn; tauto|]; split; [exists s; split; [lra|]; split; apply v3_eq; cbn; lra|lra].
Definition hp : v6 := (V3 1 0 (1/2), vzero).
Definition hm : v6 := (V3 (-1) 0 (1/2), vzero).
Lemma be_to : eases_contact ex_c0 be_c0.
Proof.
  split.
  - intros v Hv [|[|i]] K k HK Hk; try (destruct i; discriminate); injection HK as <-; injection Hk as <-; [apply (Hv 1%nat)|apply (Hv 0%nat)]; reflexivity.
  - intros ph E. injection E as <-. eexists. split; [reflexivity|]. split; [cbn; lra|]. split; [cbn; lra|]. split; [reflexivity|].
    intros K k [E|[E|[E|[]]]]; injection E as <- <-; [row hm 0 3|row hp 0 2|row hp 0 1].
Qed.
Lemma be_from : eases_contact be_c0 ex_c0.
Proof.
  split.
  - intros v Hv [|[|i]] K k HK Hk; try (destruct i; discriminate); injection HK as <-; injection Hk as <-; [apply (Hv 1%nat)|apply (Hv 0%nat)]; reflexivity.
  - intros ph E. injection E as <-. eexists. split; [reflexivity|]. split; [cbn; lra|]. split; [cbn; lra|]. split; [reflexivity|].
    intros K k [E|[E|[]]]; injection E as <- <-; [row hp 0 1|row ((V3 (-3) 0 (3/2), vzero) : v6) 0 (1/3)].
Qed.
Example ex_C91_same : eases (st_pb DISTANCE_TRAVELED) be_pb /\ eases be_pb (st_pb DISTANCE_TRAVELED) /\
  exists r, call true false exact_solver no_lp be_pb [1; 1/2] (PerPhase 4) = Ok r /\ rc_success r = true /\ rc_x r = l3 st_x.
Proof.
  assert (A : eases (st_pb DISTANCE_TRAVELED) be_pb).
  { split; [repeat split|]. split; [constructor; [exact be_to|constructor; [exact (eases_refl _ ex_c1_wf)|constructor]]|]. split; [apply Rle_refl|]. intros _. split; [reflexivity|apply Rle_refl]. }
  assert (B : eases be_pb (st_pb DISTANCE_TRAVELED)).
  { split; [repeat split|]. split; [constructor; [exact be_from|constructor; [exact (eases_refl _ ex_c1_wf)|constructor]]|]. split; [apply Rle_refl|]. intros _. split; [reflexivity|apply Rle_refl]. }
  split; [exact A|]. split; [exact B|]. destruct ex_C90 as (_ & r & E & S & X & _). exists r. split; [|split; assumption].
  refine (proj1 (C91_same true false exact_solver no_lp exact_solves exact_sound no_lp_sound (st_pb DISTANCE_TRAVELED) be_pb [1; 1/2] (PerPhase 4) (computeDiscretizedTimeFixed [1; 1/2] 4) r
    (st_plannable _) (be_plannable _ (or_introl eq_refl)) A B ltac:(cbn; lia) eq_refl (or_introl eq_refl) S) E).
Qed.
Example ex_C91_eases : eases (st_pb DISTANCE_TRAVELED) be_easy /\ finer (PerPhase 4) (PerPhase 2) /\ finer (Every (1/10)) (Every (1/5)) /\
  exists r, call true false exact_solver no_lp be_easy [1; 1/2] (PerPhase 2) = Ok r /\ rc_success r = true.
Proof.
  assert (A : eases (st_pb DISTANCE_TRAVELED) be_easy).
  { split; [repeat split|]. split.
    - constructor; [|constructor; [exact (eases_refl _ ex_c1_wf)|constructor]]. split; [|exact (proj2 be_to)].
      intros v Hv [|i] K k HK Hk; [|destruct i; discriminate]. injection HK as <-. injection Hk as <-. apply (Hv 1%nat); reflexivity.
    - split; [unfold margin; cbn; rewrite !Rmax_right; lra|]. discriminate. }
  split; [exact A|]. split; [exists 2%nat; split; [lia|reflexivity]|]. split; [exists 2%nat; split; [lia|cbn; lra]|].
  destruct ex_C90 as (_ & r & E & S & _).
  destruct (C91_eases true false exact_solver no_lp exact_solves exact_sound no_lp_sound (st_pb DISTANCE_TRAVELED) be_easy [1; 1/2] (st_plannable _) (be_plannable _ (or_intror eq_refl))
    (PerPhase 4) (PerPhase 2) (computeDiscretizedTimeFixed [1; 1/2] 2) r A ltac:(cbn; lia) ltac:(cbn; lia) ltac:(exists 2%nat; split; [lia|reflexivity]) eq_refl (or_introl eq_refl) E S) as (r' & _ & _ & _ & _ & E' & S' & _).
  exists r'. split; assumption.
Qed.
