(** Concrete inputs for the theorems of PropertiesMix.v. *)
From Coq Require Import List Reals Lra Lia ZArith.
From Verif Require Import Vec SpecBezier SpecTime ModelData ModelDispatch ModelUtils ModelCont ModelSolver ModelTraj
  SpecCom SpecCtr SpecTraj SpecEnd SpecBest SpecMix ProofCurve ProofAccept ProofSolves PropertiesMix ExamplesCom ExamplesTraj ExamplesBest.
Import ListNotations.
Open Scope R_scope.

(** the problem of C97_converse_refuted: two motions that meet the constraints at the ends *)
Lemma ac_feasible x : plan_feasible ac_pb (sampled [3] (PerPhase 1)) (cv_fun (ac_cv x)).
Proof.
  intros i c t Hc (j & d & Hj & Hd & ->). destruct i as [|i]; [|destruct i; discriminate Hd]. injection Hc as <-. injection Hd as <-. split; [|discriminate].
  split.
  - intros [|k] K b HK Hb; [|destruct k; discriminate HK]. injection HK as <-. injection Hb as <-.
    destruct j as [|[|j]]; [| |lia].
    + replace (phase_start [3] 0 + INR 0 / INR 1 * 3) with (3 * 0) by (unfold phase_start; cbn; field). pose proof (ac_pos x 0) as P.
      unfold vdot; cbn [vx vy vz] in *. rewrite P. lra.
    + replace (phase_start [3] 0 + INR 1 / INR 1 * 3) with (3 * 1) by (unfold phase_start; cbn; field). pose proof (ac_pos x 1) as P.
      unfold vdot; cbn [vx vy vz] in *. rewrite P. lra.
  - destruct (ac_deriv x (phase_start [3] 0 + INR j / INR 1 * 3)) as [a Ha]. eexists _, a. split; [reflexivity|]. split; [exact Ha|constructor].
Qed.
Example ex_C98_mix : plan_feasible ac_pb (sampled [3] (PerPhase 1)) (cv_fun (ac_cv (mixed (1/4) (V3 1 0 0) (V3 5 1 0)))) /\
  forall t, cv_fun (ac_cv (mixed (1/4) (V3 1 0 0) (V3 5 1 0))) t = mixed (1/4) (cv_fun (ac_cv (V3 1 0 0)) t) (cv_fun (ac_cv (V3 5 1 0)) t).
Proof.
  assert (HT : total [3] = 3) by (cbn; ring).
  destruct (C98_mix ac_pb [3] (V3 1 0 0) (V3 5 1 0) (1/4) (ac_cv (V3 1 0 0)) (ac_cv (V3 5 1 0)) (ac_cv (mixed (1/4) (V3 1 0 0) (V3 5 1 0))) (proj1 ac_plannable) ltac:(lra)) as (M & F & _);
    try (rewrite HT; apply ac_curve).
  split; [apply F; apply ac_feasible|exact M].
Qed.
(** plans with four points per phase and with two *)
Lemma st_plan n : (1 <= n)%nat -> exists r, call true false exact_solver no_lp (st_pb DISTANCE_TRAVELED) [1; 1/2] (PerPhase n) = Ok r /\ rc_success r = true.
Proof.
  intros Hn. destruct (PropertiesTraj.C51_distance_fixed true false exact_solver no_lp exact_solves (st_pb DISTANCE_TRAVELED) [1; 1/2] (V3 0 0 (-981/100)) (st_wp _) (st_same _) ltac:(cbn; tauto) n st_x st_cv Hn eq_refl (st_curve _) (st_feasible _ _)) as (r & _ & E & S & _).
  exists r. split; assumption.
Qed.
Example ex_C98_results : exists r r' x y cv, call true false exact_solver no_lp (st_pb DISTANCE_TRAVELED) [1; 1/2] (PerPhase 4) = Ok r /\
  call true false exact_solver no_lp (st_pb DISTANCE_TRAVELED) [1; 1/2] (PerPhase 2) = Ok r' /\ rc_x r = l3 x /\ rc_x r' = l3 y /\
  com_curve (st_pb DISTANCE_TRAVELED) (total [1; 1/2]) (mixed (1/3) x y) = Ok cv.
Proof.
  destruct (st_plan 4 ltac:(lia)) as (r & E & S). destruct (st_plan 2 ltac:(lia)) as (r' & E' & S').
  destruct (C98_results true false exact_solver no_lp exact_sound no_lp_sound (st_pb DISTANCE_TRAVELED) [1; 1/2] (PerPhase 4) (PerPhase 2) r r' (1/3) (st_plannable _) ltac:(cbn; lia) ltac:(cbn; lia) ltac:(lra) E S E' S') as (x & y & cv & X & Y & C & _).
  exists r, r', x, y, cv. repeat (split; [assumption|]). assumption.
Qed.
(** a back end that calls problems it does not solve unbounded *)
Definition other_solver (q : qp) (init : list R) : outcome (Z * list R * R) :=
  match exact_solver q init with Ok (0%Z, x, obj) => Ok (0%Z, x, obj) | _ => Ok (2%Z, init, 1) end.
Lemma other_sound : qp_sound other_solver.
Proof.
  intros q init x obj. unfold other_solver. destruct (exact_solver q init) as [[[[|z|z] y] o]| |] eqn:E; try discriminate.
  intros H. injection H as <- <-. exact (exact_sound q init y o E).
Qed.
Lemma other_solves : qp_solves other_solver.
Proof. intros q init HC HF. destruct (exact_solves q init HC HF) as (x & E & R). exists x. split; [unfold other_solver; rewrite E; reflexivity|exact R]. Qed.
Example ex_C99 : exists r, call true false exact_solver no_lp (st_pb DISTANCE_TRAVELED) [1; 1/2] (PerPhase 4) = Ok r /\ rc_success r = true /\
  call true true other_solver no_lp (st_pb DISTANCE_TRAVELED) [1; 1/2] (PerPhase 4) = Ok r.
Proof.
  destruct (st_plan 4 ltac:(lia)) as (r & E & S). exists r. split; [exact E|]. split; [exact S|].
  refine (proj1 (C99_back_ends true false true exact_solver other_solver no_lp no_lp exact_solves exact_sound no_lp_sound other_solves other_sound no_lp_sound _ _ _ r (st_plannable _) (or_introl eq_refl) _ S) E). cbn; lia.
Qed.
