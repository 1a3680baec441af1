(** Concrete inputs for the theorems of PropertiesPyEff.v: the step of ExamplesEff.v. *)
From Coq Require Import List Lia Lra.
From Verif Require Import Vec SpecBezier ModelData ModelDispatch ModelWaypointsJerk ModelCont ModelSolver ModelTraj ModelEff ModelPy ModelPyEff
  SpecCom SpecWp SpecTraj Spec0Step SpecEff ProofCurve ProofWaypoints ProofEff ProofEff2 ProofEff15 ProofEff2 ExamplesTraj ExamplesEff PropertiesPyEff.
Import ListNotations.
Open Scope R_scope.

Lemma comb_split {A B} (l : list (A * B)) : combine (map fst l) (map snd l) = l.
Proof. induction l as [|[a b] l IH]; cbn; [reflexivity|now rewrite IH]. Qed.
Lemma st3_py : exists A b, py_effConstraints x3_pb 1 = Ok (A, b) /\ satX (combine A b) (flat st3_xs).
Proof.
  destruct st3_sat as (pi & M & Hc & HM & HS). exists (map fst M), (map snd M). unfold py_effConstraints. rewrite Hc. cbn [bind]. rewrite HM.
  split; [reflexivity|]. now rewrite comb_split.
Qed.

(** eleven columns: four fixed, three free, four fixed *)
Example ex_C85_waypoints : exists pi, py_constantWaypoints x3_pb 1 = Ok pi /\ length pi = 11%nat /\
  firstn 4 pi = [vzero; vzero; vzero; vzero] /\ skipn 7 pi = [V3 1 0 0; V3 1 0 0; V3 1 0 0; V3 1 0 0].
Proof.
  destruct (C85_waypoints x3_pb 1 st3_in Rlt_0_1) as (pi & E & H). destruct (H st3_xs eq_refl) as (cv & Ec & _ & L & P).
  rewrite st3_curve in Ec. injection Ec as <-. cbn [bc_pts] in L, P. unfold st3_pts in L, P.
  change (4 + eff_free (flag_of x3_pb))%nat with 7%nat in P.
  exists pi. split; [exact E|]. split; [rewrite <- L; reflexivity|].
  do 12 (destruct pi as [|? pi]; try discriminate L). cbn [firstn skipn app st3_xs] in P |- *.
  injection P; intros; subst. split; reflexivity.
Qed.
(** nine variables; the step is within the bounds *)
Example ex_C85_meaning : exists A b H g, py_effConstraints x3_pb 1 = Ok (A, b) /\ py_velocityCost x3_pb 1 = Ok (H, g) /\ length H = 9%nat /\
  satX (combine A b) (flat st3_xs) /\ forall t, 0 <= t <= 1 -> exists v, is_deriv_n 1 (cv_fun (BCurve st3_pts 1)) t v /\ within 10000 v.
Proof.
  destruct st3_py as (A & b & E & HS).
  destruct (C85_problem x3_pb 1 st3_in Rlt_0_1) as (A1 & b1 & H & g & E1 & E2 & _ & _ & LH & _). rewrite E in E1. injection E1 as <- <-.
  destruct (C85_meaning x3_pb 1 st3_in Rlt_0_1) as (A1 & b1 & E1 & HM). rewrite E in E1. injection E1 as <- <-.
  exists A, b, H, g. split; [exact E|]. split; [exact E2|]. split; [exact LH|]. split; [exact HS|].
  destruct (HM st3_xs eq_refl HS) as (cv & Ec & HB & _). rewrite st3_curve in Ec. injection Ec as <-.
  assert (F : forall n, 0 < n - 1 -> 0 < n - 2 -> Forall (fun v => v = vzero) (end_velocities n 1 vzero vzero vzero) /\ Forall (fun v => v = vzero) (end_velocities n (-(1)) vzero vzero vzero)).
  { intros n H1 H2. unfold end_velocities, vzero. split; repeat apply Forall_cons; try apply Forall_nil; try reflexivity; apply v3_eq; vcbn; field; lra. }
  assert (W : within 10000 vzero) by (unfold within, vzero; cbn [vx vy vz]; rewrite Rabs_R0; lra).
  assert (D : eff_degree (flag_of x3_pb) = 10) by reflexivity.
  intros t Ht. destruct (HB ltac:(lra)) with (t := t) as (v & j & Dv & Wv & _); [|exact Ht|exists v; split; assumption].
  unfold boundary_within. cbv zeta. rewrite D. destruct (F 10 ltac:(lra) ltac:(lra)) as [F1 F2]. cbn [x3_pb dc0 ddc0 j0 dc1 ddc1 j1].
  split; [eapply Forall_impl; [|exact F1]; intros v ->; exact W|]. split; [eapply Forall_impl; [|exact F2]; intros v ->; exact W|]. split; exact W.
Qed.
(** the squared speed of that step, up to 3e-6 *)
Example ex_C85_cost : exists H g N K i, py_velocityCost x3_pb 1 = Ok (H, g) /\ 0 < N /\ speed_integral (BCurve st3_pts 1) 1 i /\
  Rabs (N * (quad H (flat st3_xs) + 2 * rdot g (flat st3_xs)) + K - (2 * 10 - 1) * i) <= 3 / 10 ^ 6.
Proof.
  destruct (C85_cost x3_pb 1 st3_in Rlt_0_1) as (H & g & N & K & E & HN & _ & HV).
  destruct (HV st3_xs 1 eq_refl) as (cv & Ec & HI). rewrite st3_curve in Ec. injection Ec as <-.
  destruct HI as (i & Hi & Hb).
  { unfold st3_pts, st3_xs, within. cbn [bc_pts app]. repeat apply Forall_cons; try apply Forall_nil; unfold vzero; cbn [vx vy vz];
      rewrite ?Rabs_R0; rewrite ?Rabs_pos_eq by lra; lra. }
  exists H, g, N, K, i. split; [exact E|]. split; [exact HN|]. split; [exact Hi|].
  change (eff_degree (flag_of x3_pb)) with 10 in Hb. change (velocity_eps (flag_of x3_pb)) with (/ 10 ^ 6) in Hb.
  eapply Rle_trans; [exact Hb|]. right. field.
Qed.
