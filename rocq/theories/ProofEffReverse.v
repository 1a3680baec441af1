(** The end-effector curve of the reversed problem. *)
From Coq Require Import List Lia Lra.
From Verif Require Import Vec SpecBezier ModelData ModelDispatch ModelWaypointsJerk ModelEff SpecCom SpecTraj SpecEff SpecReverse
  ProofBezier ProofCurve ProofWaypoints ProofEff ProofEff2 ProofEff5 ProofReverse.
Import ListNotations.
Open Scope R_scope.

Lemma rev_shape p T xs pi pts pi' pts' : eff_shape p T xs pi pts -> eff_shape (reverse p) T (rev xs) pi' pts' -> pts' = rev pts.
Proof.
  intros H H'. inversion H as [? ? ? ? ? ? ? ? ? ? ? E Hc Hp|? ? ? ? ? ? ? ? ? ? ? ? ? ? ? E Hc Hp|? ? ? ? ? ? ? ? ? ? ? ? ? ? E Hc Hp]; subst;
    cbn [rev app] in H'; inversion H' as [? ? ? ? ? ? ? ? ? ? ? E' Hc' Hp'|? ? ? ? ? ? ? ? ? ? ? ? ? ? ? E' Hc' Hp'|? ? ? ? ? ? ? ? ? ? ? ? ? ? E' Hc' Hp']; subst;
    injection Hc; injection Hc'; intros; subst; clear; cbn [rev app];
    repeat (apply f_equal2; [try reflexivity; apply v3_eq; unfold reverse; ecbn; field|]); reflexivity.
Qed.

Lemma c114_reverse p T xs cv : In (flag_of p) effector_flags -> length xs = eff_free (flag_of p) -> 0 < T -> eff_curve p T xs = Ok cv ->
  exists cv', eff_curve (reverse p) T (rev xs) = Ok cv' /\ bc_T cv' = T /\ forall t, cv_fun cv' t = cv_fun cv (T - t).
Proof.
  intros Hin Lx HT E.
  destruct (eff_shape_total p T xs Hin Lx) as (pi & pts & _ & S).
  destruct (eff_shape_total (reverse p) T (rev xs) Hin) as (pi' & pts' & _ & S'); [rewrite rev_length; exact Lx|].
  rewrite (eff_shape_curve _ _ _ _ _ S) in E. pose proof (rev_shape _ _ _ _ _ _ _ S S') as ->.
  assert (N : pts <> []) by (inversion S; discriminate). assert (N' : rev pts <> []) by (intros Z; apply N; rewrite <- (rev_involutive pts), Z; reflexivity).
  rewrite (eff_shape_curve _ _ _ _ _ S'). unfold mk_bezier in *.
  destruct (Rle_dec T 0) as [L|_]; [lra|].
  destruct pts as [|a pts]; [contradiction|]. destruct (rev (a :: pts)) as [|b l] eqn:R; [contradiction|].
  injection E as <-. eexists. split; [reflexivity|]. split; [reflexivity|]. intros t. unfold cv_fun. cbn [bc_pts bc_T]. rewrite <- R. apply curve_rev. lra.
Qed.

Lemma c114_path N p T cv cv' P : flag_of p <> F_jerk -> (2 <= N)%nat -> (forall t, cv_fun cv' t = cv_fun cv (T - t)) ->
  path_gap N (reverse p) T cv' (fun i => P (N - 1 - i)%nat) = path_gap N p T cv P.
Proof.
  intros Hf HN H. unfold path_gap.
  assert (Z : forall q s, flag_of q <> F_jerk -> eval_shift q s = vzero).
  { intros q s Hq. unfold eval_shift. apply Z.eqb_neq in Hq. rewrite Hq. reflexivity. }
  set (f := fun i => let s := INR i * (1 / (INR N - 1)) in vnorm2 (vsub (vadd (cv_fun cv (s * T)) (eval_shift p s)) (P i))).
  rewrite <- (sum_list_rev (map f _)), <- map_rev, rev_seq. rewrite <- seq_shift, !map_map. f_equal. apply map_ext_in. intros i Hi. apply in_seq in Hi.
  unfold f. cbv zeta. rewrite H, !Z by exact Hf. replace (N - S i)%nat with (N - 1 - i)%nat by lia.
  assert (N1 : INR N - 1 <> 0). { apply (le_INR 2) in HN. cbn in HN. lra. }
  replace (T - INR i * (1 / (INR N - 1)) * T) with (INR (N - 1 - i) * (1 / (INR N - 1)) * T); [reflexivity|].
  rewrite !minus_INR by lia. cbn [INR]. field. exact N1.
Qed.

(** from (0,0,0) to (1,0,0) at rest with one free point *)
Definition there_pb : problem :=
  Problem [] vzero vzero vzero vzero (V3 1 0 0) vzero vzero vzero vzero false (Constraints F_jerk false 0 0) DISTANCE_TRAVELED DOUBLE_DESCRIPTION.
Lemma c114_refuted : exists N p T xs cv cv' P,
  flag_of p = F_jerk /\ (2 <= N)%nat /\ 0 < T /\ eff_curve p T xs = Ok cv /\ eff_curve (reverse p) T (rev xs) = Ok cv' /\
  (forall t, cv_fun cv' t = cv_fun cv (T - t)) /\
  path_gap N (reverse p) T cv' (fun i => P (N - 1 - i)%nat) <> path_gap N p T cv P.
Proof.
  assert (Hin : In (flag_of there_pb) effector_flags) by (cbn; tauto).
  destruct (eff_boundary there_pb 1 [vzero] Hin eq_refl ltac:(lra)) as (cv & E & _ & _ & B0 & _ & _ & _ & B1 & _).
  destruct (c114_reverse there_pb 1 [vzero] cv Hin eq_refl ltac:(lra) E) as (cv' & E' & _ & H).
  exists 2%nat, there_pb, 1, [vzero], cv, cv', (fun _ => V3 1 0 0).
  split; [reflexivity|]. split; [lia|]. split; [lra|]. split; [exact E|]. split; [exact E'|]. split; [exact H|].
  unfold path_gap. cbn [seq map sum_list fold_right].
  replace (INR 0 * (1 / (INR 2 - 1))) with 0 by (cbn [INR]; field; lra). replace (INR 1 * (1 / (INR 2 - 1))) with 1 by (cbn [INR]; field; lra).
  rewrite !H. replace (1 - 0 * 1) with 1 by ring. replace (1 - 1 * 1) with 0 by ring. replace (0 * 1) with 0 by ring. replace (1 * 1) with 1 by ring.
  rewrite B0, B1. unfold eval_shift. cbn -[Rplus Rmult Rminus pow IZR]. unfold vnorm2, vdot, vzero. cbn [vx vy vz vadd vsub vscal]. cbn [pow].
  intros X. ring_simplify in X. lra.
Qed.
