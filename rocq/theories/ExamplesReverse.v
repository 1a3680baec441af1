(** Concrete inputs for the theorems of PropertiesReverse.v. *)
From Coq Require Import List Reals Lra Lia.
From Verif Require Import Vec SpecBezier SpecTime ModelData ModelDispatch ModelUtils ModelCont ModelSolver ModelTraj
  SpecCom SpecCtr SpecTraj SpecEnd SpecBest SpecReverse ProofSolves ProofCurve ProofBest ProofReverse2 PropertiesBest PropertiesReverse ExamplesTraj ExamplesSolves.
Import ListNotations.
Open Scope R_scope.

(** starting with a velocity and ending at rest, over two different phases *)
Definition tw_c (K : vec3) : contact := Contact (Some (CPhase [((V3 0 0 1, vzero), 0)] 1 (V3 0 0 (-10)) [])) [K] [2] [] [].
Definition tw_pb : problem :=
  Problem [tw_c (V3 1 0 0); tw_c (V3 0 1 0)] vzero (V3 4 0 0) vzero vzero vzero vzero vzero vzero vzero false (Constraints F_dc1_c1 true 12 (1/1000)) DISTANCE_TRAVELED DOUBLE_DESCRIPTION.
Lemma tw_plannable : plannable tw_pb [1/2; 1/2].
Proof.
  split; [|split; [exists (V3 0 0 (-10)); intros c ph [<-|[<-|[]]] H; injection H as <-; reflexivity|cbn; tauto]].
  split; [cbn; tauto|]. split; [discriminate|]. split; [discriminate|]. split; [repeat constructor; lra|]. split; [reflexivity|].
  repeat constructor; eexists; (split; [reflexivity|]; split; [cbn; lra|]; split; [|cbn; lia]); repeat constructor; cbn; intros E; injection E; intros; lra.
Qed.
Lemma tw_total : total [1/2; 1/2] = 1. Proof. cbn. lra. Qed.
Lemma tw_samples i t : sampled_fixed [1/2; 1/2] 1 i t -> t = 0 \/ t = 1/2 \/ t = 1.
Proof.
  intros (j & d & Hj & Hd & ->). destruct i as [|[|i]]; [| |destruct i; discriminate]; injection Hd as <-; unfold phase_start; cbn [firstn total];
  destruct j as [|[|j]]; try lia; cbn; lra.
Qed.
Example ex_C93 : exists r, computeCOMTrajFixedSize true false exact_solver no_lp (reverse tw_pb) [1/2; 1/2] 1 = Ok r /\ rc_success r = true.
Proof.
  assert (H : com_curve tw_pb (total [1/2; 1/2]) rv_x = Ok rv_cv).
  { rewrite tw_total. cbv [com_curve]. cbn. unfold mk_bezier. destruct (Rle_dec 1 0); [lra|]. unfold rv_cv, rv_x. repeat f_equal; apply v3_eq; cbn; field. }
  assert (F : plan_feasible tw_pb (sampled_fixed [1/2; 1/2] 1) (cv_fun rv_cv)).
  { assert (M : margin tw_pb = 1/1000) by (unfold margin; cbn; apply Rmax_right; lra).
    assert (N : norm6 (V3 0 0 1, vzero) <= 2).
    { unfold norm6, dot6, vdot, vzero; cbn. rewrite <- (sqrt_square 2) by lra. apply sqrt_le_1; lra. }
    intros i c t Hc Hs. apply tw_samples in Hs. destruct (rv_pos t) as (X & Y & Z). split.
    - split.
      + intros j K k HK Hk. unfold vdot. rewrite X, Y, Z.
        destruct i as [|[|i]]; [| |destruct i; discriminate]; injection Hc as <-; (destruct j as [|j]; [|destruct j; discriminate]); injection HK as <-; injection Hk as <-; cbn [vx vy vz]; destruct Hs as [->|[->| ->]]; lra.
      + eexists; eexists. split; [destruct i as [|[|i]]; [| |destruct i; discriminate]; injection Hc as <-; reflexivity|]. split; [apply rv_acc|].
        rewrite M. constructor; [|constructor]. cbn [fst snd cp_mass cp_gravity]. unfold giw, dot6, vdot, vcross, vzero, vsub, vscal; cbn [fst snd vx vy vz]. fold vzero. nra.
    - intros _. eexists. split; [apply rv_acc|]. unfold within; cbn [vx vy vz]. rewrite Rabs_R0. cbn [k_maxAcceleration constr tw_pb].
      split; [|lra]. apply Rabs_le. destruct Hs as [->|[->| ->]]; lra. }
  destruct (call_opt true false exact_solver no_lp exact_solves tw_pb [1/2; 1/2] tw_plannable (PerPhase 1) (computeDiscretizedTimeFixed [1/2; 1/2] 1) rv_x rv_cv ltac:(cbn; lia) eq_refl (or_introl eq_refl) H F) as (r & _ & _ & _ & _ & E & S & _).
  destruct (C93_plan true false exact_solver no_lp exact_solves exact_sound no_lp_sound tw_pb [1/2; 1/2] 1 r tw_plannable eq_refl ltac:(lia) (or_introl eq_refl) E S) as (r' & E' & S' & _).
  exists r'. split; assumption.
Qed.
