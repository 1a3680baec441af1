(** Zero-step problems whose plans break the intended constraints (C28). *)
From Verif Require Import Vec SpecBezier ModelData ModelDispatch ModelUtils ModelRows ModelCom ModelNd ModelCont ModelSolver ModelTraj Model0Step
  SpecCom SpecWp SpecCtr SpecCont SpecSolver SpecTraj Spec0Step ProofBezier ProofCurve ProofWaypoints ProofWaypoints2 ProofWaypoints3 ProofCom
  ProofSolver ProofTraj ProofTraj2 Proof0Step Proof0Step2 ExamplesTraj.
Open Scope R_scope.

(** A feasible guess is returned by the checking back end of ExamplesTraj.v. *)
Lemma guess0 wg glpk pData Ts ct ph T dt x xL : z_posed pData Ts ct ph T -> (z_no_steps T dt \/ exists N, z_steps T dt N) ->
  z_wrench_ok pData ph T dt x xL -> z_geom (useAngularMomentum pData) ct x xL -> exists r,
  solve0step wg (guess (z_vec (useAngularMomentum pData) x xL)) glpk pData Ts dt = Ok r /\ z_plan pData T r x xL.
Proof.
  intros WP HN HW HG. destruct (z_ineqs_ok pData Ts ct ph T dt WP HN) as (Ab & E & HS).
  rewrite (solve0_unfold wg _ glpk pData Ts ct ph T dt WP Ab E). set (useAng := useAngularMomentum pData) in *.
  set (init := if useAng then l3 (c0 pData) ++ l3 (l0 pData) else l3 (c0 pData)).
  assert (Hi : length init = z_dim useAng) by (unfold init; destruct useAng; reflexivity).
  destruct (c37_ok (MX (length init) (map fst (z_ineqs useAng Ab))) (map snd (z_ineqs useAng Ab)) (MX (length init) []) []
        (z_H useAng) (z_g useAng (c0 pData) (l0 pData)) init []) as (q & _ & _ & HF & HE).
  { unfold mx_wf. cbn [mx_rows mx_cols]. rewrite Forall_map. apply z_ineqs_len, Hi. }
  { cbn [mx_rows]. now rewrite !map_length. } { left; reflexivity. }
  unfold solve_noeq. cbn [mx_cols]. rewrite HE.
  assert (F : qp_feasible q (z_vec useAng x xL)).
  { apply HF; [cbn [mx_cols]; rewrite Hi; apply z_vec_len|]. rewrite leM_satX. split; [apply HS; auto|]. split; [constructor|left; reflexivity]. }
  rewrite guess_ok; [|rewrite Hi; apply z_vec_len|exact F]. cbn [bind Z.eqb EIQUADPROG_FAST_OPTIMAL rd_success rd_x].
  destruct (z_build pData Ts ct ph T WP x xL) as (r & Er & HP & _). exists r. split; [exact Er|exact HP].
Qed.

(** One contact phase that can push upwards but not pull: the vertical force of
    the wrench is not positive. *)
Definition up_ph : cphase := CPhase [((V3 0 0 1, vzero), 0)] 2 (V3 0 0 (-10)) [].
Definition up_ct (Kin : list vec3) (kin : list R) (Ang : list vec3) (ang : list R) : contact := Contact (Some up_ph) Kin kin Ang ang.
Definition up_pb (useAng : bool) (ct : contact) (v l : vec3) : problem :=
  Problem [ct] vzero v vzero vzero vzero vzero vzero vzero l useAng (Constraints F_capture false 0 0) 0%Z DOUBLE_DESCRIPTION.
Lemma up_wf Kin kin Ang ang : (length kin <= length Kin)%nat -> contact_wf (up_ct Kin kin Ang ang).
Proof.
  intros H. exists up_ph. split; [reflexivity|]. split; [cbn; lra|]. split; [|exact H].
  constructor; [|constructor]. cbn. intros E. injection E as E. lra.
Qed.
Lemma up_posed useAng Kin kin Ang ang v l : (length kin <= length Kin)%nat ->
  z_posed (up_pb useAng (up_ct Kin kin Ang ang) v l) [1] (up_ct Kin kin Ang ang) up_ph 1.
Proof. intros H. split; [reflexivity|]. split; [reflexivity|]. split; [lra|]. split; [apply up_wf, H|reflexivity]. Qed.

(** Horizontal motions are stable, whatever the angular momentum. *)
Lemma up_stable useAng a b c d l xL t : z_stable up_ph useAng vzero (V3 a b 0) l 1 (V3 c d 0) xL t.
Proof.
  intros acc dl Ha _. constructor; [|constructor]. unfold dot6, giwL; cbn [fst snd up_ph cp_mass cp_gravity].
  unfold z_motion in Ha. rewrite (is_deriv_n_unique 2 _ _ t _ _ (fun _ => eq_refl) Ha (curve_is_deriv_n 2 _ 1 t)).
  match goal with |- ?v <= 0 => replace v with (-20); [lra|] end.
  hodo_vals. unfold curve. generalize (t / 1). intros s. bez_norm. unfold vdot; wsimp. unfold vzero; wsimp. field.
Qed.
Lemma up_ctrl useAng a b c d l xL : z_stable_ctrl up_ph useAng vzero (V3 a b 0) l 1 (V3 c d 0) xL.
Proof.
  assert (HT : 0 < 1) by lra. apply (z_stable_ctrl_iff useAng up_ph vzero (V3 a b 0) l 1 HT).
  rewrite Forall_map. unfold z_ws, z_us, z_us0. destruct useAng; cbn [combine repeat];
  repeat (constructor; [unfold cone0; constructor; [|constructor]; unfold dot6, z_pt, v6sub, v6_scal, ev_w6, z_w0, z_w1, z_w2, z_w3, z_w4, z_u0, z_u1, z_u2, z_u3, z_u4, mx3, w6_zero, up_ph;
    cbn [fst snd cp_poly cp_mass cp_gravity w_top w_bot w_head w_tail]; unfold vdot; wsimp; unfold vdot; wsimp; lra|]); constructor.
Qed.
Lemma up_ok useAng ct a b c d l xL dt : z_wrench_ok (up_pb useAng ct (V3 a b 0) l) up_ph 1 dt (V3 c d 0) xL.
Proof. split; [intros _; apply up_ctrl|]. intros N _ _ i _. apply up_stable. Qed.

(** the kinematic constraint is not enforced *)
Lemma kin_refuted : exists quadprog glpk pData ct ph r x xL, qp_sound quadprog /\ z_posed pData [1] ct ph 1 /\
  solve0step false quadprog glpk pData [1] (-1) = Ok r /\ r0_success r = true /\ z_plan pData 1 r x xL /\ ~ kin_ok ct x.
Proof.
  pose (ct := up_ct [V3 1 0 0] [0] [] []).
  exists (guess (z_vec true (V3 1 0 0) (V3 (-1) 0 0))), no_lp, (up_pb true ct (V3 0 0 0) vzero), ct, up_ph.
  destruct (guess0 false no_lp (up_pb true ct (V3 0 0 0) vzero) [1] ct up_ph 1 (-1) (V3 1 0 0) (V3 (-1) 0 0)) as (r & E & HP).
  { apply up_posed. cbn; lia. } { left; left; lra. } { apply up_ok. }
  { intros j Hj. cbn in Hj. destruct j; [|lia]. cbn -[Rplus Rmult]. unfold vdot; cbn -[Rplus Rmult]. lra. }
  exists r, (V3 1 0 0), (V3 (-1) 0 0). split; [apply guess_sound|]. split; [apply up_posed; cbn; lia|]. split; [exact E|].
  split; [apply HP|]. split; [exact HP|]. intros H. specialize (H 0%nat _ _ eq_refl eq_refl). unfold vdot in H; cbn in H. lra.
Qed.
(** the angular momentum constraint is not enforced *)
Lemma ang_refuted : exists quadprog glpk pData ct ph r x xL, qp_sound quadprog /\ z_posed pData [1] ct ph 1 /\
  solve0step false quadprog glpk pData [1] (-1) = Ok r /\ r0_success r = true /\ z_plan pData 1 r x xL /\ kin_ok ct x /\ ~ ang_ok ct xL.
Proof.
  pose (ct := up_ct [V3 1 0 0] [1] [V3 0 1 0] [-1]).
  exists (guess (z_vec true vzero vzero)), no_lp, (up_pb true ct (V3 0 0 0) vzero), ct, up_ph.
  destruct (guess0 false no_lp (up_pb true ct (V3 0 0 0) vzero) [1] ct up_ph 1 (-1) (V3 0 0 0) (V3 0 0 0)) as (r & E & HP).
  { apply up_posed. cbn; lia. } { left; left; lra. } { apply up_ok. }
  { intros j Hj. cbn in Hj. destruct j as [|[|j]]; [| |lia]; cbn -[Rplus Rmult]; unfold vdot; cbn -[Rplus Rmult]; lra. }
  exists r, vzero, vzero. split; [apply guess_sound|]. split; [apply up_posed; cbn; lia|]. split; [exact E|].
  split; [apply HP|]. split; [exact HP|]. split.
  - intros i K k H1 H2. destruct i as [|i]; [|destruct i; discriminate]. injection H1 as <-. injection H2 as <-. unfold vdot; cbn. lra.
  - intros H. specialize (H 0%nat _ _ eq_refl eq_refl). unfold vdot in H; cbn in H. lra.
Qed.
(** points that meet all the user's constraints are excluded *)
Lemma foreign_refuted : exists pData ct ph Ab x xL, z_posed pData [1] ct ph 1 /\ useAngularMomentum pData = true /\
  compute6dControlPointInequalities ct (c0 pData) (dc0 pData) (l0 pData) true 1 (-1) = Ok Ab /\
  z_wrench_ok pData ph 1 (-1) x xL /\ kin_ok ct x /\ ang_ok ct xL /\ ~ satX (z_ineqs true Ab) (z_vec true x xL).
Proof.
  pose (ct := up_ct [V3 1 0 0] [0] [] []). pose (pb := up_pb true ct (V3 0 0 0) vzero).
  assert (WP : z_posed pb [1] ct up_ph 1) by (apply up_posed; cbn; lia).
  destruct (z_ineqs_ok pb [1] ct up_ph 1 (-1) WP) as (Ab & E & HS); [left; left; lra|].
  exists pb, ct, up_ph, Ab, (V3 0 0 0), (V3 1 0 0). split; [exact WP|]. split; [reflexivity|]. split; [exact E|]. split; [apply up_ok|].
  split; [|split].
  - intros i K k H1 H2. destruct i as [|i]; [|destruct i; discriminate]. injection H1 as <-. injection H2 as <-. unfold vdot; cbn. lra.
  - intros i K k H1. destruct i; discriminate.
  - intros H. apply HS in H. destruct H as [_ H]. specialize (H 0%nat). cbn -[Rplus Rmult] in H. specialize (H ltac:(lia)). unfold vdot in H; cbn -[Rplus Rmult] in H. lra.
Qed.
