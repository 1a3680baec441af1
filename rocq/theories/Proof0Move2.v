(** A zero-step problem that shifting the origin makes infeasible (C102). *)
From Coq Require Import List Reals Lra Lia ZArith.
From Verif Require Import Vec SpecBezier ModelData ModelDispatch ModelCont ModelSolver ModelTraj Model0Step
  SpecCom SpecWp SpecCtr SpecSolver SpecTraj SpecMove Spec0Step Spec0Best Spec0Move ProofBezier ProofCurve ProofWaypoints ProofWaypoints2 ProofWaypoints3 ProofCom
  ProofTraj2 ProofMove ProofMove2 Proof0Step Proof0Step2 Proof0Step3 Proof0Best Proof0Move.
Import ListNotations.
Open Scope R_scope.

(** No moment about the first axis, a position between -1 and 1 on it; as many rows in ang_. *)
Definition spin_ph : cphase := CPhase [((vzero, V3 1 0 0), 0); ((vzero, V3 (-1) 0 0), 0)] 2 (V3 0 0 (-10)) [].
Definition spin_ct : contact := Contact (Some spin_ph) [V3 1 0 0; V3 (-1) 0 0] [1; 1] [V3 1 0 0; V3 (-1) 0 0] [1; 1].
Definition spin_pb : problem := up_pb true spin_ct vzero vzero.
Definition spin_v : vec3 := V3 5 0 0.
Lemma spin_posed : z_posed spin_pb [1] spin_ct spin_ph 1.
Proof.
  split; [reflexivity|]. split; [reflexivity|]. split; [lra|]. split; [|reflexivity].
  exists spin_ph. split; [reflexivity|]. split; [cbn; lra|]. split; [|cbn; lia].
  constructor; [|constructor; [|constructor]]; cbn; intros E; injection E as E; lra.
Qed.
(** the mass that does not move, without momentum *)
Lemma spin_wrench t acc dl : is_deriv_n 2 (z_motion vzero vzero 1 vzero) t acc -> z_rate true vzero 1 vzero t dl ->
  giwL 2 (V3 0 0 (-10)) (z_motion vzero vzero 1 vzero t) acc dl = (V3 0 0 (-20), vzero).
Proof.
  intros A L. unfold z_motion in *. unfold z_rate, z_momentum in L.
  rewrite (is_deriv_n_unique 2 _ _ t _ _ (fun _ => eq_refl) A (curve_is_deriv_n 2 _ 1 t)).
  rewrite (is_deriv_n_unique 1 _ _ t _ _ (fun _ => eq_refl) L (curve_is_deriv_n 1 _ 1 t)).
  unfold giwL. hodo_vals. unfold curve. replace (t / 1) with t by field. bez_norm. unfold vsub, vadd, vscal, vcross, vzero; cbn [vx vy vz fst snd]. f_equal; apply v3_eq; cbn [vx vy vz]; field.
Qed.
Lemma spin_cone : cone0 spin_ph (V3 0 0 (-20), vzero).
Proof. constructor; [|constructor; [|constructor]]; unfold dot6, vdot, vzero; cbn; lra. Qed.
Lemma spin_feasible dt : z_feasible spin_pb spin_ct spin_ph 1 dt vzero vzero.
Proof.
  split; [split|].
  - intros _. exists (repeat (V3 0 0 (-20), vzero) 5). split; [reflexivity|]. split.
    + repeat (constructor; [exact spin_cone|]). constructor.
    + intros t acc dl A L. etransitivity; [exact (spin_wrench t acc dl A L)|]. unfold curve6. cbn [repeat map fst snd]. f_equal.
      * unfold curve. replace (t / 1) with t by field. bez_norm. cbn. apply v3_eq; cbn [vx vy vz]; lra.
      * unfold curve. replace (t / 1) with t by field. unfold vzero. bez_norm. cbn. apply v3_eq; cbn [vx vy vz]; ring.
  - intros N _ _ i _ acc dl A L. pose proof (spin_wrench _ acc dl A L) as E. cbn [spin_ph cp_mass cp_gravity]. change (cone0 spin_ph (giwL 2 (V3 0 0 (-10)) (z_motion vzero vzero 1 vzero (INR i * (1 / INR N))) acc dl)).
    rewrite E. exact spin_cone.
  - intros j Hj. cbn in Hj. destruct j as [|[|[|[|j]]]]; [| | | |lia]; cbn -[Rplus Rmult Rdiv]; unfold vdot; cbn -[Rplus Rmult Rdiv]; lra.
Qed.
(** after the shift *)
Lemma spin_start x xL : z_stable (move_phase mid spin_v spin_ph) true (place mid spin_v vzero) (mvmul mid vzero) (mvmul mid vzero) 1 x xL 0 -> vx xL = 0.
Proof.
  intros H. specialize (H _ _ (curve_is_deriv_n 2 _ 1 0) (curve_is_deriv_n 1 _ 1 0)). unfold cone0, move_phase in H. cbn [cp_poly spin_ph map fst snd cp_mass cp_gravity] in H.
  pose proof (Forall_inv H) as A. pose proof (Forall_inv (Forall_inv_tail H)) as B. clear H. cbn [fst] in A, B. unfold z_motion, z_momentum in A, B. rewrite !mid_id in A, B.
  unfold place, move_row in A, B. rewrite !mid_id in A, B. cbn [fst snd] in A, B. unfold spin_v in A, B.
  assert (E : forall u, dot6 (vsub vzero (vcross (V3 u 0 0) (V3 5 0 0)), V3 u 0 0)
    (giwL 2 (V3 0 0 (-10)) (curve [vadd vzero (V3 5 0 0); vadd (vadd vzero (V3 5 0 0)) (vscal (1 / 3) vzero); x; x] 1 0)
       (curve (hodo_n 2 1 [vadd vzero (V3 5 0 0); vadd (vadd vzero (V3 5 0 0)) (vscal (1 / 3) vzero); x; x]) 1 0)
       (curve (hodo_n 1 1 [vzero; xL; vzero; vzero]) 1 0)) = - 3 * u * vx xL).
  { intros u. destruct x as [x1 x2 x3], xL as [l1 l2 l3].
    replace (vadd (vadd vzero (V3 5 0 0)) (vscal (1 / 3) vzero)) with (V3 5 0 0) by (apply v3_eq; cbn; ring).
    replace (vadd vzero (V3 5 0 0)) with (V3 5 0 0) by (apply v3_eq; cbn; ring).
    set (acc := curve (hodo_n 2 1 _) 1 0). generalize acc. clear acc. intros [a1 a2 a3].
    replace (curve [V3 5 0 0; V3 5 0 0; V3 x1 x2 x3; V3 x1 x2 x3] 1 0) with (V3 5 0 0)
      by (unfold curve; replace (0 / 1) with 0 by field; bez_norm; apply v3_eq; cbn [vx vy vz]; ring).
    replace (curve (hodo_n 1 1 [vzero; V3 l1 l2 l3; vzero; vzero]) 1 0) with (V3 (3 * l1) (3 * l2) (3 * l3))
      by (rewrite curve_at_0; hodo_vals; apply v3_eq; unfold vzero, vsub, vscal; cbn [vx vy vz]; field).
    unfold dot6, giwL, vdot, vcross, vsub, vscal, vzero; cbn [fst snd vx vy vz]. ring. }
  rewrite E in A, B. lra.
Qed.
Lemma c102_origin : exists p v ct ph, z_posed p [1] ct ph 1 /\ useAngularMomentum p = true /\ v <> vzero /\
  forall wg quadprog glpk, qp_solves quadprog -> qp_sound quadprog -> forall dt, z_sampling 1 dt ->
  (exists r, solve0step wg quadprog glpk p [1] dt = Ok r /\ r0_success r = true) /\
  forall r, solve0step wg quadprog glpk (move mid v p) [1] dt = Ok r -> r0_success r = false.
Proof.
  exists spin_pb, spin_v, spin_ct, spin_ph. split; [apply spin_posed|]. split; [reflexivity|].
  split; [intros E; injection E as E; lra|]. intros wg quadprog glpk QO QS dt HN. split.
  - destruct (z_found spin_pb [1] spin_ct spin_ph 1 spin_posed dt vzero vzero wg quadprog glpk QO HN (spin_feasible dt)) as (x & xL & r & _ & E & HP & _).
    exists r. split; [exact E|apply HP].
  - intros r E. pose proof (z_move_posed mid spin_v rotation_mid spin_pb [1] spin_ct spin_ph 1 spin_posed) as PQ.
    destruct (z_answer wg quadprog glpk _ [1] _ _ 1 dt PQ r QS HN E) as [[H _]|(x & xL & _ & [HC HD] & HG & _)]; [exact H|]. exfalso.
    assert (Z : z_stable (move_phase mid spin_v spin_ph) true (place mid spin_v vzero) (mvmul mid vzero) (mvmul mid vzero) 1 x xL 0).
    { destruct HN as [HN|(N & HN)].
      - apply z_ctrl_stable; [lra|exact (HC HN)|lra].
      - destruct N as [|N]; [apply z_ctrl_stable; [lra|exact (HC (or_intror HN))|lra]|].
        pose proof (HD (S N) HN ltac:(lia) 0%nat ltac:(lia)) as H. replace (INR 0 * (1 / INR (S N))) with 0 in H by (cbn [INR]; ring). exact H. }
    apply spin_start in Z. specialize (HG 3%nat). cbn -[Rplus Rmult mvmul] in HG. specialize (HG ltac:(lia)). rewrite !mid_id in HG. unfold vdot, spin_v in HG. cbn in HG. lra.
Qed.
