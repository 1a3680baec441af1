(** C92: where moving a problem does change the answer. *)
From Coq Require Import List Lia Lra.
From Verif Require Import Vec SpecBezier SpecTime ModelData ModelDispatch ModelWaypoints ModelUtils ModelCont ModelSolver ModelTraj
  SpecCom SpecWp SpecCtr SpecTraj SpecEnd SpecBest SpecMove ProofBezier ProofCurve ProofWaypoints ProofWaypoints2 ProofCom ProofCom2 ProofCom3 ProofTraj ProofTraj2 ProofTraj3 ProofBest ProofBest2 ProofMove.
Import ListNotations.
Open Scope R_scope.

Lemma rotation_mid : rotation mid.
Proof.
  assert (E : forall a, mvmul mid a = a) by (intros a; apply v3_eq; unfold mvmul, mid, vdot; cbn [vx vy vz row0 row1 row2]; ring).
  split; [intros a b; now rewrite !E|]. split; [intros a b; now rewrite !E|]. exists mid. intros a; now rewrite !E.
Qed.
Lemma mid_id a : mvmul mid a = a.
Proof. apply v3_eq; unfold mvmul, mid, vdot; cbn [vx vy vz row0 row1 row2]; ring. Qed.

(** some times of the cost *)
Lemma some_times p Ts m : plannable p Ts -> proper m -> exists ta, cost_times Ts m ta.
Proof.
  intros (WP & (g & SG) & Hf) PR. destruct m as [dt|n]; cbn in *.
  - destruct (c15_step p Ts dt g WP PR SG Hf) as (ta & _ & Et & _). exists ta. exact Et.
  - eexists; reflexivity.
Qed.
(** the first and the last instant are sampled *)
Lemma sampled_0 m : proper m -> sampled [1] m 0 0.
Proof.
  destruct m as [dt|n]; cbn [proper sampled]; intros PR.
  - split; [cbn; lia|]. right. exists 0%nat. unfold phase_start, phase_end. cbn. lra.
  - exists 0%nat, 1. split; [lia|]. split; [reflexivity|]. unfold phase_start. cbn. assert (INR n <> 0) by (apply not_0_INR; lia). field. assumption.
Qed.
Lemma sampled_1 m : proper m -> sampled [1] m 0 1.
Proof.
  destruct m as [dt|n]; cbn [proper sampled]; intros PR.
  - split; [cbn; lia|]. left. unfold phase_end. cbn. lra.
  - exists n, 1. split; [lia|]. split; [reflexivity|]. unfold phase_start. cbn. assert (INR n <> 0) by (apply not_0_INR; lia). field. assumption.
Qed.
Lemma total_1 : total [1] = 1.
Proof. cbn. lra. Qed.

Section Refuted.
  Variable p q : problem.
  Hypothesis Pp : plannable p [1].
  Hypothesis Pq : plannable q [1].
  Hypothesis Dp : costFunction p = DISTANCE_TRAVELED.
  Variable x : vec3.
  Variable cv : bcurve.
  Hypothesis Hcv : com_curve p (total [1]) x = Ok cv.
  Hypothesis Fp : forall s, plan_feasible p s (cv_fun cv).
  Hypothesis Fq : forall m y cvy, proper m -> com_curve q (total [1]) y = Ok cvy -> plan_feasible q (sampled [1] m) (cv_fun cvy) -> False.
  Lemma refute : forall scaled wg quadprog glpk, qp_solves quadprog -> qp_sound quadprog -> lp_sound glpk -> forall m, proper m ->
    (exists r, call scaled wg quadprog glpk p [1] m = Ok r /\ rc_success r = true) /\
    forall r, call scaled wg quadprog glpk q [1] m = Ok r -> rc_success r = false.
  Proof.
    intros scaled wg quadprog glpk QO QS LS m PR. split.
    - destruct (some_times p [1] m Pp PR) as [ta CT].
      destruct (call_opt scaled wg quadprog glpk QO p [1] Pp m ta x cv PR CT (or_introl Dp) Hcv (Fp _)) as (r & _ & _ & _ & _ & E & S & _). exists r. split; assumption.
    - intros r E. destruct (rc_success r) eqn:S; [exfalso|reflexivity].
      destruct (call_feasible scaled wg quadprog glpk q [1] Pq QS LS m r PR E S) as ((_ & (y & _ & Hy) & _) & F). exact (Fq m y _ PR Hy F).
  Qed.
End Refuted.

(** ** The origin: the default margin, no motion, one cone row *)
Definition mo_c : contact := Contact (Some (CPhase [((V3 0 0 1, V3 1 0 0), 0)] 1 (V3 0 0 (-10)) [])) [] [] [] [].
Definition mo_pb : problem :=
  Problem [mo_c] vzero vzero vzero vzero vzero vzero vzero vzero vzero false (Constraints F_c1 true 0 (1/1000)) DISTANCE_TRAVELED DOUBLE_DESCRIPTION.
Definition mo_v : vec3 := V3 0 1000000 0.
Lemma mo_plannable : plannable mo_pb [1].
Proof.
  split; [|split; [exists (V3 0 0 (-10)); intros c ph [<-|[]] H; injection H as <-; reflexivity|cbn; tauto]].
  split; [cbn; tauto|]. split; [reflexivity|]. split; [discriminate|]. split; [repeat constructor; lra|]. split; [reflexivity|].
  repeat constructor. eexists; (split; [reflexivity|]; split; [cbn; lra|]; split; [|cbn; lia]).
  repeat constructor; cbn; intros E; injection E; intros; lra.
Qed.
Definition still : bcurve := BCurve [vzero; vzero; vzero; vzero] 1.
Lemma still_fun t : cv_fun still t = vzero.
Proof. apply v3_eq; cbv [cv_fun bc_pts bc_T still length pred map curve bez3 bezl bez sumf bern binom nth vx vy vz vzero Nat.add Nat.sub INR pow]; field. Qed.
Lemma still_acc t : is_deriv_n 2 (cv_fun still) t vzero.
Proof.
  pose proof (curve_is_deriv_n 2 (bc_pts still) 1 t) as Hd.
  match type of Hd with is_deriv_n _ _ _ ?a => assert (E : a = vzero) end; [|rewrite E in Hd; exact Hd].
  cbn [bc_pts still]. apply v3_eq; cbv [hodo_n hodo vdiffs length pred map curve bez3 bezl bez sumf bern binom nth vx vy vz vscal vsub vzero Nat.add Nat.sub INR pow]; field.
Qed.
Lemma mo_margin : margin mo_pb = 1 / 1000.
Proof. unfold margin; cbn. apply Rmax_right. lra. Qed.
Lemma mo_refuted : forall scaled wg quadprog glpk, qp_solves quadprog -> qp_sound quadprog -> lp_sound glpk -> forall m, proper m ->
    (exists r, call scaled wg quadprog glpk mo_pb [1] m = Ok r /\ rc_success r = true) /\
    forall r, call scaled wg quadprog glpk (move mid mo_v mo_pb) [1] m = Ok r -> rc_success r = false.
Proof.
  apply (refute mo_pb (move mid mo_v mo_pb) mo_plannable (move_plannable mid mo_v rotation_mid mo_pb [1] mo_plannable) eq_refl vzero still).
  - rewrite total_1. cbv [com_curve]. cbn. unfold mk_bezier. destruct (Rle_dec 1 0); [lra|].
    unfold still. repeat f_equal; apply v3_eq; cbn; field.
  - intros s [|i] c t Hc _; [injection Hc as <-|destruct i; discriminate]. split.
    + split; [intros [|j] K k HK; discriminate|]. eexists; exists vzero. split; [reflexivity|]. split; [apply still_acc|].
      rewrite still_fun, mo_margin. constructor; [|constructor].
      assert (N : norm6 (V3 0 0 1, V3 1 0 0) <= 2).
      { unfold norm6, dot6, vdot; cbn. rewrite <- (sqrt_square 2) by lra. apply sqrt_le_1; lra. }
      cbn [fst snd cp_mass cp_gravity] in *. unfold giw, dot6, vdot, vcross, vzero, vsub, vscal; cbn [fst snd vx vy vz]. nra.
    + intros _. exists vzero. split; [apply still_acc|]. unfold within, vzero; cbn. rewrite Rabs_R0. lra.
  - intros m y cvy PR Hy F. destruct (F 0%nat (move_contact mid mo_v mo_c) 0 eq_refl (sampled_0 m PR)) as [(_ & ph & a & Ep & D & C) A].
    destruct (A eq_refl) as (a' & D' & W). rewrite <- (is_deriv_n_unique 2 _ _ _ _ _ (fun _ => eq_refl) D D') in W.
    assert (Z : a = vzero).
    { unfold within in W; cbn [k_maxAcceleration constr move mo_pb] in W. apply v3_eq; cbn [vx vy vz vzero]; destruct W as (W1 & W2 & W3);
        [clear W2 W3|clear W1 W3|clear W1 W2]; match goal with H : Rabs ?u <= 0 |- _ => destruct (Rabs_def2 u (Rabs u + 1)); [lra|]; pose proof (Rabs_pos u); destruct (Req_dec u 0); [assumption|exfalso; pose proof (Rabs_pos_lt u); tauto || lra] end. }
    subst a. assert (P0 : cv_fun cvy 0 = mo_v).
    { destruct (boundary_ok (move mid mo_v mo_pb) (total [1]) y cvy) as (_ & _ & B & _); [cbn; tauto|exact Hy|].
      rewrite (B eq_refl). cbn [c0 move mo_pb]. unfold place. rewrite mid_id. apply v3_eq; cbn; ring. }
    rewrite P0 in C. injection Ep as <-. unfold cone_ok, move_phase in C; cbn [cp_poly cp_mass cp_gravity map fst snd] in C. inversion C as [|? ? C1 _]; subst. cbn [fst snd] in C1.
    change (margin (move mid mo_v mo_pb)) with (margin mo_pb) in C1. rewrite mo_margin in C1. rewrite mid_id in C1.
    assert (R : move_row mid mo_v (V3 0 0 1, V3 1 0 0) = (V3 0 0 (-999999), V3 1 0 0)).
    { unfold move_row; cbn [fst snd]. rewrite !mid_id. f_equal. apply v3_eq; unfold mo_v, vsub, vcross; cbn [vx vy vz]; ring. }
    rewrite R in C1.
    assert (N : 999999 <= norm6 (V3 0 0 (-999999), V3 1 0 0)).
    { unfold norm6, dot6, vdot; cbn [fst snd vx vy vz]. rewrite <- (sqrt_square 999999) at 1 by lra. apply sqrt_le_1; lra. }
    unfold giw, dot6, vdot, vcross, vzero, vsub, vscal, mo_v in C1; cbn [fst snd vx vy vz] in C1. lra.
Qed.

(** ** The axes: the acceleration bound is per coordinate *)
Definition ax_Q : mat3 := M3 (V3 (3/5) (-4/5) 0) (V3 (4/5) (3/5) 0) (V3 0 0 1).
Lemma ax_rotation : rotation ax_Q.
Proof.
  split; [intros a b; unfold mvmul, ax_Q, vdot; cbn [vx vy vz row0 row1 row2]; field|].
  split; [intros a b; apply v3_eq; unfold mvmul, ax_Q, vdot, vcross; cbn [vx vy vz row0 row1 row2]; field|].
  exists (M3 (V3 (3/5) (4/5) 0) (V3 (-4/5) (3/5) 0) (V3 0 0 1)). intros a. apply v3_eq; unfold mvmul, ax_Q, vdot; cbn [vx vy vz row0 row1 row2]; field.
Qed.
Definition ax_c : contact := Contact (Some (CPhase [] 1 (V3 0 0 (-10)) [])) [] [] [] [].
Definition ax_pb : problem :=
  Problem [ax_c] vzero vzero vzero vzero (V3 (1/2) (1/2) 0) vzero vzero vzero vzero false (Constraints F_c1 true 1 (1/1000)) DISTANCE_TRAVELED DOUBLE_DESCRIPTION.
Lemma ax_plannable : plannable ax_pb [1].
Proof.
  split; [|split; [exists (V3 0 0 (-10)); intros c ph [<-|[]] H; injection H as <-; reflexivity|cbn; tauto]].
  split; [cbn; tauto|]. split; [reflexivity|]. split; [discriminate|]. split; [repeat constructor; lra|]. split; [reflexivity|].
  repeat constructor. eexists; (split; [reflexivity|]; split; [cbn; lra|]; split; [|cbn; lia]). constructor.
Qed.
Definition ax_cv : bcurve := BCurve [vzero; vzero; V3 (1/6) (1/6) 0; V3 (1/2) (1/2) 0] 1.
Lemma ax_acc t : is_deriv_n 2 (cv_fun ax_cv) t (V3 1 1 0).
Proof.
  pose proof (curve_is_deriv_n 2 (bc_pts ax_cv) 1 t) as Hd.
  match type of Hd with is_deriv_n _ _ _ ?a => assert (E : a = V3 1 1 0) end; [|rewrite E in Hd; exact Hd].
  cbn [bc_pts ax_cv]. apply v3_eq; cbv [hodo_n hodo vdiffs length pred map curve bez3 bezl bez sumf bern binom nth vx vy vz vscal vsub vzero Nat.add Nat.sub INR pow]; field.
Qed.
Lemma ax_refuted : forall scaled wg quadprog glpk, qp_solves quadprog -> qp_sound quadprog -> lp_sound glpk -> forall m, proper m ->
    (exists r, call scaled wg quadprog glpk ax_pb [1] m = Ok r /\ rc_success r = true) /\
    forall r, call scaled wg quadprog glpk (move ax_Q vzero ax_pb) [1] m = Ok r -> rc_success r = false.
Proof.
  apply (refute ax_pb (move ax_Q vzero ax_pb) ax_plannable (move_plannable ax_Q vzero ax_rotation ax_pb [1] ax_plannable) eq_refl (V3 (1/6) (1/6) 0) ax_cv).
  - rewrite total_1. cbv [com_curve]. cbn. unfold mk_bezier. destruct (Rle_dec 1 0); [lra|].
    unfold ax_cv. repeat f_equal; apply v3_eq; cbn; field.
  - intros s [|i] c t Hc _; [injection Hc as <-|destruct i; discriminate]. split.
    + split; [intros [|j] K k HK; discriminate|]. eexists; exists (V3 1 1 0). split; [reflexivity|]. split; [apply ax_acc|]. constructor.
    + intros _. exists (V3 1 1 0). split; [apply ax_acc|]. unfold within; cbn. rewrite Rabs_R0, Rabs_R1. lra.
  - intros m y cvy PR Hy F. destruct (com_curve_inv (move ax_Q vzero ax_pb) (total [1]) y cvy ltac:(cbn; tauto) Hy) as (pi & pts & Hs & _ & _ & -> & _).
    rewrite total_1 in *. destruct Hs as [pi E Hc a b c d Ep|pi E|pi E|pi E|pi E|pi E|pi E]; try discriminate E.
    subst pi. unfold c0_dc0_c1_computeConstantWaypoints in Hc. injection Hc as <- <- _ <-.
    destruct (F 0%nat (move_contact ax_Q vzero ax_c) 0 eq_refl (sampled_0 m PR)) as [_ A0]. destruct (A0 eq_refl) as (a0 & D0 & W0).
    destruct (F 0%nat (move_contact ax_Q vzero ax_c) 1 eq_refl (sampled_1 m PR)) as [_ A1]. destruct (A1 eq_refl) as (a1 & D1 & W1).
    match type of D0 with is_deriv_n _ (cv_fun (BCurve ?P 1)) _ _ => pose proof (curve_is_deriv_n 2 P 1 0) as G0; pose proof (curve_is_deriv_n 2 P 1 1) as G1 end.
    rewrite (is_deriv_n_unique 2 _ _ _ _ _ (fun _ => eq_refl) D0 G0) in W0. rewrite (is_deriv_n_unique 2 _ _ _ _ _ (fun _ => eq_refl) D1 G1) in W1.
    destruct W0 as (_ & W0 & _). destruct W1 as (_ & W1 & _).
    cbv [hodo_n hodo vdiffs length pred map curve bez3 bezl bez sumf bern binom nth vx vy vz vscal vsub vadd vdivs vzero Nat.add Nat.sub INR pow c0 dc0 c1 move ax_pb place mvmul vdot ax_Q row0 row1 row2 constr k_maxAcceleration] in W0, W1.
    pose proof (Rle_trans _ _ _ (Rle_abs _) W0). pose proof (Rle_trans _ _ _ (Rle_abs _) W1). lra.
Qed.

Lemma c92_origin : exists p v, plannable p [1] /\ turns_freely p mid /\ k_reduce_h (constr p) = 1 / 1000 /\
  (forall c ph Hh, In c (contacts p) -> cd_phase c = Some ph -> In Hh (cp_poly ph) -> snd Hh = 0) /\
  forall scaled wg quadprog glpk, qp_solves quadprog -> qp_sound quadprog -> lp_sound glpk -> forall m, proper m ->
    (exists r, call scaled wg quadprog glpk p [1] m = Ok r /\ rc_success r = true) /\
    forall r, call scaled wg quadprog glpk (move mid v p) [1] m = Ok r -> rc_success r = false.
Proof.
  exists mo_pb, mo_v. split; [exact mo_plannable|]. split; [intros _; exact mid_id|]. split; [reflexivity|].
  split; [intros c ph Hh [<-|[]] E; injection E as <-; intros [<-|[]]; reflexivity|]. exact mo_refuted.
Qed.
Lemma c92_axes : exists p Q, plannable p [1] /\ rotation Q /\ k_constraintAcceleration (constr p) = true /\
  forall scaled wg quadprog glpk, qp_solves quadprog -> qp_sound quadprog -> lp_sound glpk -> forall m, proper m ->
    (exists r, call scaled wg quadprog glpk p [1] m = Ok r /\ rc_success r = true) /\
    forall r, call scaled wg quadprog glpk (move Q vzero p) [1] m = Ok r -> rc_success r = false.
Proof. exists ax_pb, ax_Q. split; [exact ax_plannable|]. split; [exact ax_rotation|]. split; [reflexivity|]. exact ax_refuted. Qed.
