(** C93: with a time step the samples are not symmetric. *)
From Coq Require Import List Lia Lra.
From Verif Require Import Vec SpecBezier SpecTime ModelData ModelDispatch ModelWaypoints ModelUtils ModelCont ModelSolver ModelTraj
  SpecCom SpecWp SpecCtr SpecTraj SpecEnd SpecBest SpecReverse ProofBezier ProofCurve ProofWaypoints ProofWaypoints2 ProofCom ProofCom2 ProofCom3 ProofTraj ProofTraj2 ProofTraj3 ProofBest ProofBest2 ProofMove ProofMove2 ProofReverse.
Import ListNotations.
Open Scope R_scope.

Definition rv_c : contact := Contact (Some (CPhase [] 1 (V3 0 0 (-10)) [])) [V3 1 0 0] [1/2] [] [].
Definition rv_pb : problem :=
  Problem [rv_c] vzero (V3 4 0 0) vzero vzero vzero vzero vzero vzero vzero false (Constraints F_dc1_c1 true 12 (1/1000)) DISTANCE_TRAVELED DOUBLE_DESCRIPTION.
Lemma rv_plannable : plannable rv_pb [1].
Proof.
  split; [|split; [exists (V3 0 0 (-10)); intros c ph [<-|[]] H; injection H as <-; reflexivity|cbn; tauto]].
  split; [cbn; tauto|]. split; [discriminate|]. split; [discriminate|]. split; [repeat constructor; lra|]. split; [reflexivity|].
  repeat constructor. eexists; (split; [reflexivity|]; split; [cbn; lra|]; split; [|cbn; lia]). constructor.
Qed.
Definition rv_x : vec3 := V3 1 0 0.
Definition rv_cv : bcurve := BCurve [vzero; V3 1 0 0; rv_x; vzero; vzero] 1.
Ltac evalcv := cbv [cv_fun bc_pts bc_T rv_cv rv_x hodo_n hodo vdiffs length pred map curve bez3 bezl bez sumf bern binom nth vx vy vz vscal vsub vzero vdot Nat.add Nat.sub INR pow].
Lemma rv_pos t : vx (cv_fun rv_cv t) = 4 * (1 - t) ^ 3 * t + 6 * (1 - t) ^ 2 * t ^ 2 /\ vy (cv_fun rv_cv t) = 0 /\ vz (cv_fun rv_cv t) = 0.
Proof. repeat split; evalcv; field. Qed.
Lemma rv_acc t : is_deriv_n 2 (cv_fun rv_cv) t (V3 (12 * (- (1 - t) ^ 2 - 2 * t * (1 - t) + t ^ 2)) 0 0).
Proof.
  pose proof (curve_is_deriv_n 2 (bc_pts rv_cv) 1 t) as Hd.
  match type of Hd with is_deriv_n _ _ _ ?a => assert (E : a = V3 (12 * (- (1 - t) ^ 2 - 2 * t * (1 - t) + t ^ 2)) 0 0) end; [|rewrite E in Hd; exact Hd].
  apply v3_eq; evalcv; field.
Qed.
Lemma rv_samples i t : sampled_step [1] (2/3) i t -> t = 0 \/ t = 2/3 \/ t = 1.
Proof.
  intros (L & [->|(k & -> & Hk)]); (destruct i as [|i]; [|cbn in L; lia]).
  - right; right. unfold phase_end. cbn. ring.
  - unfold phase_start, phase_end in *. cbn [firstn total] in *. destruct k as [|[|k]]; [left; cbn; ring|right; left; cbn; lra|exfalso].
    rewrite !S_INR in Hk. pose proof (pos_INR k). lra.
Qed.
Lemma rv_feasible : plan_feasible rv_pb (sampled_step [1] (2/3)) (cv_fun rv_cv).
Proof.
  intros [|i] c t Hc Hs; [injection Hc as <-|destruct i; discriminate]. apply rv_samples in Hs. split.
  - split.
    + intros [|[|j]] K k HK Hk; try discriminate. injection HK as <-. injection Hk as <-.
      destruct (rv_pos t) as (X & _ & _). unfold vdot. rewrite X. cbn [vx vy vz]. destruct Hs as [->|[->| ->]]; lra.
    + eexists; eexists. split; [reflexivity|]. split; [apply rv_acc|]. constructor.
  - intros _. eexists. split; [apply rv_acc|]. unfold within; cbn [vx vy vz]. rewrite Rabs_R0. cbn [k_maxAcceleration constr rv_pb].
    split; [|lra]. apply Rabs_le. destruct Hs as [->|[->| ->]]; lra.
Qed.
Lemma rv_infeasible y cvy : com_curve (reverse rv_pb) (total [1]) y = Ok cvy -> plan_feasible (reverse rv_pb) (sampled_step [1] (2/3)) (cv_fun cvy) -> False.
Proof.
  intros Hy F. destruct (com_curve_inv (reverse rv_pb) (total [1]) y cvy ltac:(cbn; tauto) Hy) as (pi & pts & Hs & _ & _ & -> & _).
  rewrite total_1 in *. destruct Hs as [pi E|pi E|pi E Hc a b c d e Ep|pi E|pi E|pi E|pi E]; try discriminate E.
  subst pi. unfold c0_dc0_dc1_c1_computeConstantWaypoints in Hc. injection Hc as <- <- _ <- <-.
  assert (S : forall t, t = 0 \/ t = 2/3 \/ t = 1 -> sampled_step [1] (2/3) 0 t).
  { intros t Ht. split; [cbn; lia|]. unfold phase_start, phase_end. cbn [firstn total]. destruct Ht as [->|[->| ->]]; [right; exists 0%nat; cbn; lra|right; exists 1%nat; cbn; lra|left; lra]. }
  destruct (F 0%nat rv_c 0 eq_refl (S 0 ltac:(tauto))) as [_ A0]. destruct (A0 eq_refl) as (a0 & D0 & W0).
  destruct (F 0%nat rv_c 1 eq_refl (S 1 ltac:(tauto))) as [_ A1]. destruct (A1 eq_refl) as (a1 & D1 & W1).
  destruct (F 0%nat rv_c (2/3) eq_refl (S (2/3) ltac:(tauto))) as [[K _] _]. specialize (K 0%nat _ _ eq_refl eq_refl).
  match type of D0 with is_deriv_n _ (cv_fun (BCurve ?P 1)) _ _ => pose proof (curve_is_deriv_n 2 P 1 0) as G0; pose proof (curve_is_deriv_n 2 P 1 1) as G1 end.
  rewrite (is_deriv_n_unique 2 _ _ _ _ _ (fun _ => eq_refl) D0 G0) in W0. rewrite (is_deriv_n_unique 2 _ _ _ _ _ (fun _ => eq_refl) D1 G1) in W1.
  destruct W0 as (W0 & _ & _). destruct W1 as (W1 & _ & _).
  cbv [cv_fun bc_pts bc_T hodo_n hodo vdiffs length pred map curve bez3 bezl bez sumf bern binom nth vx vy vz vscal vsub vadd vopp vdivs vzero Nat.add Nat.sub INR pow c0 dc0 c1 dc1 reverse rv_pb vdot constr k_maxAcceleration] in W0, W1, K.
  assert (AB : forall u b, Rabs u <= b -> - b <= u <= b).
  { intros u b H. pose proof (Rle_abs u). pose proof (Rle_abs (- u)). rewrite Rabs_Ropp in *. lra. }
  apply AB in W0. apply AB in W1. lra.
Qed.
Lemma c93_step : exists p dt, plannable p [1] /\ flag_of p = F_dc1_c1 /\ 0 < dt /\
  forall scaled wg quadprog glpk, qp_solves quadprog -> qp_sound quadprog -> lp_sound glpk ->
    (exists r, call scaled wg quadprog glpk p [1] (Every dt) = Ok r /\ rc_success r = true) /\
    forall r, call scaled wg quadprog glpk (reverse p) (rev [1]) (Every dt) = Ok r -> rc_success r = false.
Proof.
  exists rv_pb, (2/3). split; [exact rv_plannable|]. split; [reflexivity|]. split; [lra|]. intros scaled wg quadprog glpk QO QS LS. split.
  - destruct (some_times rv_pb [1] (Every (2/3)) rv_plannable ltac:(cbn; lra)) as [ta CT].
    assert (H : com_curve rv_pb (total [1]) rv_x = Ok rv_cv).
    { rewrite total_1. cbv [com_curve]. cbn. unfold mk_bezier. destruct (Rle_dec 1 0); [lra|]. unfold rv_cv, rv_x. repeat f_equal; apply v3_eq; cbn; field. }
    destruct (call_opt scaled wg quadprog glpk QO rv_pb [1] rv_plannable (Every (2/3)) ta rv_x rv_cv ltac:(cbn; lra) CT (or_introl eq_refl) H rv_feasible) as (r & _ & _ & _ & _ & E & S & _).
    exists r. split; assumption.
  - intros r E. destruct (rc_success r) eqn:S; [exfalso|reflexivity].
    destruct (call_feasible scaled wg quadprog glpk (reverse rv_pb) [1] (rev_plannable rv_pb [1] rv_plannable eq_refl) QS LS (Every (2/3)) r ltac:(cbn; lra) E S) as ((_ & (y & _ & Hy) & _) & F). exact (rv_infeasible y _ Hy F).
Qed.
