(** Evaluation formulas, end velocity and wrench waypoints of the CoM flags. *)
From Verif Require Import Vec SpecBezier ModelData ModelWaypoints ModelWaypointsJerk ModelDispatch
  SpecCom ProofBezier ProofCurve ProofWaypoints.
Open Scope R_scope.

(** ** Derivatives are unique *)

Lemma is_deriv_unique f g t a b :
  (forall u, f u = g u) -> is_deriv f t a -> is_deriv g t b -> a = b.
Proof.
  intros Hfg (H1 & H2 & H3) (K1 & K2 & K3).
  apply v3_eq.
  - eapply uniqueness_limite; [exact H1|]. eapply derivable_pt_lim_ext; [|exact K1].
    intros u; cbn beta. rewrite Hfg; reflexivity.
  - eapply uniqueness_limite; [exact H2|]. eapply derivable_pt_lim_ext; [|exact K2].
    intros u; cbn beta. rewrite Hfg; reflexivity.
  - eapply uniqueness_limite; [exact H3|]. eapply derivable_pt_lim_ext; [|exact K3].
    intros u; cbn beta. rewrite Hfg; reflexivity.
Qed.

Lemma is_deriv_n_unique k : forall f g t a b,
  (forall u, f u = g u) -> is_deriv_n k f t a -> is_deriv_n k g t b -> a = b.
Proof.
  induction k as [|k IH]; intros f g t a b Hfg Ha Hb.
  - simpl in *. rewrite <- Ha, <- Hb. apply Hfg.
  - destruct Ha as (f' & Hf' & Ha). destruct Hb as (g' & Hg' & Hb).
    refine (IH f' g' t a b _ Ha Hb). intros u. exact (is_deriv_unique f g u _ _ Hfg (Hf' u) (Hg' u)).
Qed.

Lemma curve_deriv_n_eq k P T t a : is_deriv_n k (curve P T) t a -> a = curve (hodo_n k T P) T t.
Proof.
  intros H. exact (is_deriv_n_unique k _ _ t _ _ (fun _ => eq_refl) H (curve_is_deriv_n k P T t)).
Qed.

(** ** Evaluation *)

Ltac shape_cases Hs :=
  destruct Hs as [pi E Hc a b c d Ep|pi E Hc a b c d Ep|pi E Hc a b c d e Ep|pi E Hc a b c d Ep
    |pi E Hc a b c d e Ep|pi E Hc a b c d e f Ep|pi E Hc a b c d e f h Ep].

Ltac vsimp := cbn [vx vy vz vadd vsub vopp vscal vdivs vzero fst snd ev_coefs].

Lemma eval_curve_ok pData T x pi pts s :
  com_shape pData T x pi pts ->
  exists co, evaluateCurveAtTime pData pi s = Ok co /\ ev_coefs co x = bez3 pts s.
Proof.
  intros Hs. unfold evaluateCurveAtTime.
  shape_cases Hs; rewrite E; subst pi; eexists; (split; [reflexivity|]);
    bez_norm; unfold ev_coefs; apply v3_eq; vsimp; ring.
Qed.

Lemma curve_at_sT P T s : T <> 0 -> curve P T (s * T) = bez3 P s.
Proof. intros H. unfold curve. replace (s * T / T) with s by (field; assumption). reflexivity. Qed.

Lemma eval_acc_ok pData T x pi pts s : T <> 0 ->
  com_shape pData T x pi pts ->
  exists co, evaluateAccelerationCurveAtTime pData pi T s = Ok co /\
    ev_coefs co x = bez3 (hodo_n 2 T pts) s.
Proof.
  intros HT Hs. unfold evaluateAccelerationCurveAtTime.
  shape_cases Hs; rewrite E; subst pi; eexists; (split; [reflexivity|]);
    hodo_vals; bez_norm; unfold ev_coefs; apply v3_eq; vsimp; field; assumption.
Qed.

Lemma final_vel_ok pData T x pi pts : T <> 0 ->
  com_shape pData T x pi pts ->
  exists co, computeFinalVelocityPoint pData T = Ok co /\
    ev_coefs co x = last (hodo_n 1 T pts) vzero.
Proof.
  intros HT Hs. unfold computeFinalVelocityPoint.
  shape_cases Hs; rewrite E.
  - unfold c0_dc0_c1_computeConstantWaypoints in Hc; cbv zeta in Hc;
    subst pi; injection Hc; intros; subst. eexists; (split; [reflexivity|]).
    hodo_vals; unfold ev_coefs; apply v3_eq; vsimp; field; assumption.
  - cbn -[c0_dc0_dc1_computeConstantWaypoints]. unfold c0_dc0_dc1_computeFinalVelocityPoint.
    rewrite Hc. cbn [bind]. eexists; (split; [reflexivity|]).
    hodo_vals; unfold ev_coefs; apply v3_eq; vsimp; field; assumption.
  - unfold c0_dc0_dc1_c1_computeConstantWaypoints in Hc; cbv zeta in Hc;
    subst pi; injection Hc; intros; subst. eexists; (split; [reflexivity|]).
    hodo_vals; unfold ev_coefs; apply v3_eq; vsimp; field; assumption.
  - unfold c0_dc0_ddc0_computeConstantWaypoints in Hc; cbv zeta in Hc;
    subst pi; injection Hc; intros; subst. eexists; (split; [reflexivity|]).
    hodo_vals; unfold ev_coefs; apply v3_eq; vsimp; field; assumption.
  - unfold c0_dc0_ddc0_c1_computeConstantWaypoints in Hc; cbv zeta in Hc;
    subst pi; injection Hc; intros; subst. eexists; (split; [reflexivity|]).
    hodo_vals; unfold ev_coefs; apply v3_eq; vsimp; field; assumption.
  - unfold c0_dc0_ddc0_dc1_c1_computeConstantWaypoints in Hc; cbv zeta in Hc;
    subst pi; injection Hc; intros; subst. eexists; (split; [reflexivity|]).
    hodo_vals; unfold ev_coefs; apply v3_eq; vsimp; field; assumption.
  - unfold c0_dc0_ddc0_ddc1_dc1_c1_computeConstantWaypoints in Hc; cbv zeta in Hc;
    subst pi; injection Hc; intros; subst. eexists; (split; [reflexivity|]).
    hodo_vals; unfold ev_coefs; apply v3_eq; vsimp; field; assumption.
Qed.
