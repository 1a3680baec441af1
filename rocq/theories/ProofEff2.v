(** End-effector curves: evaluation at a time. *)
From Verif Require Import Vec SpecBezier ModelData ModelWaypointsJerk ModelDispatch ModelCont ModelTraj ModelEff
  SpecCom SpecEff ProofBezier ProofCurve ProofWaypoints ProofWaypoints2 ProofEff.
Open Scope R_scope.

Ltac eff_flag := match goal with E : flag_of _ = _ |- _ => rewrite E end.
Ltac eff_eval Hs f := eff_cases Hs; unfold f; eff_flag; (eexists; split; [reflexivity|]).
Ltac ecbn := vcbn; cbn [fst snd]; vcbn.
Definition eval_err (flag : Z) (v : vec3) : vec3 := if Z.eqb flag F_jerk then v else vzero.

(** pi of the one-free-point flag starts at c0 and ends at c1 *)
Lemma eff_ends pData T xs pi pts : T <> 0 -> eff_shape pData T xs pi pts ->
  nth 0 pi vzero = c0 pData /\ last pi vzero = c1 pData.
Proof.
  intros HT Hs.
  inversion Hs as [? ? ? ? ? ? ? ? ? ? ? E Hcc Hp|? ? ? ? ? ? ? ? ? ? ? ? ? ? ? E Hcc Hp|? ? ? ? ? ? ? ? ? ? ? ? ? ? E Hcc Hp]; subst;
    injection Hcc; intros; subst; split; reflexivity.
Qed.

Lemma eval_curve_eff pData T xs pi pts s :
  eff_shape pData T xs pi pts ->
  exists w, evaluateCurveWaypointAtTime pData pi s = Ok w /\
    ev_wpn w xs = vadd (bez3 pts s)
      (eval_err (flag_of pData) (vscal ((1 - s) ^ 8) (vsub (last pi vzero) (nth 0 pi vzero)))).
Proof.
  intros Hs. eff_eval Hs evaluateCurveWaypointAtTime; unfold eval_err; try eff_flag; cbn [last nth Z.eqb Pos.eqb F_jerk F_x3 F_x5];
   simpl Z.eqb; cbv iota;
    bez_norm; apply v3_eq; ecbn; ring.
Qed.

Lemma eval_jerk_eff pData T xs pi pts s : T <> 0 -> flag_of pData <> F_x5 ->
  eff_shape pData T xs pi pts ->
  exists w, evaluateJerkCurveWaypointAtTime pData T pi s = Ok w /\
    ev_wpn w xs = bez3 (hodo_n 3 T pts) s.
Proof.
  intros HT Hf Hs. eff_cases Hs; [| |contradiction]; unfold evaluateJerkCurveWaypointAtTime; eff_flag;
    (eexists; split; [reflexivity|]); hodo_vals; bez_norm; apply v3_eq; ecbn; field; auto.
Qed.

Lemma eval_vel_j pData T xs pi pts s : T <> 0 -> flag_of pData = F_jerk ->
  eff_shape pData T xs pi pts ->
  exists w, evaluateVelocityCurveWaypointAtTime pData T pi s = Ok w /\
    ev_wpn w xs = vadd (bez3 (hodo_n 1 T pts) s)
      (vscal (- (8 / T) * (1 - s) ^ 7) (vsub (last pi vzero) (nth 0 pi vzero))).
Proof.
  intros HT Hf Hs. eff_cases Hs; try (rewrite E in Hf; discriminate); unfold evaluateVelocityCurveWaypointAtTime; eff_flag;
    (eexists; split; [reflexivity|]); hodo_vals; bez_norm; cbn [last nth]; apply v3_eq; ecbn; field; auto.
Qed.

Lemma eval_acc_j pData T xs pi pts s : T <> 0 -> flag_of pData = F_jerk ->
  eff_shape pData T xs pi pts ->
  exists w, evaluateAccelerationCurveWaypointAtTime pData T pi s = Ok w /\
    ev_wpn w xs = vadd (bez3 (hodo_n 2 T pts) s)
      (vscal (56 / (T * T) * (1 - s) ^ 6) (vsub (last pi vzero) (nth 0 pi vzero))).
Proof.
  intros HT Hf Hs. eff_cases Hs; try (rewrite E in Hf; discriminate); unfold evaluateAccelerationCurveWaypointAtTime; eff_flag;
    (eexists; split; [reflexivity|]); hodo_vals; bez_norm; cbn [last nth]; apply v3_eq; ecbn; field; auto.
Qed.

Lemma mono1_poly P k :
  mono1 P k = IZR (ibern (pred (length P)) k) *
    sumf (S k) (fun j => (-1) ^ (k - j) * IZR (ibern k j) * nth j P 0).
Proof.
  unfold mono1, ibern. rewrite INR_IZR_INZ. f_equal. apply sumf_ext. intros j _. rewrite INR_IZR_INZ. reflexivity.
Qed.
Ltac mono_norm :=
  rewrite ?mono1_poly; cbn [map length pred sumf nth Nat.sub pow];
  repeat match goal with
  | |- context [ibern ?n ?i] =>
      let v := eval vm_compute in (ibern n i) in change (ibern n i) with v
  end.

(** the fixed points of the x3 curve *)
Definition fixed3 (pi : list vec3) : list vec3 := firstn 4 pi ++ [vzero;vzero;vzero] ++ skipn 7 pi.

Lemma eval_vel_x3 pData T xs pi pts s : T <> 0 -> flag_of pData = F_x3 ->
  eff_shape pData T xs pi pts ->
  exists w, evaluateVelocityCurveWaypointAtTime pData T pi s = Ok w /\
    ev_wpn w xs = vadd (bez3 (hodo_n 1 T pts) s) (moved sigma_vel (hodo_n 1 T (fixed3 pi)) s).
Proof.
  intros HT Hf Hs. eff_cases Hs; try (rewrite E in Hf; discriminate); unfold evaluateVelocityCurveWaypointAtTime; eff_flag;
    (eexists; split; [reflexivity|]); unfold fixed3; cbn [firstn skipn app]; hodo_vals; bez_norm;
    unfold moved, mono; cbn [map length nth seq fold_right sigma_vel sigma_acc];
    apply v3_eq; ecbn; mono_norm; field; auto.
Qed.

Lemma eval_acc_x3 pData T xs pi pts s : T <> 0 -> flag_of pData = F_x3 ->
  eff_shape pData T xs pi pts ->
  exists w, evaluateAccelerationCurveWaypointAtTime pData T pi s = Ok w /\
    ev_wpn w xs = vadd (bez3 (hodo_n 2 T pts) s) (moved sigma_acc (hodo_n 2 T (fixed3 pi)) s).
Proof.
  intros HT Hf Hs. eff_cases Hs; try (rewrite E in Hf; discriminate); unfold evaluateAccelerationCurveWaypointAtTime; eff_flag;
    (eexists; split; [reflexivity|]); unfold fixed3; cbn [firstn skipn app]; hodo_vals; bez_norm;
    unfold moved, mono; cbn [map length nth seq fold_right sigma_vel sigma_acc];
    apply v3_eq; ecbn; mono_norm; field; auto.
Qed.

(** * Statements on the curve *)
Lemma c32_curve pData T xs s :
  In (flag_of pData) effector_flags -> length xs = eff_free (flag_of pData) -> 0 < T ->
  exists pi cv w, computeConstantWaypoints pData T = Ok pi /\ eff_curve pData T xs = Ok cv /\
    evaluateCurveWaypointAtTime pData pi s = Ok w /\
    ev_wpn w xs = vadd (cv_fun cv (s * T))
      (if Z.eqb (flag_of pData) F_jerk then vscal ((1 - s) ^ 8) (vsub (c1 pData) (c0 pData)) else vzero).
Proof.
  intros Hin Hl HT. assert (HT0 : T <> 0) by lra.
  destruct (eff_curve_ok pData T xs Hin Hl HT) as (pi & pts & Hc & Hs & He).
  destruct (eff_ends _ _ _ _ _ HT0 Hs) as [E0 E1].
  destruct (eval_curve_eff _ _ _ _ _ s Hs) as (w & Hw & Hv). rewrite E0, E1 in Hv.
  exists pi, (BCurve pts T), w. do 3 (split; [assumption|]). rewrite Hv. unfold cv_fun, eval_err. cbn [bc_pts bc_T].
  rewrite curve_at_sT by exact HT0. reflexivity.
Qed.

Lemma c32_jerk pData T xs s :
  In (flag_of pData) effector_flags -> flag_of pData <> F_x5 -> length xs = eff_free (flag_of pData) -> 0 < T ->
  exists pi cv w, computeConstantWaypoints pData T = Ok pi /\ eff_curve pData T xs = Ok cv /\
    evaluateJerkCurveWaypointAtTime pData T pi s = Ok w /\ is_deriv_n 3 (cv_fun cv) (s * T) (ev_wpn w xs).
Proof.
  intros Hin Hf Hl HT. assert (HT0 : T <> 0) by lra.
  destruct (eff_curve_ok pData T xs Hin Hl HT) as (pi & pts & Hc & Hs & He).
  destruct (eval_jerk_eff _ _ _ _ _ s HT0 Hf Hs) as (w & Hw & Hv).
  exists pi, (BCurve pts T), w. do 3 (split; [assumption|]). rewrite Hv, <- (curve_at_sT _ T s) by exact HT0.
  apply curve_is_deriv_n.
Qed.

Lemma vadd_sub a b : vsub (vadd a b) b = a.
Proof. apply v3_eq; simpl; ring. Qed.

Lemma c33_j pData T xs s :
  flag_of pData = F_jerk -> length xs = 1%nat -> 0 < T ->
  exists pi cv wv wa, computeConstantWaypoints pData T = Ok pi /\ eff_curve pData T xs = Ok cv /\
    evaluateVelocityCurveWaypointAtTime pData T pi s = Ok wv /\
    evaluateAccelerationCurveWaypointAtTime pData T pi s = Ok wa /\
    is_deriv_n 1 (cv_fun cv) (s * T)
      (vsub (ev_wpn wv xs) (vscal (- (8 / T) * (1 - s) ^ 7) (vsub (c1 pData) (c0 pData)))) /\
    is_deriv_n 2 (cv_fun cv) (s * T)
      (vsub (ev_wpn wa xs) (vscal (56 / (T * T) * (1 - s) ^ 6) (vsub (c1 pData) (c0 pData)))).
Proof.
  intros Hf Hl HT. assert (HT0 : T <> 0) by lra.
  assert (Hin : In (flag_of pData) effector_flags) by (rewrite Hf; left; reflexivity).
  destruct (eff_curve_ok pData T xs Hin ltac:(rewrite Hf; exact Hl) HT) as (pi & pts & Hc & Hs & He).
  destruct (eff_ends _ _ _ _ _ HT0 Hs) as [E0 E1].
  destruct (eval_vel_j _ _ _ _ _ s HT0 Hf Hs) as (wv & Hw & Hv). rewrite E0, E1 in Hv.
  destruct (eval_acc_j _ _ _ _ _ s HT0 Hf Hs) as (wa & Hw' & Hv'). rewrite E0, E1 in Hv'.
  exists pi, (BCurve pts T), wv, wa. do 4 (split; [assumption|]).
  rewrite Hv, Hv', !vadd_sub, <- !(curve_at_sT _ T s) by exact HT0.
  split; apply curve_is_deriv_n.
Qed.

Lemma c33_x3 pData T xs s :
  flag_of pData = F_x3 -> length xs = 3%nat -> 0 < T ->
  exists pi cv cv0 wv wa, computeConstantWaypoints pData T = Ok pi /\ eff_curve pData T xs = Ok cv /\
    eff_curve pData T [vzero;vzero;vzero] = Ok cv0 /\
    evaluateVelocityCurveWaypointAtTime pData T pi s = Ok wv /\
    evaluateAccelerationCurveWaypointAtTime pData T pi s = Ok wa /\
    is_deriv_n 1 (cv_fun cv) (s * T) (vsub (ev_wpn wv xs) (moved sigma_vel (hodo_n 1 T (bc_pts cv0)) s)) /\
    is_deriv_n 2 (cv_fun cv) (s * T) (vsub (ev_wpn wa xs) (moved sigma_acc (hodo_n 2 T (bc_pts cv0)) s)).
Proof.
  intros Hf Hl HT. assert (HT0 : T <> 0) by lra.
  assert (Hin : In (flag_of pData) effector_flags) by (rewrite Hf; right; left; reflexivity).
  destruct (eff_curve_ok pData T xs Hin ltac:(rewrite Hf; exact Hl) HT) as (pi & pts & Hc & Hs & He).
  destruct (eff_curve_ok pData T [vzero;vzero;vzero] Hin ltac:(rewrite Hf; reflexivity) HT) as (pi' & pts' & Hc' & Hs' & He').
  rewrite Hc in Hc'. injection Hc' as <-.
  assert (Hfix : fixed3 pi = pts').
  { clear - Hs' Hf. inversion Hs' as [? ? ? ? ? ? ? ? ? ? ? E Hcc Hp|? ? ? ? ? ? ? ? ? ? ? ? ? ? ? E Hcc Hp|? ? ? ? ? ? ? ? ? ? ? ? ? ? E Hcc Hp];
      subst; reflexivity. }
  destruct (eval_vel_x3 _ _ _ _ _ s HT0 Hf Hs) as (wv & Hw & Hv).
  destruct (eval_acc_x3 _ _ _ _ _ s HT0 Hf Hs) as (wa & Hw' & Hv').
  exists pi, (BCurve pts T), (BCurve pts' T), wv, wa. do 5 (split; [assumption|]). cbn [bc_pts].
  rewrite Hv, Hv', Hfix, !vadd_sub, <- !(curve_at_sT _ T s) by exact HT0.
  split; apply curve_is_deriv_n.
Qed.

Lemma moved_ends sigma P : length sigma = length P -> nth 0 sigma 0%nat = 0%nat ->
  (forall k, (0 < k < length sigma)%nat -> nth k sigma k <> 0%nat) ->
  moved sigma P 0 = vzero /\ moved sigma P 1 = vzero.
Proof.
  intros Hl H0 Hk.
  assert (Hg : forall s, (s = 0 \/ s = 1) -> moved sigma P s = vzero).
  { intros s Hs. unfold moved.
    assert (Hz : forall l, (forall k, In k l -> (k < length sigma)%nat) ->
       fold_right vadd vzero (map (fun k => vscal (s ^ nth k sigma k - s ^ k) (mono P k)) l) = vzero).
    { induction l as [|k l IH]; intros Hb; [reflexivity|]. cbn [map fold_right].
      rewrite IH by (intros; apply Hb; right; assumption).
      assert (E : s ^ nth k sigma k - s ^ k = 0).
      { destruct Hs as [-> | ->]; [|rewrite !pow1; ring].
        destruct k as [|k]; [rewrite H0; ring|].
        specialize (Hk (S k) ltac:(split; [lia|apply Hb; left; reflexivity])).
        rewrite !pow_ne_zero by (assumption || discriminate). ring. }
      rewrite E. apply v3_eq; simpl; ring. }
    apply Hz. intros k Hin. apply in_seq in Hin. lia. }
  split; apply Hg; tauto.
Qed.

(** * Five free points *)
Definition ex3 (a b c : R) : list vec3 := [V3 a 0 0; V3 b 0 0; V3 c 0 0; vzero; vzero].
Definition ex2 (a b : R) : list vec3 := [vzero; vzero; vzero; V3 a 0 0; V3 b 0 0].

Definition x5_pts (pi xs : list vec3) : list vec3 := firstn 4 pi ++ xs ++ skipn 9 pi.
Lemma eff_x5 pData T : flag_of pData = F_x5 -> 0 < T ->
  exists pi a0 a1 a2 a3 a9 a10 a11 a12, computeConstantWaypoints pData T = Ok pi /\
    pi = [a0;a1;a2;a3;vzero;vzero;vzero;vzero;vzero;a9;a10;a11;a12] /\
    forall xs, length xs = 5%nat -> eff_curve pData T xs = Ok (BCurve (x5_pts pi xs) T).
Proof.
  intros Hf HT.
  assert (Hin : In (flag_of pData) effector_flags) by (rewrite Hf; right; right; left; reflexivity).
  destruct (eff_curve_ok pData T [vzero;vzero;vzero;vzero;vzero] Hin ltac:(rewrite Hf; reflexivity) HT) as (pi & pts & Hc & Hs & He).
  assert (Hp : exists a0 a1 a2 a3 a9 a10 a11 a12, pi = [a0;a1;a2;a3;vzero;vzero;vzero;vzero;vzero;a9;a10;a11;a12]).
  { inversion Hs as [? ? ? ? ? ? ? ? ? ? ? E Hcc Hp|? ? ? ? ? ? ? ? ? ? ? ? ? ? ? E Hcc Hp|? ? ? ? ? ? ? ? ? ? ? ? ? ? E Hcc Hp].
    exists a0, a1, a2, a3, a9, a10, a11, a12. exact Hp. }
  destruct Hp as (a0 & a1 & a2 & a3 & a9 & a10 & a11 & a12 & Hp).
  exists pi, a0, a1, a2, a3, a9, a10, a11, a12. split; [exact Hc|]. split; [exact Hp|].
  intros xs Hl. destruct (eff_curve_ok pData T xs Hin ltac:(rewrite Hf; exact Hl) HT) as (pi' & pts' & Hc' & Hs' & He').
  rewrite Hc in Hc'. injection Hc' as <-. rewrite He'. do 2 f_equal. subst pi. unfold x5_pts.
  inversion Hs'; subst; try (simpl in Hl; discriminate).
  match goal with H : _ :: _ = _ :: _ |- _ => injection H; intros; subst end. reflexivity.
Qed.

Lemma x5_vel_lin pData T pi a0 a1 a2 a3 a9 a10 a11 a12 s : T <> 0 -> flag_of pData = F_x5 ->
  pi = [a0;a1;a2;a3;vzero;vzero;vzero;vzero;vzero;a9;a10;a11;a12] ->
  exists w, evaluateVelocityCurveWaypointAtTime pData T pi s = Ok w /\
   forall a b c,
    vx (ev_wpn w (ex3 a b c)) - vx (bez3 (hodo_n 1 T (x5_pts pi (ex3 a b c))) s) =
    (vx (ev_wpn w (ex3 0 0 0)) - vx (bez3 (hodo_n 1 T (x5_pts pi (ex3 0 0 0))) s))
    + / T * ((1 - 1980 * s ^ 3 * (1 - s) ^ 7 * (1 - 3 * s)) * a
             + (1 - 792 * s ^ 4 * (1 - s) ^ 6 * (5 - 12 * s)) * b
             + (1 - 5544 * s ^ 5 * (1 - s) ^ 5 * (1 - 2 * s)) * c).
Proof.
  intros HT Hf ->. unfold evaluateVelocityCurveWaypointAtTime; rewrite Hf.
  eexists; split; [reflexivity|]. intros a b c. unfold ex3, x5_pts; cbn [firstn skipn app]; hodo_vals; bez_norm; ecbn. field. exact HT.
Qed.

Lemma x5_acc_lin pData T pi a0 a1 a2 a3 a9 a10 a11 a12 s : T <> 0 -> flag_of pData = F_x5 ->
  pi = [a0;a1;a2;a3;vzero;vzero;vzero;vzero;vzero;a9;a10;a11;a12] ->
  exists w, evaluateAccelerationCurveWaypointAtTime pData T pi s = Ok w /\
   forall a b,
    vx (ev_wpn w (ex2 a b)) - vx (bez3 (hodo_n 2 T (x5_pts pi (ex2 a b))) s) =
    (vx (ev_wpn w (ex2 0 0)) - vx (bez3 (hodo_n 2 T (x5_pts pi (ex2 0 0))) s))
    - / (T * T) * (792 * s ^ 5 * (1 - s) ^ 3 * (42 * (1 - s) ^ 2 - 70 * s * (1 - s) + 20 * s ^ 2) * a
             + 495 * s ^ 6 * (1 - s) ^ 2 * (56 * (1 - s) ^ 2 - 64 * s * (1 - s) + 12 * s ^ 2) * b).
Proof.
  intros HT Hf ->. unfold evaluateAccelerationCurveWaypointAtTime; rewrite Hf.
  eexists; split; [reflexivity|]. intros a b. unfold ex2, x5_pts; cbn [firstn skipn app]; hodo_vals; bez_norm; ecbn. field. exact HT.
Qed.

Lemma x5_jerk_lin pData T pi a0 a1 a2 a3 a9 a10 a11 a12 s : T <> 0 -> flag_of pData = F_x5 ->
  pi = [a0;a1;a2;a3;vzero;vzero;vzero;vzero;vzero;a9;a10;a11;a12] ->
  exists w, evaluateJerkCurveWaypointAtTime pData T pi s = Ok w /\
   forall a b,
    vx (ev_wpn w (ex2 a b)) - vx (bez3 (hodo_n 3 T (x5_pts pi (ex2 a b))) s) =
    (vx (ev_wpn w (ex2 0 0)) - vx (bez3 (hodo_n 3 T (x5_pts pi (ex2 0 0))) s))
    - / (T * T * T) * (792 * s ^ 4 * (1 - s) ^ 2 * (210 * (1 - s) ^ 3 - 630 * s * (1 - s) ^ 2 + 420 * s ^ 2 * (1 - s) - 60 * s ^ 3) * a
             + 495 * s ^ 5 * (1 - s) * (336 * (1 - s) ^ 3 - 672 * s * (1 - s) ^ 2 + 288 * s ^ 2 * (1 - s) - 24 * s ^ 3) * b).
Proof.
  intros HT Hf ->. unfold evaluateJerkCurveWaypointAtTime; rewrite Hf.
  eexists; split; [reflexivity|]. intros a b. unfold ex2, x5_pts; cbn [firstn skipn app]; hodo_vals; bez_norm; ecbn. field. exact HT.
Qed.

Lemma not_deriv_x k P T s v : T <> 0 -> vx v - vx (bez3 (hodo_n k T P) s) <> 0 ->
  ~ is_deriv_n k (cv_fun (BCurve P T)) (s * T) v.
Proof.
  intros HT H Hd. apply H. unfold cv_fun in Hd. cbn [bc_pts bc_T] in Hd.
  rewrite (curve_deriv_n_eq _ _ _ _ _ Hd), curve_at_sT by exact HT. ring.
Qed.

Lemma c33_x5_vel pData T s :
  flag_of pData = F_x5 -> 0 < T ->
  exists pi xs cv w, length xs = 5%nat /\ computeConstantWaypoints pData T = Ok pi /\ eff_curve pData T xs = Ok cv /\
    evaluateVelocityCurveWaypointAtTime pData T pi s = Ok w /\ ~ is_deriv_n 1 (cv_fun cv) (s * T) (ev_wpn w xs).
Proof.
  intros Hf HT. assert (HT0 : T <> 0) by lra. assert (Hi : / T <> 0) by (apply Rinv_neq_0_compat; exact HT0).
  destruct (eff_x5 pData T Hf HT) as (pi & a0 & a1 & a2 & a3 & a9 & a10 & a11 & a12 & Hc & Hp & Hcv).
  destruct (x5_vel_lin pData T pi a0 a1 a2 a3 a9 a10 a11 a12 s HT0 Hf Hp) as (w & Hw & Hlin).
  exists pi.
  set (D := fun xs => vx (ev_wpn w xs) - vx (bez3 (hodo_n 1 T (x5_pts pi xs)) s)) in *.
  assert (Hfin : (exists a b c, D (ex3 a b c) <> 0) ->
    exists xs cv w0, length xs = 5%nat /\ computeConstantWaypoints pData T = Ok pi /\ eff_curve pData T xs = Ok cv /\
      evaluateVelocityCurveWaypointAtTime pData T pi s = Ok w0 /\ ~ is_deriv_n 1 (cv_fun cv) (s * T) (ev_wpn w0 xs)).
  { intros (a & b & c & HD). exists (ex3 a b c), (BCurve (x5_pts pi (ex3 a b c)) T), w.
    split; [reflexivity|]. split; [exact Hc|]. split; [apply Hcv; reflexivity|]. split; [exact Hw|].
    apply not_deriv_x; assumption. }
  apply Hfin. clear Hfin Hcv.
  destruct (Req_EM_T (D (ex3 0 0 0)) 0) as [E0|]; [|eauto].
  assert (HL : forall a b c, D (ex3 a b c) = D (ex3 0 0 0) + / T * ((1 - 1980 * s ^ 3 * (1 - s) ^ 7 * (1 - 3 * s)) * a
             + (1 - 792 * s ^ 4 * (1 - s) ^ 6 * (5 - 12 * s)) * b
             + (1 - 5544 * s ^ 5 * (1 - s) ^ 5 * (1 - 2 * s)) * c)) by exact Hlin.
  rewrite E0 in HL.
  destruct (Req_EM_T (1980 * s ^ 3 * (1 - s) ^ 7 * (1 - 3 * s)) 1) as [K4|K4].
  2:{ exists 1, 0, 0. rewrite HL. replace (_ + _) with (/ T * (1 - 1980 * s ^ 3 * (1 - s) ^ 7 * (1 - 3 * s))) by ring.
      apply Rmult_integral_contrapositive_currified; [exact Hi|lra]. }
  destruct (Req_EM_T (792 * s ^ 4 * (1 - s) ^ 6 * (5 - 12 * s)) 1) as [K5|K5].
  2:{ exists 0, 1, 0. rewrite HL. replace (_ + _) with (/ T * (1 - 792 * s ^ 4 * (1 - s) ^ 6 * (5 - 12 * s))) by ring.
      apply Rmult_integral_contrapositive_currified; [exact Hi|lra]. }
  destruct (Req_EM_T (5544 * s ^ 5 * (1 - s) ^ 5 * (1 - 2 * s)) 1) as [K6|K6].
  2:{ exists 0, 0, 1. rewrite HL. replace (_ + _) with (/ T * (1 - 5544 * s ^ 5 * (1 - s) ^ 5 * (1 - 2 * s))) by ring.
      apply Rmult_integral_contrapositive_currified; [exact Hi|lra]. }
  exfalso.
  assert (Hs0 : s <> 0) by (intros ->; ring_simplify in K4; lra).
  assert (Hs1 : 1 - s <> 0) by (intros E; rewrite E in K4; ring_simplify in K4; lra).
  assert (P36 : s ^ 3 * (1 - s) ^ 6 <> 0) by (apply Rmult_integral_contrapositive_currified; apply pow_nonzero; assumption).
  assert (P45 : s ^ 4 * (1 - s) ^ 5 <> 0) by (apply Rmult_integral_contrapositive_currified; apply pow_nonzero; assumption).
  assert (Q1 : 5 - 30 * s + 39 * s * s = 0).
  { apply (Rmult_eq_reg_l (396 * (s ^ 3 * (1 - s) ^ 6))); [|lra].
    transitivity (1980 * s ^ 3 * (1 - s) ^ 7 * (1 - 3 * s) - 792 * s ^ 4 * (1 - s) ^ 6 * (5 - 12 * s)); [ring|rewrite K4, K5; ring]. }
  assert (Q2 : 5 - 24 * s + 26 * s * s = 0).
  { apply (Rmult_eq_reg_l (792 * (s ^ 4 * (1 - s) ^ 5))); [|lra].
    transitivity (792 * s ^ 4 * (1 - s) ^ 6 * (5 - 12 * s) - 5544 * s ^ 5 * (1 - s) ^ 5 * (1 - 2 * s)); [ring|rewrite K5, K6; ring]. }
  assert (s = 5 / 12) by lra. subst s. lra.
Qed.

Lemma c33_x5_acc pData T s :
  flag_of pData = F_x5 -> 0 < T -> 0 < s < 1 ->
  exists pi xs cv w, length xs = 5%nat /\ computeConstantWaypoints pData T = Ok pi /\ eff_curve pData T xs = Ok cv /\
    evaluateAccelerationCurveWaypointAtTime pData T pi s = Ok w /\ ~ is_deriv_n 2 (cv_fun cv) (s * T) (ev_wpn w xs).
Proof.
  intros Hf HT Hs. assert (HT0 : T <> 0) by lra.
  assert (Hi : / (T * T) <> 0) by (apply Rinv_neq_0_compat; apply Rmult_integral_contrapositive_currified; exact HT0).
  destruct (eff_x5 pData T Hf HT) as (pi & a0 & a1 & a2 & a3 & a9 & a10 & a11 & a12 & Hc & Hp & Hcv).
  destruct (x5_acc_lin pData T pi a0 a1 a2 a3 a9 a10 a11 a12 s HT0 Hf Hp) as (w & Hw & Hlin).
  exists pi.
  set (D := fun xs => vx (ev_wpn w xs) - vx (bez3 (hodo_n 2 T (x5_pts pi xs)) s)) in *.
  assert (Hfin : (exists a b, D (ex2 a b) <> 0) ->
    exists xs cv w0, length xs = 5%nat /\ computeConstantWaypoints pData T = Ok pi /\ eff_curve pData T xs = Ok cv /\
      evaluateAccelerationCurveWaypointAtTime pData T pi s = Ok w0 /\ ~ is_deriv_n 2 (cv_fun cv) (s * T) (ev_wpn w0 xs)).
  { intros (a & b & HD). exists (ex2 a b), (BCurve (x5_pts pi (ex2 a b)) T), w.
    split; [reflexivity|]. split; [exact Hc|]. split; [apply Hcv; reflexivity|]. split; [exact Hw|].
    apply not_deriv_x; assumption. }
  apply Hfin. clear Hfin Hcv.
  destruct (Req_EM_T (D (ex2 0 0)) 0) as [E0|]; [|eauto].
  assert (HL : forall a b, D (ex2 a b) = D (ex2 0 0) - / (T * T) *
    (792 * s ^ 5 * (1 - s) ^ 3 * (42 * (1 - s) ^ 2 - 70 * s * (1 - s) + 20 * s ^ 2) * a
     + 495 * s ^ 6 * (1 - s) ^ 2 * (56 * (1 - s) ^ 2 - 64 * s * (1 - s) + 12 * s ^ 2) * b)) by exact Hlin.
  rewrite E0 in HL.
  assert (Hp1 : forall i j, 0 < s ^ i * (1 - s) ^ j) by (intros; apply Rmult_lt_0_compat; apply pow_lt; lra).
  destruct (Req_EM_T (42 * (1 - s) ^ 2 - 70 * s * (1 - s) + 20 * s ^ 2) 0) as [K7|K7].
  2:{ exists 1, 0. rewrite HL. specialize (Hp1 5%nat 3%nat).
      replace (_ - _) with (- (/ (T * T) * ((792 * (s ^ 5 * (1 - s) ^ 3)) * (42 * (1 - s) ^ 2 - 70 * s * (1 - s) + 20 * s ^ 2)))) by ring.
      apply Ropp_neq_0_compat. repeat apply Rmult_integral_contrapositive_currified; solve [exact Hi|lra|exact K7]. }
  destruct (Req_EM_T (56 * (1 - s) ^ 2 - 64 * s * (1 - s) + 12 * s ^ 2) 0) as [K8|K8].
  2:{ exists 0, 1. rewrite HL. specialize (Hp1 6%nat 2%nat).
      replace (_ - _) with (- (/ (T * T) * ((495 * (s ^ 6 * (1 - s) ^ 2)) * (56 * (1 - s) ^ 2 - 64 * s * (1 - s) + 12 * s ^ 2)))) by ring.
      apply Ropp_neq_0_compat. repeat apply Rmult_integral_contrapositive_currified; solve [exact Hi|lra|exact K8]. }
  exfalso. assert (Hz : (1 - s) * (77 * (1 - s) - 55 * s) = 0) by lra.
  apply Rmult_integral in Hz. destruct Hz as [|Hz]; [lra|]. assert (s = 7 / 12) by lra. subst s. lra.
Qed.

Lemma c33_x5_jerk pData T s :
  flag_of pData = F_x5 -> 0 < T -> 0 < s < 1 ->
  exists pi xs cv w, length xs = 5%nat /\ computeConstantWaypoints pData T = Ok pi /\ eff_curve pData T xs = Ok cv /\
    evaluateJerkCurveWaypointAtTime pData T pi s = Ok w /\ ~ is_deriv_n 3 (cv_fun cv) (s * T) (ev_wpn w xs).
Proof.
  intros Hf HT Hs. assert (HT0 : T <> 0) by lra.
  assert (Hi : / (T * T * T) <> 0) by (apply Rinv_neq_0_compat; repeat apply Rmult_integral_contrapositive_currified; exact HT0).
  destruct (eff_x5 pData T Hf HT) as (pi & a0 & a1 & a2 & a3 & a9 & a10 & a11 & a12 & Hc & Hp & Hcv).
  destruct (x5_jerk_lin pData T pi a0 a1 a2 a3 a9 a10 a11 a12 s HT0 Hf Hp) as (w & Hw & Hlin).
  exists pi.
  set (D := fun xs => vx (ev_wpn w xs) - vx (bez3 (hodo_n 3 T (x5_pts pi xs)) s)) in *.
  assert (Hfin : (exists a b, D (ex2 a b) <> 0) ->
    exists xs cv w0, length xs = 5%nat /\ computeConstantWaypoints pData T = Ok pi /\ eff_curve pData T xs = Ok cv /\
      evaluateJerkCurveWaypointAtTime pData T pi s = Ok w0 /\ ~ is_deriv_n 3 (cv_fun cv) (s * T) (ev_wpn w0 xs)).
  { intros (a & b & HD). exists (ex2 a b), (BCurve (x5_pts pi (ex2 a b)) T), w.
    split; [reflexivity|]. split; [exact Hc|]. split; [apply Hcv; reflexivity|]. split; [exact Hw|].
    apply not_deriv_x; assumption. }
  apply Hfin. clear Hfin Hcv.
  destruct (Req_EM_T (D (ex2 0 0)) 0) as [E0|]; [|eauto].
  set (q := 1 - s) in *.
  set (k7 := 210 * q ^ 3 - 630 * s * q ^ 2 + 420 * s ^ 2 * q - 60 * s ^ 3) in *.
  set (k8 := 336 * q ^ 3 - 672 * s * q ^ 2 + 288 * s ^ 2 * q - 24 * s ^ 3) in *.
  assert (HL : forall a b, D (ex2 a b) = D (ex2 0 0) - / (T * T * T) *
    (792 * s ^ 4 * q ^ 2 * k7 * a + 495 * s ^ 5 * q * k8 * b)) by exact Hlin.
  rewrite E0 in HL.
  assert (Hq : 0 < q) by (unfold q; lra).
  assert (Hp1 : 0 < s ^ 4 * q ^ 2 /\ 0 < s ^ 5 * q) by (split; apply Rmult_lt_0_compat; try apply pow_lt; lra).
  destruct (Req_EM_T k7 0) as [K7|K7].
  2:{ exists 1, 0. rewrite HL.
      replace (_ - _) with (- (/ (T * T * T) * ((792 * (s ^ 4 * q ^ 2)) * k7))) by ring.
      apply Ropp_neq_0_compat. repeat apply Rmult_integral_contrapositive_currified; solve [exact Hi|lra|exact K7]. }
  destruct (Req_EM_T k8 0) as [K8|K8].
  2:{ exists 0, 1. rewrite HL.
      replace (_ - _) with (- (/ (T * T * T) * ((495 * (s ^ 5 * q)) * k8))) by ring.
      apply Ropp_neq_0_compat. repeat apply Rmult_integral_contrapositive_currified; solve [exact Hi|lra|exact K8]. }
  exfalso.
  (* k7/30 - 2 k8/24 = -q (21 q^2 - 35 s q + 10 s^2) *)
  assert (Hz : q * (21 * q ^ 2 - 35 * s * q + 10 * s ^ 2) = 0).
  { replace (q * (21 * q ^ 2 - 35 * s * q + 10 * s ^ 2)) with (k8 / 12 - k7 / 30) by (unfold k7, k8; field). lra. }
  apply Rmult_integral in Hz. destruct Hz as [|Hz]; [lra|].
  (* 10 k8/24 + s * quad = q (140 q^2 - 259 ...) *)
  assert (Hz2 : q * (140 * q ^ 2 - 259 * s * q + 85 * s ^ 2) = 0).
  { replace (q * (140 * q ^ 2 - 259 * s * q + 85 * s ^ 2)) with (10 * (k8 / 24) + s * (21 * q ^ 2 - 35 * s * q + 10 * s ^ 2)) by (unfold k8; field).
    rewrite K8, Hz. field. }
  apply Rmult_integral in Hz2. destruct Hz2 as [|Hz2]; [lra|].
  (* eliminate s^2 *)
  assert (Hz3 : q * (77 * q - 77 * s) = 0) by lra.
  apply Rmult_integral in Hz3. destruct Hz3 as [|Hz3]; [lra|]. assert (s = 1 / 2) by (unfold q in Hz3; lra). subst s. unfold q in *. lra.
Qed.

Lemma c33_x3_pts pData T xs : flag_of pData = F_x3 -> length xs = 3%nat -> 0 < T ->
  exists pi cv cv0 Pv Pa, computeConstantWaypoints pData T = Ok pi /\ eff_curve pData T xs = Ok cv /\
    eff_curve pData T [vzero;vzero;vzero] = Ok cv0 /\
    length Pv = 10%nat /\ deriv_points 1 (cv_fun cv0) T Pv /\ length Pa = 9%nat /\ deriv_points 2 (cv_fun cv0) T Pa /\
    forall s, exists wv wa, evaluateVelocityCurveWaypointAtTime pData T pi s = Ok wv /\
      evaluateAccelerationCurveWaypointAtTime pData T pi s = Ok wa /\
      is_deriv_n 1 (cv_fun cv) (s * T) (vsub (ev_wpn wv xs) (moved sigma_vel Pv s)) /\
      is_deriv_n 2 (cv_fun cv) (s * T) (vsub (ev_wpn wa xs) (moved sigma_acc Pa s)).
Proof.
  intros Hf Hl HT. destruct (c33_x3 pData T xs 0 Hf Hl HT) as (pi & cv & cv0 & _ & _ & E1 & E2 & E3 & _).
  assert (Hin : In (flag_of pData) effector_flags) by (rewrite Hf; cbn; tauto).
  assert (L0 : length [vzero;vzero;vzero] = eff_free (flag_of pData)) by (rewrite Hf; reflexivity).
  destruct (eff_curve_ok pData T _ Hin L0 HT) as (pi' & pts & _ & Hs & E3').
  rewrite E3 in E3'. injection E3' as ->. cbn [bc_pts].
  exists pi, cv, (BCurve pts T), (hodo_n 1 T pts), (hodo_n 2 T pts).
  split; [exact E1|]. split; [exact E2|]. split; [exact E3|].
  assert (Lp : length pts = 11%nat) by (inversion Hs; (reflexivity || (rewrite Hf in *; discriminate))).
  do 12 (destruct pts as [|? pts]; try discriminate Lp).
  split; [reflexivity|]. split; [apply deriv_points_hodo|]. split; [reflexivity|]. split; [apply deriv_points_hodo|].
  intros s. destruct (c33_x3 pData T xs s Hf Hl HT) as (pi1 & cv1 & cv2 & wv & wa & A1 & A2 & A3 & A4 & A5 & A6 & A7).
  rewrite E1 in A1. injection A1 as <-. rewrite E2 in A2. injection A2 as <-. rewrite E3 in A3. injection A3 as <-.
  exists wv, wa. repeat split; assumption.
Qed.
(** At both ends the values are right. *)
Lemma c33_x3_ends pData T xs s : flag_of pData = F_x3 -> length xs = 3%nat -> 0 < T -> s = 0 \/ s = 1 ->
  exists pi cv wv wa, computeConstantWaypoints pData T = Ok pi /\ eff_curve pData T xs = Ok cv /\
    evaluateVelocityCurveWaypointAtTime pData T pi s = Ok wv /\
    evaluateAccelerationCurveWaypointAtTime pData T pi s = Ok wa /\
    is_deriv_n 1 (cv_fun cv) (s * T) (ev_wpn wv xs) /\ is_deriv_n 2 (cv_fun cv) (s * T) (ev_wpn wa xs).
Proof.
  intros Hf Hl HT Hs. destruct (c33_x3_pts pData T xs Hf Hl HT) as (pi & cv & cv0 & Pv & Pa & E1 & E2 & _ & Lv & _ & La & _ & HS).
  destruct (HS s) as (wv & wa & A1 & A2 & A3 & A4).
  assert (Mv : moved sigma_vel Pv 0 = vzero /\ moved sigma_vel Pv 1 = vzero).
  { apply moved_ends; [now rewrite Lv|reflexivity|]. intros k Hk. cbn in Hk. do 10 (destruct k as [|k]; [cbn; lia|]). lia. }
  assert (Ma : moved sigma_acc Pa 0 = vzero /\ moved sigma_acc Pa 1 = vzero).
  { apply moved_ends; [now rewrite La|reflexivity|]. intros k Hk. cbn in Hk. do 9 (destruct k as [|k]; [cbn; lia|]). lia. }
  assert (V0 : forall a, vsub a vzero = a) by (intros [? ? ?]; unfold vsub, vzero; cbn; f_equal; lra).
  exists pi, cv, wv, wa. do 4 (split; [assumption|]).
  destruct Hs as [-> | ->]; rewrite ?(proj1 Mv), ?(proj1 Ma), ?(proj2 Mv), ?(proj2 Ma), V0 in *; split; assumption.
Qed.
(** From (0,0,0) to (1,0,0) at rest at both ends: in the middle the velocity and
    the acceleration are wrong whatever the free points. *)
Definition x3_pb : problem :=
  Problem [] vzero vzero vzero vzero (V3 1 0 0) vzero vzero vzero vzero false (Constraints F_x3 false 0 0) 0 0.
Lemma x3_cv0 : eff_curve x3_pb 1 [vzero;vzero;vzero] =
  Ok (BCurve [vzero;vzero;vzero;vzero;vzero;vzero;vzero;V3 1 0 0;V3 1 0 0;V3 1 0 0;V3 1 0 0] 1).
Proof.
  destruct (eff_curve_ok x3_pb 1 [vzero;vzero;vzero]) as (pi' & pts & _ & Hs & ->); [cbn; tauto|reflexivity|lra|].
  do 2 f_equal. inversion Hs as [? ? ? ? ? ? ? ? ? ? ? E|? ? ? ? ? ? ? ? ? ? ? ? ? ? ? E Hc|? ? ? ? ? ? ? ? ? ? ? ? ? ? E]; try discriminate; subst.
  injection Hc; intros; subst; clear.
  repeat (apply f_equal2; [try reflexivity; apply v3_eq; unfold vzero; ecbn; field|]). reflexivity.
Qed.
Lemma c33_x3_refuted xs : length xs = 3%nat -> exists pi cv wv wa,
  computeConstantWaypoints x3_pb 1 = Ok pi /\ eff_curve x3_pb 1 xs = Ok cv /\
  evaluateVelocityCurveWaypointAtTime x3_pb 1 pi (1 / 2) = Ok wv /\
  evaluateAccelerationCurveWaypointAtTime x3_pb 1 pi (1 / 2) = Ok wa /\
  ~ is_deriv_n 1 (cv_fun cv) (1 / 2 * 1) (ev_wpn wv xs) /\ ~ is_deriv_n 2 (cv_fun cv) (1 / 2 * 1) (ev_wpn wa xs).
Proof.
  intros Hl. destruct (c33_x3 x3_pb 1 xs (1 / 2) eq_refl Hl Rlt_0_1) as (pi & cv & cv0 & wv & wa & E1 & E2 & E3 & E4 & E5 & D1 & D2).
  rewrite x3_cv0 in E3. injection E3 as <-. cbn [bc_pts] in D1, D2.
  exists pi, cv, wv, wa. do 4 (split; [assumption|]). split; intros HD.
  - pose proof (is_deriv_n_unique 1 _ _ _ _ _ (fun _ => eq_refl) HD D1) as HE. apply (f_equal vx) in HE. revert HE.
    hodo_vals. unfold moved, mono; cbn [map length nth seq fold_right sigma_vel]. unfold vzero. ecbn. mono_norm. intros HE. lra.
  - pose proof (is_deriv_n_unique 2 _ _ _ _ _ (fun _ => eq_refl) HD D2) as HE. apply (f_equal vx) in HE. revert HE.
    hodo_vals. unfold moved, mono; cbn [map length nth seq fold_right sigma_acc]. unfold vzero. ecbn. mono_norm. intros HE. lra.
Qed.
