(** The returned curve at and between the samples. *)
From Flocq Require Import Core BinarySingleNaN.
From Coq Require Import List Lia Lra.
From Verif Require Import Vec SpecBezier SpecTime ModelData ModelUtils ModelWaypoints ModelDispatch SpecCom SpecCtr SpecGap Double ModelDouble ModelPtsDouble ModelCoefDouble ModelRowsDouble
  SpecDouble SpecDouble2 SpecGapDouble SpecPtsDouble SpecCoefDouble SpecRowsDouble SpecPlanDouble
  ProofBezier ProofCurve ProofWaypoints ProofWaypoints2 ProofGap ProofDouble6 ProofDouble7 ProofGapDouble ProofPtsDouble7 ProofPtsDouble8 ProofCoefDouble4 ProofRowsDouble2 ProofRowsDouble4 ProofRowsDouble5.
Import ListNotations.
Open Scope R_scope.

(** second derivatives of two curves with control points close to each other *)
Lemma deriv2_dev t P Q u ax E : 0 < t -> 0 <= u <= t -> axis ax -> length P = length Q -> (4 <= length P <= 7)%nat -> 0 <= E ->
  (forall i, Rabs (ProofEff8.coord ax P i - ProofEff8.coord ax Q i) <= E) ->
  Rabs (ax (curve (hodo_n 2 t P) t u) - ax (curve (hodo_n 2 t Q) t u)) <= 120 * (E / t ^ 2).
Proof.
  intros T0 Hu Hax L R E0 B. destruct (unit_inst t u T0 Hu) as [Eu Hs]. rewrite Eu, !curve_at_sT by lra. rewrite !bez3_ax by exact Hax. unfold bezl. rewrite !map_length.
  assert (LH : length (hodo_n 2 t Q) = length (hodo_n 2 t P)) by (cbn [hodo_n]; rewrite !ProofEff13.length_hodo, L; reflexivity). rewrite LH.
  set (m0 := Nat.pred (length (hodo_n 2 t P))). set (s := u / t) in *.
  replace (bez m0 (fun i => nth i (map ax (hodo_n 2 t P)) 0) s - bez m0 (fun i => nth i (map ax (hodo_n 2 t Q)) 0) s)
    with (bez m0 (fun i => 1 * nth i (map ax (hodo_n 2 t P)) 0 + (-1) * nth i (map ax (hodo_n 2 t Q)) 0) s)
    by (rewrite (bez_lin _ 1 (-1) (fun i => nth i (map ax (hodo_n 2 t P)) 0) (fun i => nth i (map ax (hodo_n 2 t Q)) 0)); ring).
  apply bez_bound; [exact Hs|]. intros i Hi.
  change (nth i (map ax (hodo_n 2 t P)) 0) with (ProofEff8.coord ax (hodo t (hodo t P)) i). change (nth i (map ax (hodo_n 2 t Q)) 0) with (ProofEff8.coord ax (hodo t (hodo t Q)) i).
  unfold m0 in Hi. cbn [hodo_n] in Hi. rewrite !ProofEff13.length_hodo in Hi.
  destruct (length P) as [|[|[|[|m]]]] eqn:LP; try lia. cbn [Nat.pred] in Hi.
  rewrite !(d2 ax Hax t m) by (congruence || lia).
  pose proof (B i) as B0. pose proof (B (S i)) as B1. pose proof (B (S (S i))) as B2.
  set (p0 := ProofEff8.coord ax P i) in *. set (p1 := ProofEff8.coord ax P (S i)) in *. set (p2 := ProofEff8.coord ax P (S (S i))) in *.
  set (q0 := ProofEff8.coord ax Q i) in *. set (q1 := ProofEff8.coord ax Q (S i)) in *. set (q2 := ProofEff8.coord ax Q (S (S i))) in *.
  set (N1 := INR (S (S (S m)))) in *. set (N2 := INR (S (S m))) in *.
  assert (HN : 0 <= N1 <= 6 /\ 0 <= N2 <= 5) by (unfold N1, N2; rewrite !INR_IZR_INZ; repeat split; apply IZR_le; lia).
  replace (1 * (N2 / t * (N1 / t * (p2 - 2 * p1 + p0))) + -1 * (N2 / t * (N1 / t * (q2 - 2 * q1 + q0)))) with (/ t ^ 2 * (N1 * N2) * ((p2 - q2) - 2 * (p1 - q1) + (p0 - q0))) by (field; lra).
  assert (It : 0 < / t ^ 2) by (apply Rinv_0_lt_compat, pow_lt; exact T0).
  rewrite Rabs_mult, (Rabs_pos_eq (/ t ^ 2 * _)) by (apply Rmult_le_pos; [lra|apply Rmult_le_pos; lra]).
  assert (Dq : Rabs ((p2 - q2) - 2 * (p1 - q1) + (p0 - q0)) <= 4 * E) by (apply Rabs_le_inv in B0, B1, B2; apply Rabs_le; lra).
  replace (120 * (E / t ^ 2)) with (/ t ^ 2 * 30 * (4 * E)) by (unfold Rdiv; ring).
  apply Rmult_le_compat; [apply Rmult_le_pos; [lra|apply Rmult_le_pos; lra]|apply Rabs_pos| |exact Dq].
  apply Rmult_le_compat_l; [lra|]. replace 30 with (6 * 5) by ring. apply Rmult_le_compat; lra.
Qed.

(** tolerances between two samples *)
Lemma norm1_axis : norm1 (V3 1 0 0) = 1 /\ norm1 (V3 0 1 0) = 1 /\ norm1 (V3 0 0 1) = 1.
Proof. unfold norm1. cbn [vx vy vz]. rewrite Rabs_R0, (Rabs_pos_eq 1) by lra. repeat split; ring. Qed.
Lemma norm1_opp v : norm1 (vopp v) = norm1 v.
Proof. unfold norm1, vopp. cbn [vx vy vz]. rewrite !Rabs_Ropp. reflexivity. Qed.
Lemma axis_dot ax : axis ax -> exists e, norm1 e = 1 /\ forall v, vdot e v = ax v.
Proof.
  destruct norm1_axis as (A & B & C). intros [->|[->| ->]]; [exists (V3 1 0 0)|exists (V3 0 1 0)|exists (V3 0 0 1)]; (split; [assumption|]); intros v; unfold vdot; cbn [vx vy vz]; ring.
Qed.
Lemma scale_gap n t M k a b h : 0 < t -> 0 <= M -> a <= b -> b <= a + h -> rate k n t M * ((b - a) * (b - a)) / 8 <= rate k n t M * (h * h) / 8.
Proof.
  intros T0 M0 Hab Hh. pose proof (rate_nonneg k n t M T0 M0). assert ((b - a) * (b - a) <= h * h) by (apply Rmult_le_compat; lra).
  assert (rate k n t M * ((b - a) * (b - a)) <= rate k n t M * (h * h)) by (apply Rmult_le_compat_l; lra). lra.
Qed.
Lemma kin_between cf M a b h K m u : 0 < bc_T cf -> 0 <= M -> Forall (within M) (bc_pts cf) -> 0 <= a -> a <= u <= b -> b <= a + h -> b <= bc_T cf ->
  vdot K (cv_fun cf a) <= m -> vdot K (cv_fun cf b) <= m -> vdot K (cv_fun cf u) <= m + norm1 K * gap_pos (Nat.pred (length (bc_pts cf))) (bc_T cf) M h.
Proof.
  intros T0 M0 HM Ha Hu Hh Hb Ka Kb. pose proof (gap_dot (bc_pts cf) (bc_T cf) M T0 HM M0 a b Ha ltac:(lra) Hb 0 K m Ka Kb u Hu) as G. eapply Rle_trans; [exact G|]. apply Rplus_le_compat_l.
  apply Rmult_le_compat_l; [unfold norm1; pose proof (Rabs_pos (vx K)); pose proof (Rabs_pos (vy K)); pose proof (Rabs_pos (vz K)); lra|]. apply scale_gap; lra.
Qed.
Lemma acc_between cf M a b h ax m u : 0 < bc_T cf -> 0 <= M -> Forall (within M) (bc_pts cf) -> 0 <= a -> a <= u <= b -> b <= a + h -> b <= bc_T cf -> axis ax ->
  (forall s, s = a \/ s = b -> exists v, is_deriv_n 2 (cv_fun cf) s v /\ Rabs (ax v) <= m) ->
  Rabs (ax (curve (hodo_n 2 (bc_T cf) (bc_pts cf)) (bc_T cf) u)) <= m + gap_acc (Nat.pred (length (bc_pts cf))) (bc_T cf) M h.
Proof.
  intros T0 M0 HM Ha Hu Hh Hb Hax H. destruct (axis_dot ax Hax) as (e & Ne & De).
  assert (At : forall s, s = a \/ s = b -> Rabs (ax (curve (hodo_n 2 (bc_T cf) (bc_pts cf)) (bc_T cf) s)) <= m).
  { intros s Hs. destruct (H s Hs) as (v & Dv & Bv). assert (Ev : v = curve (hodo_n 2 (bc_T cf) (bc_pts cf)) (bc_T cf) s) by (apply (is_deriv_n_unique 2 _ _ s _ _ (fun _ => eq_refl) Dv (curve_is_deriv_n 2 _ _ _))). rewrite <- Ev. exact Bv. }
  pose proof (Rabs_le_inv _ _ (At a (or_introl eq_refl))) as Aa. pose proof (Rabs_le_inv _ _ (At b (or_intror eq_refl))) as Ab. rewrite <- !De in Aa, Ab.
  assert (Op : forall v, vdot (vopp e) v = - vdot e v) by (intros v; unfold vdot, vopp; cbn [vx vy vz]; ring).
  pose proof (gap_dot (bc_pts cf) (bc_T cf) M T0 HM M0 a b Ha ltac:(lra) Hb 2 e m ltac:(apply Aa) ltac:(apply Ab) u Hu) as G1.
  pose proof (gap_dot (bc_pts cf) (bc_T cf) M T0 HM M0 a b Ha ltac:(lra) Hb 2 (vopp e) m ltac:(rewrite Op; lra) ltac:(rewrite Op; lra) u Hu) as G2.
  rewrite norm1_opp, Op in G2. rewrite Ne, Rmult_1_l in G1, G2. pose proof (scale_gap (Nat.pred (length (bc_pts cf))) (bc_T cf) M 4 a b h T0 M0 ltac:(lra) Hh) as Sg.
  change (2 + 2)%nat with 4%nat in G1, G2. rewrite <- De. unfold gap_acc. apply Rabs_le. lra.
Qed.

Section Main.
  Variables (d : fdata) (pData : problem) (T : f64).
  Hypotheses (Hd : denotes d pData) (Hm : mild_data d) (FT : is_finite T = true) (T0 : 0 < B2R T) (TB : B2R T <= 2 ^ 200).
  Hypotheses (Hf : In (flag_of pData) com_flags) (Hc : flag_of pData = F_capture -> dc1 pData = vzero) (TL : / 2 ^ 100 <= B2R T).
  Let ev := eval_time T.

  Lemma dev_nonneg ax : 0 <= dev (B2R T) pData ax.
  Proof.
    unfold dev, curve_err. eapply Rle_trans; [|apply Rmax_l]. unfold pt_err. pose proof ProofDouble.u53_pos. pose proof ProofPtsDouble.eta_pos.
    assert (0 <= reach (B2R T) (map ax (start_state pData))). { generalize (map ax (start_state pData)). induction l as [|a l IH]; cbn [reach]; [lra|]. pose proof (Rabs_pos a). assert (0 <= B2R T * reach (B2R T) l) by (apply Rmult_le_pos; lra). lra. }
    assert (0 <= u53 * reach (B2R T) (map ax (start_state pData))) by (apply Rmult_le_pos; lra). assert (0 <= eta * (1 + B2R T) ^ 2) by (apply Rmult_le_pos; [lra|apply pow_le; lra]). lra.
  Qed.
  Lemma returned x : exists cf ce, com_curve_f d T x = Ok cf /\ com_curve pData (B2R T) x = Ok ce /\ bc_T cf = B2R T /\ degree cf = degree ce /\
    (forall u, 0 <= u <= B2R T -> apart (dev (B2R T) pData) (cv_fun cf u) (cv_fun ce u)) /\
    (forall u v, 0 <= u <= B2R T -> is_deriv_n 2 (cv_fun ce) u v -> exists v', is_deriv_n 2 (cv_fun cf) u v' /\ apart (fun ax => 120 * (dev (B2R T) pData ax / B2R T ^ 2)) v' v).
  Proof.
    destruct (c86_cases d pData T Hd Hm FT T0 TB Hf Hc) as (pf & pi & (E1 & E2 & _ & _) & H). destruct (H x) as (P & Q & EP & EQ & LP & HN).
    assert (NP : P <> []) by (intros X; rewrite X in LP; cbn [length] in LP; lia).
    assert (Ee : com_curve pData (B2R T) x = Ok (BCurve Q (B2R T))) by (unfold com_curve; rewrite E2; exact EQ).
    exists (BCurve P (B2R T)), (BCurve Q (B2R T)). split; [unfold com_curve_f; rewrite E1; cbn [bind]; destruct Hd as (<- & _); exact EP|]. split; [exact Ee|]. split; [reflexivity|].
    assert (HL : length P = length Q) by apply HN. split; [unfold degree; cbn [bc_pts]; congruence|]. split; [apply curve_dev; [exact T0|exact NP|exact HN]|].
    intros u v Hu Dv. exists (curve (hodo_n 2 (B2R T) P) (B2R T) u). split; [apply (curve_is_deriv_n 2)|].
    assert (Ev : v = curve (hodo_n 2 (B2R T) Q) (B2R T) u) by (apply (is_deriv_n_unique 2 _ _ u _ _ (fun _ => eq_refl) Dv (curve_is_deriv_n 2 _ _ _))). rewrite Ev.
    pose proof (degree_is pData (B2R T) x _ ltac:(lra) Hf Ee) as Dg. unfold degree in Dg. cbn [bc_pts] in Dg. pose proof (npts_range _ Hf) as NR.
    intros ax Hax. apply deriv2_dev; [exact T0|exact Hu|exact Hax|exact HL|destruct P; [congruence|]; cbn [length] in *; lia|apply dev_nonneg|].
    intros i. destruct (Nat.lt_ge_cases i (length P)) as [K|K]; [apply points_dev; [lra|exact HN|exact Hax|exact K]|].
    unfold ProofEff8.coord. rewrite !nth_overflow by (rewrite map_length; lia). rewrite Rminus_0_r, Rabs_R0. apply dev_nonneg.
  Qed.

  Lemma at_samples sub fcs bs amax : subtracts sub -> Forall mild_contact fcs -> length fcs = length bs -> bs <> [] -> mild amax ->
      Forall (fun b => b <> [] /\ Forall (fun t => is_finite t = true /\ 0 <= B2R t) b) bs ->
    exists rk ra, assignKinematicConstraints_f sub d fcs T (tagged_f 0 bs) = Ok rk /\ assignAccelerationConstraints_f d amax T (tagged_f 0 bs) = Ok ra /\
    forall x, exists cf, com_curve_f d T x = Ok cf /\ bc_T cf = B2R T /\
      forall del, Forall (fun r => holds del r x) (rk ++ ra) -> forall i c t, nth_error fcs i = Some c -> in_force bs i t ->
        meets c amax (cv_fun cf) (ev t) (fun K k => del + kin_tol (degree cf) (B2R T) pData x K k) (fun ax => del + acc_tol (degree cf) (B2R T) pData x (B2R amax) ax).
  Proof.
    intros Hsub Hk HL Hne Ha Hb. destruct (c88_kinematics_at d pData T Hd Hm FT T0 TB Hf Hc sub fcs bs Hsub Hk HL Hne Hb) as (rk & Ek & _ & Gk).
    assert (Tin : forall tp, In tp (tagged_f 0 bs) -> is_finite (fst tp) = true /\ 0 <= B2R (fst tp)).
    { intros tp Hin. destruct (tagged_in _ _ _ Hin) as (b & H1 & H2). destruct (proj1 (Forall_forall _ _) Hb b H1) as [_ G]. exact (proj1 (Forall_forall _ _) G _ H2). }
    assert (Tok : times_ok (tagged_f 0 bs)) by (apply Forall_forall; exact Tin).
    destruct (c88_accelerations_at d pData T Hd Hm FT T0 TB Hf Hc TL amax _ Ha Tok) as (ra & Ea & _ & _ & Ga).
    exists rk, ra. split; [exact Ek|]. split; [exact Ea|]. intros x. destruct (returned x) as (cf & ce & E1 & E2 & ET & ED & Dp & Da). exists cf. split; [exact E1|]. split; [exact ET|].
    destruct (Gk x) as (ce' & E2' & Gk1 & _). rewrite E2 in E2'. injection E2' as <-. destruct (Ga x ce E2) as [Ga1 _]. rewrite ED.
    intros del Hall i c t Ec Ht. apply Forall_app in Hall as [Hk1 Ha1].
    assert (Hin : exists z, In (t, z) (tagged_f 0 bs)).
    { assert (Hin : In t (concat bs)).
      { destruct Ht as [(b & E & Hin)|(j & b & b' & _ & E & _)]; apply in_concat; [exists b|exists (b ++ [t])]; (split; [eapply nth_error_In; eassumption|]); [exact Hin|apply in_or_app; right; now left]. }
      clear - Hin. revert Hin. generalize 0%Z. induction bs as [|b l IH]; intros z Hin; [contradiction|]. cbn [concat tagged_f] in *. apply in_app_or in Hin as [Hin|Hin].
      - exists z. apply in_or_app. left. apply in_map_iff. exists t. split; [reflexivity|exact Hin].
      - destruct (IH (z + 1)%Z Hin) as (z' & G). exists z'. apply in_or_app. right. exact G. }
    destruct Hin as (z & Hin). destruct (Tin _ Hin) as [Ft Pt]. cbn [fst] in Ft, Pt. pose proof (proj1 (eval_evaluates T (conj FT T0) t Ft Pt)) as Ru. fold ev in Ru. split.
    - intros K k HK. pose proof (Gk1 del Hk1 i c t K k Ec Ht HK) as G. fold ev in G. pose proof (Dp (ev t) Ru) as Ap. unfold kin_tol.
      set (p := cv_fun cf (ev t)) in *. set (q := cv_fun ce (ev t)) in *. set (e := kin_err (degree ce) (B2R T) pData x (fv_R K) (B2R k)) in *.
      assert (Tx : forall ax, axis ax -> ax (fv_R K) * ax p <= ax (fv_R K) * ax q + Rabs (ax (fv_R K)) * dev (B2R T) pData ax).
      { intros ax Hax. replace (ax (fv_R K) * ax p) with (ax (fv_R K) * ax q + ax (fv_R K) * (ax p - ax q)) by ring. apply Rplus_le_compat_l. eapply Rle_trans; [apply Rle_abs|]. rewrite Rabs_mult.
        apply Rmult_le_compat_l; [apply Rabs_pos|apply (Ap ax Hax)]. }
      pose proof (Tx vx (or_introl eq_refl)). pose proof (Tx vy (or_intror (or_introl eq_refl))). pose proof (Tx vz (or_intror (or_intror eq_refl))). unfold vdot in *. lra.
    - destruct (Ga1 del Ha1 _ Hin) as (v & Dv & Bv). cbn [fst] in Dv. fold ev in Dv. destruct (Da (ev t) v Ru Dv) as (v' & Dv' & Av). exists v'. split; [exact Dv'|]. intros ax Hax. specialize (Av ax Hax). specialize (Bv ax Hax).
      unfold acc_tol. replace (ax v') with (ax v + (ax v' - ax v)) by ring. eapply Rle_trans; [apply Rabs_triang|]. lra.
  Qed.
End Main.
