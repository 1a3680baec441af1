(** The rows of one sample. *)
From Flocq Require Import Core BinarySingleNaN.
From Coq Require Import List Lia Lra.
From Verif Require Import Vec SpecBezier ModelData ModelWaypoints ModelDispatch SpecCom Double ModelPtsDouble ModelCoefDouble ModelRowsDouble SpecDouble SpecPtsDouble SpecCoefDouble SpecRowsDouble
  ProofBezier ProofCurve ProofWaypoints ProofWaypoints2 ProofDouble ProofPtsDouble ProofPtsDouble7 ProofCoefDouble ProofCoefDouble3 ProofCoefDouble4 ProofRowsDouble.
Import ListNotations.
Open Scope R_scope.

(** the exact curve *)
Lemma exact_pts pData t x cv : 0 <= t -> In (flag_of pData) com_flags -> com_curve pData t x = Ok cv ->
  exists Q, cv = BCurve Q t /\ length Q = npts (flag_of pData) /\ forall ax i, axis ax -> Rabs (ax (nth i Q vzero)) <= extent t pData x ax.
Proof.
  intros Ht Hf E. destruct (com_curve_inv pData t x cv Hf E) as (pi & Q & Sh & Ep & _ & -> & _). exists Q. split; [reflexivity|]. split.
  - rewrite <- (len_pi pData t pi Hf Ep). destruct Sh; subst pi; reflexivity.
  - intros ax i Hax.
    assert (B : forall j, Rabs (ax (nth j pi vzero)) <= extent t pData x ax).
    { intros j. pose proof (exact_bound pData t pi ax j Ht Hf Ep Hax) as B. unfold extent. unfold ext0 in B. pose proof (Rabs_pos (ax x)). lra. }
    assert (X : Rabs (ax x) <= extent t pData x ax).
    { pose proof (exact_bound pData t pi ax 0 Ht Hf Ep Hax) as B0. pose proof (Rabs_pos (ax (nth 0 pi vzero))). unfold extent. unfold ext0 in B0. lra. }
    assert (G : nth i Q vzero = nth i pi vzero \/ nth i Q vzero = x).
    { destruct Sh; subst pi; do 7 (destruct i as [|i]; [cbn; auto|]); cbn; destruct i; auto. }
    destruct G as [-> | ->]; [apply B|exact X].
Qed.
Lemma bez_bound m (f : nat -> R) s e : 0 <= s <= 1 -> (forall i, (i <= m)%nat -> Rabs (f i) <= e) -> Rabs (bez m f s) <= e.
Proof.
  intros Hs H. apply Rabs_le. split; [apply bez_ge|apply bez_le]; try exact Hs; intros i Hi; specialize (H i Hi); apply Rabs_le_inv in H; lra.
Qed.
Lemma at_zero ax : axis ax -> ax vzero = 0.
Proof. intros [->|[->| ->]]; reflexivity. Qed.
Lemma unit_inst t u : 0 < t -> 0 <= u <= t -> u = u / t * t /\ 0 <= u / t <= 1.
Proof.
  intros T0 Hu. split; [field; lra|]. split; [apply Rmult_le_pos; [lra|left; apply Rinv_0_lt_compat; lra]|].
  apply Rmult_le_reg_r with t; [lra|]. replace (u / t * t) with u by (field; lra). lra.
Qed.
Lemma exact_pos pData t x cv u ax : 0 < t -> In (flag_of pData) com_flags -> com_curve pData t x = Ok cv -> 0 <= u <= t -> axis ax ->
  Rabs (ax (cv_fun cv u)) <= extent t pData x ax.
Proof.
  intros T0 Hf E Hu Hax. destruct (exact_pts pData t x cv ltac:(lra) Hf E) as (Q & -> & LQ & B). unfold cv_fun. cbn [bc_pts bc_T].
  destruct (unit_inst t u T0 Hu) as [Eu Hs]. rewrite Eu, curve_at_sT by lra. rewrite bez3_ax by exact Hax. unfold bezl.
  apply bez_bound; [exact Hs|]. intros i Hi. rewrite <- (at_zero ax Hax), map_nth. apply B, Hax.
Qed.
Lemma exact_acc pData t x cv u ax v : 0 < t -> In (flag_of pData) com_flags -> com_curve pData t x = Ok cv -> 0 <= u <= t -> axis ax ->
  is_deriv_n 2 (cv_fun cv) u v -> Rabs (ax v) <= 120 * (extent t pData x ax / t ^ 2).
Proof.
  intros T0 Hf E Hu Hax Dv. destruct (exact_pts pData t x cv ltac:(lra) Hf E) as (Q & -> & LQ & B). unfold cv_fun in Dv. cbn [bc_pts bc_T] in Dv.
  destruct (unit_inst t u T0 Hu) as [Eu Hs]. pose proof (curve_is_deriv_n 2 Q t u) as D2.
  assert (Ev : v = curve (hodo_n 2 t Q) t u) by (apply (is_deriv_n_unique 2 _ _ u _ _ (fun _ => eq_refl) Dv D2)). rewrite Ev. rewrite Eu, curve_at_sT by lra. rewrite bez3_ax by exact Hax. unfold bezl. rewrite map_length.
  pose proof (npts_range _ Hf) as R. set (S := extent t pData x ax) in *.
  apply bez_bound; [exact Hs|]. intros i Hi.
  change (nth i (map ax (hodo_n 2 t Q)) 0) with (ProofEff8.coord ax (hodo t (hodo t Q)) i).
  cbn [hodo_n] in Hi. rewrite !ProofEff13.length_hodo in Hi.
  destruct (length Q) as [|[|[|[|m]]]] eqn:L; try lia. cbn [Nat.pred Nat.sub] in Hi.
  rewrite (d2 ax Hax t m) by (congruence || lia).
  assert (Bq : forall j, Rabs (ProofEff8.coord ax Q j) <= S) by (intros j; unfold ProofEff8.coord; rewrite <- (at_zero ax Hax), map_nth; apply B, Hax).
  pose proof (Bq i) as B0. pose proof (Bq (Datatypes.S i)) as B1. pose proof (Bq (Datatypes.S (Datatypes.S i))) as B2.
  set (q0 := ProofEff8.coord ax Q i) in *. set (q1 := ProofEff8.coord ax Q (Datatypes.S i)) in *. set (q2 := ProofEff8.coord ax Q (Datatypes.S (Datatypes.S i))) in *.
  set (N1 := INR (Datatypes.S (Datatypes.S (Datatypes.S m)))) in *. set (N2 := INR (Datatypes.S (Datatypes.S m))) in *.
  assert (HN : 0 <= N1 <= 6 /\ 0 <= N2 <= 5).
  { unfold N1, N2. rewrite !INR_IZR_INZ. repeat split; apply IZR_le; lia. }
  replace (N2 / t * (N1 / t * (q2 - 2 * q1 + q0))) with (/ t ^ 2 * (N1 * N2) * (q2 - 2 * q1 + q0)) by (field; lra).
  assert (It : 0 < / t ^ 2) by (apply Rinv_0_lt_compat, pow_lt; exact T0).
  rewrite Rabs_mult, (Rabs_pos_eq (/ t ^ 2 * _)) by (apply Rmult_le_pos; [lra|apply Rmult_le_pos; lra]).
  assert (Dq : Rabs (q2 - 2 * q1 + q0) <= 4 * S) by (apply Rabs_le_inv in B0, B1, B2; apply Rabs_le; lra).
  replace (120 * (S / t ^ 2)) with (/ t ^ 2 * 30 * (4 * S)) by (unfold Rdiv; ring).
  apply Rmult_le_compat; [apply Rmult_le_pos; [lra|apply Rmult_le_pos; lra]|apply Rabs_pos|apply Rmult_le_compat_l; [lra|]|exact Dq].
  apply Rle_trans with (6 * 5); [apply Rmult_le_compat; lra|lra].
Qed.
Lemma degree_is pData t x cv : 0 <= t -> In (flag_of pData) com_flags -> com_curve pData t x = Ok cv -> degree cv = (npts (flag_of pData) - 1)%nat.
Proof. intros Ht Hf E. destruct (exact_pts pData t x cv Ht Hf E) as (Q & -> & L & _). unfold degree. cbn [bc_pts]. rewrite L. reflexivity. Qed.
Lemma extent_pos t pData x ax : 0 <= t -> Rabs (ax x) <= extent t pData x ax.
Proof.
  intros Ht. unfold extent. pose proof (Rmax_l (reach t (map ax (start_state pData))) (reach t (map ax (end_state pData)))).
  pose proof (ProofPtsDouble6.reach_pos t (map ax (start_state pData)) Ht). lra.
Qed.
Lemma extent_shift t pData x ax : extent t pData x ax = extent t pData vzero ax - Rabs (ax vzero) + Rabs (ax x).
Proof. unfold extent. ring. Qed.

(** size of the error *)
Lemma pos_err_small n t S : (n <= 6)%nat -> 0 <= S -> 0 < t -> pos_err n t S <= / 8 * (S + (1 + t) ^ 2).
Proof.
  intros Hn HS T0. unfold pos_err. assert (Q : 1 <= (1 + t) ^ 2) by (apply pow_R1_Rle; lra).
  assert (A : 2 ^ (2 * n + 3) * u53 <= / 16).
  { apply Rle_trans with (2 ^ 15 * u53); [apply Rmult_le_compat_r; [left; apply u53_pos|apply Rle_pow; [lra|lia]]|]. rewrite pow_IZR2. change (2 ^ Z.of_nat 15)%Z with 32768%Z. pose proof u53_small. pose proof u53_pos. unfold u53. change (IZR (2 ^ 53)) with (IZR 9007199254740992). lra. }
  assert (E : 2 ^ 40 * eta <= / 16).
  { unfold eta. apply Rle_trans with (2 ^ 40 * / 2 ^ 44); [apply Rmult_le_compat_l; [apply pow_le; lra|apply Rinv_le_contravar; [apply pow_lt; lra|apply Rle_pow; [lra|lia]]]|].
    change 44%nat with (40 + 4)%nat. rewrite pow_add, Rinv_mult, <- Rmult_assoc, Rinv_r by (apply pow_nonzero; lra). cbn [pow]. lra. }
  assert (2 ^ (2 * n + 3) * u53 * S <= / 16 * S) by (apply Rmult_le_compat_r; assumption).
  assert (2 ^ 40 * eta * ((1 + t) ^ 2 + S) <= / 16 * ((1 + t) ^ 2 + S)) by (apply Rmult_le_compat_r; lra). lra.
Qed.
Lemma pos_err_big n t S : (3 <= n)%nat -> 0 <= S -> 0 < t -> 512 * u53 * S <= pos_err n t S.
Proof.
  intros Hn HS T0. unfold pos_err. assert (Q : 1 <= (1 + t) ^ 2) by (apply pow_R1_Rle; lra). pose proof u53_pos. pose proof eta_pos.
  assert (512 <= 2 ^ (2 * n + 3)). { replace 512 with (2 ^ 9) by (cbn [pow]; ring). apply Rle_pow; [lra|lia]. }
  assert (0 <= 2 ^ 40 * eta * ((1 + t) ^ 2 + S)) by (apply Rmult_le_pos; [apply Rmult_le_pos; [apply pow_le; lra|lra]|lra]).
  assert (512 * u53 * S <= 2 ^ (2 * n + 3) * u53 * S) by (apply Rmult_le_compat_r; [lra|apply Rmult_le_compat_r; lra]). lra.
Qed.
Lemma pos_err_mono n t S S' : 0 < t -> 0 <= S <= S' -> pos_err n t S <= pos_err n t S'.
Proof.
  intros T0 H. unfold pos_err. pose proof u53_pos. pose proof eta_pos. apply Rplus_le_compat; apply Rmult_le_compat_l; try lra; apply Rmult_le_pos; try lra; apply pow_le; lra.
Qed.
Lemma acc_err_big n t S : (3 <= n)%nat -> 0 <= S -> 0 < t -> 1024 * u53 * (S / t ^ 2) <= acc_err n t S.
Proof.
  intros Hn HS T0. unfold acc_err. assert (Q : 1 <= (1 + t) ^ 2) by (apply pow_R1_Rle; lra). pose proof u53_pos. pose proof eta_pos.
  assert (It : 0 < / t ^ 2) by (apply Rinv_0_lt_compat, pow_lt; exact T0).
  assert (1024 <= 2 ^ (3 * n + 1)). { replace 1024 with (2 ^ 10) by (cbn [pow]; ring). apply Rle_pow; [lra|lia]. }
  assert (0 <= S / t ^ 2) by (apply Rmult_le_pos; lra).
  assert (0 <= 2 ^ 40 * eta * ((1 + / t ^ 2) * ((1 + t) ^ 2 + S))) by (apply Rmult_le_pos; [apply Rmult_le_pos; [apply pow_le; lra|lra]|apply Rmult_le_pos; lra]).
  assert (1024 * u53 * (S / t ^ 2) <= 2 ^ (3 * n + 1) * u53 * (S / t ^ 2)) by (apply Rmult_le_compat_r; [lra|apply Rmult_le_compat_r; lra]). lra.
Qed.
Lemma acc_err_mono n t S S' : 0 < t -> 0 <= S <= S' -> acc_err n t S <= acc_err n t S'.
Proof.
  intros T0 H. unfold acc_err. pose proof u53_pos. pose proof eta_pos. assert (It : 0 < / t ^ 2) by (apply Rinv_0_lt_compat, pow_lt; exact T0).
  apply Rplus_le_compat; apply Rmult_le_compat_l; try (apply Rmult_le_pos; try lra; apply pow_le; lra).
  - apply Rmult_le_compat_r; lra.
  - apply Rmult_le_compat_l; lra.
Qed.
