(** Samples of the curve in doubles against the exact curve. *)
From Flocq Require Import Core BinarySingleNaN.
From Coq Require Import List Lia Lra Psatz.
From Verif Require Import Vec SpecBezier ModelData ModelWaypoints ModelDispatch SpecCom Double ModelDouble ModelPtsDouble ModelCoefDouble SpecDouble SpecDouble2 SpecPtsDouble SpecCoefDouble
  ProofBezier ProofCurve ProofWaypoints ProofWaypoints2 ProofDouble ProofDouble6 ProofDouble7 ProofPtsDouble ProofPtsDouble6 ProofPtsDouble7 ProofPtsDouble8 ProofCoefDouble ProofCoefDouble2 ProofCoefDouble3.
Import ListNotations.
Open Scope R_scope.

(** size of the states and of the exact points *)
Lemma reach_size T B : 0 <= T -> 0 <= B -> forall l, (forall a, In a l -> Rabs a <= B) -> reach T l <= B * (1 + T) ^ (length l - 1).
Proof.
  intros HT HB l. induction l as [|a l IH]; intros H; [cbn; lra|].
  destruct l as [|b l]; [cbn [reach length Nat.sub pow]; pose proof (H a (or_introl eq_refl)); lra|].
  specialize (IH (fun c Hc => H c (or_intror Hc))). pose proof (H a (or_introl eq_refl)) as Ha.
  change (reach T (a :: b :: l)) with (Rabs a + T * reach T (b :: l)).
  replace (length (a :: b :: l) - 1)%nat with (S (length (b :: l) - 1)) by (cbn [length]; lia). cbn [pow].
  assert (1 <= (1 + T) ^ (length (b :: l) - 1)) by (apply pow_R1_Rle; lra).
  assert (T * reach T (b :: l) <= T * (B * (1 + T) ^ (length (b :: l) - 1))) by (apply Rmult_le_compat_l; assumption).
  assert (B * 1 <= B * (1 + T) ^ (length (b :: l) - 1)) by (apply Rmult_le_compat_l; assumption).
  lra.
Qed.

Definition ext0 (T : R) (pData : problem) (ax : vec3 -> R) : R := Rmax (reach T (map ax (start_state pData))) (reach T (map ax (end_state pData))).

Lemma mono1 T a : 0 <= T -> - (T * Rabs a) <= T * a <= T * Rabs a.
Proof. intros H. assert (- Rabs a <= a <= Rabs a) by (unfold Rabs; destruct (Rcase_abs a); lra). nra. Qed.

Lemma exact_bound pData T pi ax i : 0 <= T -> In (flag_of pData) com_flags -> computeConstantWaypoints pData T = Ok pi -> axis ax ->
  Rabs (ax (nth i pi vzero)) <= ext0 T pData ax.
Proof.
  intros HT Hf He Hax.
  assert (G1 : forall a, - (T * Rabs a) <= T * a <= T * Rabs a) by (intros; apply mono1, HT).
  assert (G2 : forall a, - (T * (T * Rabs a)) <= T * (T * a) <= T * (T * Rabs a)) by (intros a; specialize (G1 a); nra).
  assert (G0 : forall a, - Rabs a <= a <= Rabs a) by (intros a; unfold Rabs; destruct (Rcase_abs a); lra).
  assert (GT : forall a, 0 <= T * Rabs a) by (intros a; apply Rmult_le_pos; [exact HT|apply Rabs_pos]).
  assert (GTT : forall a, 0 <= T * (T * Rabs a)) by (intros a; apply Rmult_le_pos; [exact HT|apply GT]).
  assert (W : forall e, Rabs e <= reach T (map ax (start_state pData)) \/ Rabs e <= reach T (map ax (end_state pData)) -> Rabs e <= ext0 T pData ax).
  { intros e [K|K]; unfold ext0; [eapply Rle_trans; [exact K|apply Rmax_l]|eapply Rle_trans; [exact K|apply Rmax_r]]. }
  assert (Z : Rabs (ax vzero) <= ext0 T pData ax).
  { rewrite (proj2 (proj2 (axis_linear ax Hax))), Rabs_R0. unfold ext0. eapply Rle_trans; [|apply Rmax_l]. apply reach_pos, HT. }
  revert Z W. unfold start_state, end_state, when.
  in_cases Hf; rewrite Hf; flags; intros Z W;
    [rewrite (ccw_c1 _ _ Hf) in He|rewrite (ccw_capture _ _ Hf) in He|rewrite (ccw_dc1_c1 _ _ Hf) in He|rewrite (ccw_acc _ _ Hf) in He
    |rewrite (ccw_acc_c1 _ _ Hf) in He|rewrite (ccw_acc_dc1_c1 _ _ Hf) in He|rewrite (ccw_acc_all _ _ Hf) in He];
    match type of He with ?f _ _ = _ => unfold f in He end; cbv zeta in He;
    try (destruct (Req_EM_T (vnorm (dc1 pData)) 0) in He; [|discriminate]);
    injection He as <-;
    destruct Hax as [->|[->| ->]];
    do 7 (try (destruct i as [|i]; [cbn [nth]; try exact Z|]));
    try (cbn [nth]; destruct i; exact Z);
    apply W; vsimp; cbn [map reach];
      pose proof (G0 (vx (c0 pData)));
      pose proof (G0 (vy (c0 pData)));
      pose proof (G0 (vz (c0 pData)));
      pose proof (G1 (vx (dc0 pData)));
      pose proof (GT (vx (dc0 pData)));
      pose proof (G1 (vy (dc0 pData)));
      pose proof (GT (vy (dc0 pData)));
      pose proof (G1 (vz (dc0 pData)));
      pose proof (GT (vz (dc0 pData)));
      pose proof (G2 (vx (ddc0 pData)));
      pose proof (GTT (vx (ddc0 pData)));
      pose proof (G2 (vy (ddc0 pData)));
      pose proof (GTT (vy (ddc0 pData)));
      pose proof (G2 (vz (ddc0 pData)));
      pose proof (GTT (vz (ddc0 pData)));
      pose proof (G0 (vx (c1 pData)));
      pose proof (G0 (vy (c1 pData)));
      pose proof (G0 (vz (c1 pData)));
      pose proof (G1 (vx (dc1 pData)));
      pose proof (GT (vx (dc1 pData)));
      pose proof (G1 (vy (dc1 pData)));
      pose proof (GT (vy (dc1 pData)));
      pose proof (G1 (vz (dc1 pData)));
      pose proof (GT (vz (dc1 pData)));
      pose proof (G2 (vx (ddc1 pData)));
      pose proof (GTT (vx (ddc1 pData)));
      pose proof (G2 (vy (ddc1 pData)));
      pose proof (GTT (vy (ddc1 pData)));
      pose proof (G2 (vz (ddc1 pData)));
      pose proof (GTT (vz (ddc1 pData)));
    first [left; apply Rabs_le; lra|right; apply Rabs_le; lra].
Qed.

Lemma len_pi pData T pi : In (flag_of pData) com_flags -> computeConstantWaypoints pData T = Ok pi -> length pi = npts (flag_of pData).
Proof.
  intros Hf He.
  in_cases Hf; rewrite Hf;
    [rewrite (ccw_c1 _ _ Hf) in He|rewrite (ccw_capture _ _ Hf) in He|rewrite (ccw_dc1_c1 _ _ Hf) in He|rewrite (ccw_acc _ _ Hf) in He
    |rewrite (ccw_acc_c1 _ _ Hf) in He|rewrite (ccw_acc_dc1_c1 _ _ Hf) in He|rewrite (ccw_acc_all _ _ Hf) in He];
    match type of He with ?f _ _ = _ => unfold f in He end; cbv zeta in He;
    try (destruct (Req_EM_T (vnorm (dc1 pData)) 0) in He; [|discriminate]);
    injection He as <-; reflexivity.
Qed.
Lemma npts_range flag : In flag com_flags -> (4 <= npts flag <= 7)%nat.
Proof. intros H. in_cases H; subst flag; vm_compute; lia. Qed.

Lemma state_lens pData : In (flag_of pData) com_flags -> (length (start_state pData) <= 3)%nat /\ (length (end_state pData) <= 3)%nat.
Proof. unfold start_state, end_state, when. intros H. in_cases H; rewrite H; flags; lia. Qed.

Section Main.
  Variables (d : fdata) (pData : problem) (T : f64).
  Hypotheses (Hd : denotes d pData) (Hm : mild_data d) (FT : is_finite T = true) (T0 : 0 < B2R T) (TB : B2R T <= 2 ^ 200).
  Hypotheses (Hf : In (flag_of pData) com_flags) (Hc : flag_of pData = F_capture -> dc1 pData = vzero).
  Let t := B2R T.
  Let q := (1 + t) ^ 2.
  Let S0 (ax : vec3 -> R) := ext0 t pData ax.
  Let ce (ax : vec3 -> R) := curve_err t (start_state pData) (end_state pData) ax.
  Let M ax := S0 ax + ce ax.

  Lemma q_1 : 1 <= q.
  Proof. unfold q. apply pow_R1_Rle. unfold t. lra. Qed.
  Lemma S0_pos ax : 0 <= S0 ax.
  Proof. unfold S0, ext0. eapply Rle_trans; [|apply Rmax_l]. apply reach_pos. unfold t; lra. Qed.
  Lemma ce_pos ax : 0 <= ce ax.
  Proof. unfold ce, curve_err. eapply Rle_trans; [|apply Rmax_l]. apply pt_err_pos. unfold t; lra. Qed.
  Lemma ce_le ax : ce ax <= 8 * u53 * S0 ax + 8 * eta * q.
  Proof.
    unfold ce, curve_err, S0, ext0. pose proof u53_pos. apply Rmax_lub; unfold pt_err; fold q;
      apply Rplus_le_compat_r, Rmult_le_compat_l; try lra; [apply Rmax_l|apply Rmax_r].
  Qed.
  Lemma coords_mild ax a : axis ax -> In a (map ax (start_state pData)) \/ In a (map ax (end_state pData)) -> Rabs a <= 2 ^ 200.
  Proof.
    intros Hax H. destruct Hd as (_ & E0 & E1 & E2 & E3 & E4 & E5 & E6 & E7). destruct Hm as (M0 & M1 & M2 & M3 & M4 & M5 & M6 & M7).
    assert (G : forall v, mild3 v -> Rabs (ax (fv_R v)) <= 2 ^ 200).
    { intros v ((_ & A) & (_ & B) & (_ & C)). destruct Hax as [->|[->| ->]]; assumption. }
    assert (Inw : forall fl b v w, In w (when fl b v) -> w = v) by (intros fl b v w; unfold when; destruct (fl_has fl b); [intros [<-|[]]; reflexivity|intros []]).
    destruct H as [H|H]; apply in_map_iff in H as (w & <- & H).
    - unfold start_state in H. destruct H as [<-|H]; [rewrite E0; auto|]. repeat (apply in_app_or in H as [H|H]); apply Inw in H; subst w; rewrite ?E1, ?E2, ?E3; auto.
    - unfold end_state in H. destruct (fl_has _ END_POS); [|contradiction]. destruct H as [<-|H]; [rewrite E4; auto|].
      repeat (apply in_app_or in H as [H|H]); apply Inw in H; subst w; rewrite ?E5, ?E6, ?E7; auto.
  Qed.
  Lemma q_big : q <= 2 ^ 402.
  Proof.
    unfold q. replace (2 ^ 402) with ((2 ^ 201) ^ 2) by (rewrite <- pow_mult; reflexivity). apply pow_incr. split; [unfold t; lra|].
    replace (2 ^ 201) with (2 * 2 ^ 200) by (change 201%nat with (S 200); reflexivity). assert (1 <= 2 ^ 200) by (apply pow_R1_Rle; lra). unfold t. lra.
  Qed.
  Lemma S0_big ax : axis ax -> S0 ax <= 2 ^ 602.
  Proof.
    intros Hax. assert (B : forall l, (length l <= 3)%nat -> (forall a, In a l -> Rabs a <= 2 ^ 200) -> reach t l <= 2 ^ 602).
    { intros l L H. eapply Rle_trans; [apply (reach_size t (2 ^ 200)); [unfold t; lra|apply pow_le; lra|exact H]|].
      replace (2 ^ 602) with (2 ^ 200 * 2 ^ 402) by (rewrite <- pow_add; reflexivity). apply Rmult_le_compat_l; [apply pow_le; lra|].
      eapply Rle_trans; [|exact q_big]. unfold q. apply Rle_pow; [unfold t; lra|lia]. }
    destruct (state_lens pData Hf) as [L1 L2]. unfold S0, ext0. apply Rmax_lub; apply B; rewrite ?map_length; try assumption; intros a Ha; apply (coords_mild ax a Hax); auto.
  Qed.
  Lemma ce_small ax : ce ax <= / 4 * (S0 ax + q).
  Proof.
    pose proof (ce_le ax) as C. pose proof u53_small as U. pose proof (S0_pos ax). pose proof q_1. pose proof u53_pos.
    assert (E : eta <= / 1000).
    { unfold eta. apply Rinv_le_contravar; [lra|]. rewrite pow_IZR2. apply IZR_le. vm_compute. discriminate. }
    pose proof eta_pos. nra.
  Qed.
  Lemma M_pos ax : 0 <= M ax.
  Proof. unfold M. pose proof (S0_pos ax). pose proof (ce_pos ax). lra. Qed.
  Lemma M_big ax A : axis ax -> 0 <= A <= 2 ^ 200 -> (1 + A) * (1 + M ax) <= 2 ^ 840.
  Proof.
    intros Hax HA. pose proof (M_pos ax). assert (1 + M ax <= 2 ^ 605).
    { unfold M. pose proof (S0_big ax Hax). pose proof (ce_small ax). pose proof q_big. pose proof (S0_pos ax).
      assert (1 <= 2 ^ 602) by (apply pow_R1_Rle; lra). assert (2 ^ 402 <= 2 ^ 602) by (apply Rle_pow; [lra|lia]).
      replace (2 ^ 605) with (8 * 2 ^ 602) by (replace 8 with (2 ^ 3) by ring; rewrite <- pow_add; reflexivity). lra. }
    assert (1 + A <= 2 ^ 201).
    { replace (2 ^ 201) with (2 * 2 ^ 200) by (change 201%nat with (S 200); reflexivity). assert (1 <= 2 ^ 200) by (apply pow_R1_Rle; lra). lra. }
    apply Rle_trans with (2 ^ 201 * 2 ^ 605); [apply Rmult_le_compat; lra|]. rewrite <- pow_add. apply Rle_pow; [lra|lia].
  Qed.

  (** the points *)
  Lemma main_points : exists pf pi, points_f d T = Ok pf /\ computeConstantWaypoints pData t = Ok pi /\ length pf = npts (flag_of pData) /\
    (forall v, In v pf -> finite3 v) /\ (forall ax i, axis ax -> (i < npts (flag_of pData))%nat -> Rabs (ax (fv_R (nth i pf fv_zero))) <= M ax) /\
    forall x, exists P Q, computeBezierCurve (flag_of pData) t (map fv_R pf) x = Ok (BCurve P t) /\ com_curve pData t x = Ok (BCurve Q t) /\
      length P = npts (flag_of pData) /\ points_near t (start_state pData) (end_state pData) P Q.
  Proof.
    destruct (c86_cases d pData T Hd Hm FT T0 TB Hf Hc) as (pf & pi & (E1 & E2 & F & N) & H). exists pf, pi. fold t in E2, N.
    assert (L : length pf = npts (flag_of pData)).
    { rewrite <- (len_pi pData t pi Hf E2). rewrite <- (map_length fv_R pf). apply N. }
    split; [exact E1|]. split; [exact E2|]. split; [exact L|]. split; [apply Forall_forall; exact F|]. split.
    - intros ax i Hax Hi. assert (T0' : 0 <= t) by (unfold t; lra).
      pose proof (points_dev t _ _ _ _ ax i T0' N Hax) as Dv. rewrite map_length, L in Dv. specialize (Dv Hi). fold (ce ax) in Dv.
      rewrite !coord_nth in Dv by apply (axis_linear ax Hax).
      rewrite (nth_indep _ vzero (fv_R fv_zero)) in Dv by (rewrite map_length; lia). rewrite map_nth in Dv.
      pose proof (exact_bound pData t pi ax i T0' Hf E2 Hax) as B. fold (S0 ax) in B. unfold M.
      replace (ax (fv_R (nth i pf fv_zero))) with (ax (fv_R (nth i pf fv_zero)) - ax (nth i pi vzero) + ax (nth i pi vzero)) by ring.
      eapply Rle_trans; [apply Rabs_triang|]. lra.
    - intros x. destruct (H x) as (P & Q & EP & EQ & LP & HN). exists P, Q. fold t in EP, EQ, HN. split; [exact EP|].
      assert (Ee : com_curve pData t x = Ok (BCurve Q t)) by (unfold com_curve; rewrite E2; exact EQ).
      split; [exact Ee|]. split; [|exact HN].
      destruct (pos_cases (flag_of pData) pf Hf L) as (a & b & _ & _ & G). destruct (G x) as (P' & LP' & EP' & _).
      specialize (EP' t T0). rewrite EP in EP'. injection EP' as <-. exact LP'.
  Qed.

  Lemma axis_f ax : axis ax -> exists fax : fvec -> f64, (forall v, ax (fv_R v) = B2R (fax v)) /\ (forall v, finite3 v -> is_finite (fax v) = true) /\
    (forall a b c, a = fax (FV a b c) \/ b = fax (FV a b c) \/ c = fax (FV a b c)) /\ (ax = vx /\ fax = fx \/ ax = vy /\ fax = fy \/ ax = vz /\ fax = fz).
  Proof.
    intros [->|[->| ->]]; [exists fx|exists fy|exists fz]; repeat split; auto; intros v (A & B & C); assumption.
  Qed.

  Lemma pos_K n : (3 <= n <= 6)%nat -> 0 <= IZR (Kpos n) /\ IZR (Kpos n) + 16 <= 2 ^ (2 * n + 3) /\ IZR (Kpos n) * u53 <= / 2.
  Proof.
    intros H. pose proof u53_small. pose proof u53_pos. rewrite pow_IZR2, <- plus_IZR.
    assert (C : (n = 3 \/ n = 4 \/ n = 5 \/ n = 6)%nat) by lia. destruct C as [->|[->|[->| ->]]]; (split; [apply IZR_le; vm_compute; discriminate|split; [apply IZR_le; vm_compute; discriminate|]]);
      match goal with |- IZR ?a * _ <= _ => let v := eval vm_compute in a in change a with v end; lra.
  Qed.
  Lemma acc_K n : (3 <= n <= 6)%nat -> 0 <= IZR (Kacc n) /\ IZR (Kacc n) + 8 * (1 + 4 * (INR n * INR (n - 1))) <= 2 ^ (3 * n + 1) /\ IZR (Kacc n) * u53 <= 1 /\ 4 * (INR n * INR (n - 1)) <= 120.
  Proof.
    intros H. pose proof u53_small. pose proof u53_pos. rewrite pow_IZR2, !INR_IZR_INZ.
    assert (C : (n = 3 \/ n = 4 \/ n = 5 \/ n = 6)%nat) by lia. destruct C as [->|[->|[->| ->]]]; (split; [apply IZR_le; vm_compute; discriminate|]);
      repeat match goal with |- context [IZR ?a] => match a with Kacc _ => let v := eval vm_compute in a in change a with v | (2 ^ _)%Z => let v := eval vm_compute in a in change a with v | Z.of_nat _ => let v := eval vm_compute in a in change a with v end end; lra.
  Qed.
  Let n := (npts (flag_of pData) - 1)%nat.
  Lemma n_range : (3 <= n <= 6)%nat.
  Proof. unfold n. pose proof (npts_range _ Hf). lia. Qed.

  Lemma pos_total ax X : axis ax -> 0 <= X -> affine_err false (Kpos n) 0 (M ax) X + ce ax <= pos_err n t (S0 ax + X).
  Proof.
    intros Hax HX. destruct (pos_K n n_range) as (K0 & K1 & K2). unfold affine_err, pos_err, M. cbn [wt]. fold q.
    pose proof (ce_le ax) as C. pose proof (ce_pos ax). pose proof (S0_pos ax). pose proof q_1. pose proof u53_pos. pose proof eta_pos. pose proof (ce_small ax).
    set (Kz := IZR (Kpos n)) in *. set (K' := 2 ^ (2 * n + 3)) in *. set (s := S0 ax) in *. set (c := ce ax) in *.
    set (h := 2 ^ 39 * eta). assert (Hh : 2 ^ 39 * eta = h) by reflexivity.
    replace (2 ^ 40 * eta) with (2 * h) by (unfold h; change (2 ^ 40) with (2 * 2 ^ 39); ring).
    assert (Hh0 : 0 <= h) by (apply Rmult_le_pos; [apply pow_le; lra|lra]).
    assert (E39 : 100 * eta <= h) by (unfold h; apply Rmult_le_compat_r; [lra|]; rewrite pow_IZR2; apply IZR_le; vm_compute; discriminate).
    replace (2 ^ 39 * (eta * (1 * (1 + (s + c) + X)))) with (h * (1 + (s + c) + X)) by (unfold h; ring).
    assert (A1 : Kz * u53 * c <= / 2 * c) by (apply Rmult_le_compat_r; assumption).
    assert (A2 : h * (1 + (s + c) + X) <= h * (5 / 4 * (q + (s + X)))) by (apply Rmult_le_compat_l; lra).
    assert (A3 : (Kz + 16) * (u53 * (s + X)) <= K' * (u53 * (s + X))) by (apply Rmult_le_compat_r; [apply Rmult_le_pos; lra|exact K1]).
    assert (A4 : 100 * eta * q <= h * q) by (apply Rmult_le_compat_r; lra).
    assert (0 <= u53 * X) by (apply Rmult_le_pos; lra). assert (0 <= u53 * s) by (apply Rmult_le_pos; lra).
    assert (0 <= eta * q) by (apply Rmult_le_pos; lra). assert (0 <= h * (s + X)) by (apply Rmult_le_pos; lra). assert (0 <= h * q) by (apply Rmult_le_pos; lra). lra.
  Qed.
  Lemma acc_total ax X : axis ax -> 0 <= X -> affine_err true (Kacc n) (/ t ^ 2) (M ax) X + / t ^ 2 * (INR n * INR (n - 1) * (4 * ce ax)) <= acc_err n t (S0 ax + X).
  Proof.
    intros Hax HX. destruct (acc_K n n_range) as (K0 & K1 & K2 & K3). unfold affine_err, acc_err, M. cbn [wt]. fold q.
    assert (At : 0 < / t ^ 2) by (apply Rinv_0_lt_compat, pow_lt; exact T0). unfold Rdiv. set (A := / t ^ 2) in *.
    pose proof (ce_le ax) as C. pose proof (ce_pos ax). pose proof (S0_pos ax). pose proof q_1. pose proof u53_pos. pose proof eta_pos. pose proof (ce_small ax).
    pose proof (pos_INR n). pose proof (pos_INR (n - 1)). assert (N0 : 0 <= INR n * INR (n - 1)) by (apply Rmult_le_pos; assumption).
    set (Kz := IZR (Kacc n)) in *. set (K' := 2 ^ (3 * n + 1)) in *. set (s := S0 ax) in *. set (c := ce ax) in *. set (N := INR n * INR (n - 1)) in *.
    set (h := 2 ^ 39 * eta). replace (2 ^ 40 * eta) with (2 * h) by (unfold h; change (2 ^ 40) with (2 * 2 ^ 39); ring).
    assert (Hh0 : 0 <= h) by (apply Rmult_le_pos; [apply pow_le; lra|lra]).
    assert (E39 : 10000 * eta <= h) by (unfold h; apply Rmult_le_compat_r; [lra|]; rewrite pow_IZR2; apply IZR_le; vm_compute; discriminate).
    replace (2 ^ 39 * (eta * ((1 + A) * (1 + (s + c) + X)))) with (h * (1 + A) * (1 + (s + c) + X)) by (unfold h; ring).
    assert (B1 : Kz * u53 * (A * c) <= 1 * (A * c)) by (apply Rmult_le_compat_r; [apply Rmult_le_pos; lra|assumption]).
    assert (B0 : 0 <= h * (1 + A)) by (apply Rmult_le_pos; lra).
    assert (B2 : h * (1 + A) * (1 + (s + c) + X) <= h * (1 + A) * (5 / 4 * (q + (s + X)))) by (apply Rmult_le_compat_l; lra).
    assert (B3 : (1 + 4 * N) * (A * c) <= (1 + 4 * N) * (A * (8 * u53 * s + 8 * eta * q))) by (apply Rmult_le_compat_l; [lra|apply Rmult_le_compat_l; lra]).
    assert (B4 : (Kz + 8 * (1 + 4 * N)) * (u53 * (A * (s + X))) <= K' * (u53 * (A * (s + X)))).
    { apply Rmult_le_compat_r; [|exact K1]. apply Rmult_le_pos; [lra|apply Rmult_le_pos; lra]. }
    assert (EA : 0 <= eta * q * A) by (apply Rmult_le_pos; [apply Rmult_le_pos; lra|lra]).
    assert (B5 : 8 * (1 + 4 * N) * (eta * q * A) <= 1000 * (eta * q * A)) by (apply Rmult_le_compat_r; lra).
    assert (B6 : 10000 * eta * (q * (1 + A)) <= h * (q * (1 + A))) by (apply Rmult_le_compat_r; [apply Rmult_le_pos; lra|lra]).
    assert (B7 : eta * q * A <= eta * q * (1 + A)) by (apply Rmult_le_compat_l; [apply Rmult_le_pos; lra|lra]).
    assert (B8 : 0 <= (1 + 4 * N) * (u53 * (A * X))) by (apply Rmult_le_pos; [lra|apply Rmult_le_pos; [lra|apply Rmult_le_pos; lra]]).
    assert (B9 : 0 <= h * (1 + A) * (s + X)) by (apply Rmult_le_pos; lra).
    assert (B10 : 0 <= h * (1 + A) * q) by (apply Rmult_le_pos; lra).
    lra.
  Qed.

  Lemma bez_dev m (f g : nat -> R) s e : 0 <= s <= 1 -> (forall i, (i <= m)%nat -> Rabs (f i - g i) <= e) -> Rabs (bez m f s - bez m g s) <= e.
  Proof.
    intros Hs H. replace (bez m f s - bez m g s) with (bez m (fun i => 1 * f i + (-1) * g i) s) by (rewrite bez_lin; ring).
    apply Rabs_le. split; [apply bez_ge|apply bez_le]; try exact Hs; intros i Hi; specialize (H i Hi); apply Rabs_le_inv in H; lra.
  Qed.
  Lemma bez3_ax ax P s : axis ax -> ax (bez3 P s) = bezl (map ax P) s.
  Proof. intros [->|[->| ->]]; reflexivity. Qed.
  Lemma acc_dev ax P Q s : axis ax -> 0 <= s <= 1 -> length P = npts (flag_of pData) -> points_near t (start_state pData) (end_state pData) P Q ->
    Rabs (ax (bez3 (hodo_n 2 t P) s) - ax (bez3 (hodo_n 2 t Q) s)) <= / t ^ 2 * (INR n * INR (n - 1) * (4 * ce ax)).
  Proof.
    intros Hax Hs LP N. assert (LQ : length P = length Q) by apply N. pose proof (npts_range _ Hf) as R.
    destruct (length P) as [|[|[|[|m]]]] eqn:E; try lia. rewrite <- LP in *.
    assert (En : n = S (S (S m))) by (unfold n; lia). rewrite !bez3_ax by exact Hax. unfold bezl. rewrite !map_length.
    cbn [hodo_n]. rewrite !ProofEff13.length_hodo, E, <- LQ. cbn [Nat.pred].
    apply bez_dev; [exact Hs|]. intros i Hi.
    change (nth i (map ax (hodo t (hodo t P))) 0) with (ProofEff8.coord ax (hodo t (hodo t P)) i).
    change (nth i (map ax (hodo t (hodo t Q))) 0) with (ProofEff8.coord ax (hodo t (hodo t Q)) i).
    rewrite !(d2 ax Hax t m) by (congruence || lia). rewrite En. replace (S (S (S m)) - 1)%nat with (S (S m)) by lia.
    assert (T0' : 0 <= t) by (unfold t; lra).
    assert (Dv : forall j, (j < S (S (S (S m))))%nat -> Rabs (ProofEff8.coord ax P j - ProofEff8.coord ax Q j) <= ce ax).
    { intros j Hj. apply points_dev; try assumption. lia. }
    pose proof (Dv (S (S i)) ltac:(lia)) as D2. pose proof (Dv (S i) ltac:(lia)) as D1. pose proof (Dv i ltac:(lia)) as D0.
    set (p2 := ProofEff8.coord ax P (S (S i))) in *. set (p1 := ProofEff8.coord ax P (S i)) in *. set (p0 := ProofEff8.coord ax P i) in *.
    set (q2 := ProofEff8.coord ax Q (S (S i))) in *. set (q1' := ProofEff8.coord ax Q (S i)) in *. set (q0 := ProofEff8.coord ax Q i) in *.
    set (N1 := INR (S (S (S m)))) in *. set (N2 := INR (S (S m))) in *.
    replace (N2 / t * (N1 / t * (p2 - 2 * p1 + p0)) - N2 / t * (N1 / t * (q2 - 2 * q1' + q0)))
      with (/ t ^ 2 * (N1 * N2) * ((p2 - q2) - 2 * (p1 - q1') + (p0 - q0))) by (field; unfold t; lra).
    rewrite Rabs_mult. assert (W : 0 <= / t ^ 2 * (N1 * N2)).
    { apply Rmult_le_pos; [left; apply Rinv_0_lt_compat, pow_lt; exact T0|apply Rmult_le_pos; apply pos_INR]. }
    rewrite (Rabs_pos_eq _ W). replace (/ t ^ 2 * (N1 * N2 * (4 * ce ax))) with (/ t ^ 2 * (N1 * N2) * (4 * ce ax)) by ring. apply Rmult_le_compat_l; [exact W|].
    apply Rabs_le_inv in D0, D1, D2. apply Rabs_le. lra.
  Qed.

  Section Sample.
    Variables (s : f64) (Fs : is_finite s = true) (Hs : 0 <= B2R s <= 1).
    Variables (pf : list fvec) (pi : list vec3).
    Hypotheses (L : length pf = npts (flag_of pData)) (Fp : forall v, In v pf -> finite3 v).
    Hypothesis (B : forall ax i, axis ax -> (i < npts (flag_of pData))%nat -> Rabs (ax (fv_R (nth i pf fv_zero))) <= M ax).
    Hypothesis (G : forall x, exists P Q, computeBezierCurve (flag_of pData) t (map fv_R pf) x = Ok (BCurve P t) /\ com_curve pData t x = Ok (BCurve Q t) /\
      length P = npts (flag_of pData) /\ points_near t (start_state pData) (end_state pData) P Q).

    Lemma Bx ax fax i : axis ax -> (forall v, ax (fv_R v) = B2R (fax v)) -> (forall v, finite3 v -> is_finite (fax v) = true) -> (i < npts (flag_of pData))%nat ->
      is_finite (axp fax pf i) = true /\ Rabs (B2R (axp fax pf i)) <= M ax.
    Proof.
      intros Hax E F Hi. unfold axp. split; [apply F, Fp, nth_In; lia|]. rewrite <- E. apply B; assumption.
    Qed.
    Lemma novec acc Kz a b t' al P P' : good acc (npts (flag_of pData)) Kz a b = true -> evF t' al P a = evF t' al P' a.
    Proof.
      unfold good. intros H. destruct (an _ a) as [sa|] eqn:Ea; [|discriminate]. destruct (an _ b) as [sb|] eqn:Eb; [|discriminate].
      apply andb_prop in H as [H _]. apply andb_prop in H as [_ H]. apply Bool.negb_true_iff in H. apply (an_novec _ _ _ Ea H).
    Qed.
    Lemma evR_ext e t' al P P' : (forall i, P i = P' i) -> evR t' al P e = evR t' al P' e.
    Proof. intros H. induction e; cbn [evR]; congruence. Qed.

    Lemma sample_pos : exists c, evaluateCurveAtTime_f (flag_of pData) pf s = Ok c /\ finite_coefs c /\
      forall x cv, com_curve pData t x = Ok cv -> apart (fun ax => pos_err (degree cv) t (extent t pData x ax)) (at_free c x) (cv_fun cv (B2R s * t)).
    Proof.
      destruct (pos_cases _ pf Hf L) as (a & b & Hg & E & C). eexists. split; [apply E|].
      assert (A0 : forall ax fax X, axis ax -> (forall v, ax (fv_R v) = B2R (fax v)) -> (forall v, finite3 v -> is_finite (fax v) = true) ->
        is_finite (evF s f0 (axp fax pf) a) = true /\ is_finite (evF s f0 (axp fax pf) b) = true /\
        Rabs (B2R (evF s f0 (axp fax pf) a) * X + B2R (evF s f0 (axp fax pf) b) - (evR (B2R s) 0 (axr ax pf) a * X + evR (B2R s) 0 (axr ax pf) b)) <= affine_err false (Kpos n) 0 (M ax) (Rabs X)).
      { intros ax fax X Hax Ex Fx.
        rewrite (evR_ext a _ _ (axr ax pf) (fun i => B2R (axp fax pf i))) by (intros; apply Ex). rewrite (evR_ext b _ _ (axr ax pf) (fun i => B2R (axp fax pf i))) by (intros; apply Ex).
        apply (affine_ok (npts (flag_of pData))); try assumption; try lra; try reflexivity.
        - rewrite f0_val. rewrite Rminus_0_r, Rabs_R0. lra.
        - apply M_pos.
        - intros i Hi. apply Bx; assumption.
        - apply M_big; [exact Hax|]. split; [lra|apply pow_le; lra]. }
      pose proof (A0 vx fx 0 (or_introl eq_refl) (fun v => eq_refl) (fun v H => proj1 H)) as (Fa & Fx & _).
      pose proof (A0 vy fy 0 (or_intror (or_introl eq_refl)) (fun v => eq_refl) (fun v H => proj1 (proj2 H))) as (_ & Fy & _).
      pose proof (A0 vz fz 0 (or_intror (or_intror eq_refl)) (fun v => eq_refl) (fun v H => proj2 (proj2 H))) as (_ & Fz & _).
      split; [repeat split; assumption|].
      intros x cv Ecv. destruct (G x) as (P & Q & EP & EQ & LP & N). rewrite EQ in Ecv. injection Ecv as <-.
      destruct (C x) as (P' & _ & EP' & Ev). specialize (EP' t T0). rewrite EP in EP'. injection EP' as <-.
      intros ax Hax. assert (LQ : length P = length Q) by apply N. unfold degree. cbn [bc_pts]. rewrite <- LQ, LP. fold n.
      eapply Rle_trans; [|apply (pos_total ax (Rabs (ax x)) Hax (Rabs_pos _))].
      assert (Dv : Rabs (ax (bez3 P (B2R s)) - ax (bez3 Q (B2R s))) <= ce ax).
      { assert (NP : P <> []) by (intros X; rewrite X in LP; pose proof (npts_range _ Hf); cbn [length] in LP; lia).
        assert (Tn : t <> 0) by (unfold t; lra). assert (H1 : 0 <= B2R s * t <= t) by (unfold t; nra).
        pose proof (curve_dev t _ _ P Q T0 NP N (B2R s * t) H1 ax Hax) as X. rewrite !curve_at_sT in X by exact Tn. exact X. }
      unfold cv_fun. cbn [bc_pts bc_T]. rewrite curve_at_sT by (unfold t; lra).
      rewrite <- (Ev ax (B2R s) Hax) in Dv.
      destruct (axis_f ax Hax) as (fax & Ex & Fxx & _ & Hsel). destruct (A0 ax fax (ax x) Hax Ex Fxx) as (_ & _ & Er).
      assert (At : ax (at_free (evF s f0 (axp fx pf) a, FV (evF s f0 (axp fx pf) b) (evF s f0 (axp fy pf) b) (evF s f0 (axp fz pf) b)) x) =
        B2R (evF s f0 (axp fax pf) a) * ax x + B2R (evF s f0 (axp fax pf) b)).
      { rewrite (novec _ _ a b s f0 (axp fax pf) (axp fx pf) Hg). unfold at_free, fv_R. cbn [fst snd fx fy fz].
        destruct Hsel as [[-> ->]|[[-> ->]|[-> ->]]]; vsimp; reflexivity. }
      rewrite At. set (u := B2R (evF s f0 (axp fax pf) a) * ax x + B2R (evF s f0 (axp fax pf) b)) in *.
      set (v := evR (B2R s) 0 (axr ax pf) a * ax x + evR (B2R s) 0 (axr ax pf) b) in *.
      replace (u - ax (bez3 Q (B2R s))) with (u - v + (v - ax (bez3 Q (B2R s)))) by ring. eapply Rle_trans; [apply Rabs_triang|]. lra.
    Qed.

    Lemma sample_acc : / 2 ^ 100 <= t -> exists c, evaluateAccelerationCurveAtTime_f (flag_of pData) pf T s = Ok c /\ finite_coefs c /\
      forall x cv, com_curve pData t x = Ok cv -> exists v, is_deriv_n 2 (cv_fun cv) (B2R s * t) v /\
        apart (fun ax => acc_err (degree cv) t (extent t pData x ax)) (at_free c x) v.
    Proof.
      intros TL. destruct (alpha_ok T FT TL TB) as (Fal & Eal & Bal). cbv zeta in *. fold t in Eal, Bal. set (al := fdiv (of_Z 1) (fmul T T)) in *.
      destruct (acc_cases _ pf Hf L) as (a & b & Hg & E & C). cbv zeta in E. eexists. split; [apply E|]. fold al.
      assert (A0 : forall ax fax X, axis ax -> (forall v, ax (fv_R v) = B2R (fax v)) -> (forall v, finite3 v -> is_finite (fax v) = true) ->
        is_finite (evF s al (axp fax pf) a) = true /\ is_finite (evF s al (axp fax pf) b) = true /\
        Rabs (B2R (evF s al (axp fax pf) a) * X + B2R (evF s al (axp fax pf) b) - (evR (B2R s) (/ t ^ 2) (axr ax pf) a * X + evR (B2R s) (/ t ^ 2) (axr ax pf) b)) <= affine_err true (Kacc n) (/ t ^ 2) (M ax) (Rabs X)).
      { intros ax fax X Hax Ex Fx.
        rewrite (evR_ext a _ _ (axr ax pf) (fun i => B2R (axp fax pf i))) by (intros; apply Ex). rewrite (evR_ext b _ _ (axr ax pf) (fun i => B2R (axp fax pf i))) by (intros; apply Ex).
        apply (affine_ok (npts (flag_of pData))); try assumption; try lra; try reflexivity.
        - apply M_pos.
        - intros i Hi. apply Bx; assumption.
        - apply M_big; [exact Hax|]. split; [lra|apply Bal]. }
      pose proof (A0 vx fx 0 (or_introl eq_refl) (fun v => eq_refl) (fun v H => proj1 H)) as (Fa & Fx & _).
      pose proof (A0 vy fy 0 (or_intror (or_introl eq_refl)) (fun v => eq_refl) (fun v H => proj1 (proj2 H))) as (_ & Fy & _).
      pose proof (A0 vz fz 0 (or_intror (or_intror eq_refl)) (fun v => eq_refl) (fun v H => proj2 (proj2 H))) as (_ & Fz & _).
      split; [repeat split; assumption|].
      intros x cv Ecv. destruct (G x) as (P & Q & EP & EQ & LP & N). rewrite EQ in Ecv. injection Ecv as <-.
      destruct (C x) as (P' & _ & EP' & Ev). specialize (EP' t T0). rewrite EP in EP'. injection EP' as <-.
      unfold cv_fun, degree. cbn [bc_pts bc_T]. exists (curve (hodo_n 2 t Q) t (B2R s * t)). split; [apply curve_is_deriv_n|].
      intros ax Hax. assert (LQ : length P = length Q) by apply N. rewrite <- LQ, LP. fold n.
      eapply Rle_trans; [|apply (acc_total ax (Rabs (ax x)) Hax (Rabs_pos _))].
      pose proof (acc_dev ax P Q (B2R s) Hax Hs LP N) as Dv.
      assert (Tn : t <> 0) by (unfold t; lra). rewrite curve_at_sT by exact Tn.
      rewrite <- (Ev ax (B2R s) t Tn Hax) in Dv.
      destruct (axis_f ax Hax) as (fax & Ex & Fxx & _ & Hsel). destruct (A0 ax fax (ax x) Hax Ex Fxx) as (_ & _ & Er).
      assert (At : ax (at_free (evF s al (axp fx pf) a, FV (evF s al (axp fx pf) b) (evF s al (axp fy pf) b) (evF s al (axp fz pf) b)) x) =
        B2R (evF s al (axp fax pf) a) * ax x + B2R (evF s al (axp fax pf) b)).
      { rewrite (novec _ _ a b s al (axp fax pf) (axp fx pf) Hg). unfold at_free, fv_R. cbn [fst snd fx fy fz].
        destruct Hsel as [[-> ->]|[[-> ->]|[-> ->]]]; vsimp; reflexivity. }
      rewrite At. set (u := B2R (evF s al (axp fax pf) a) * ax x + B2R (evF s al (axp fax pf) b)) in *.
      set (v := evR (B2R s) (/ t ^ 2) (axr ax pf) a * ax x + evR (B2R s) (/ t ^ 2) (axr ax pf) b) in *.
      replace (u - ax (bez3 (hodo_n 2 t Q) (B2R s))) with (u - v + (v - ax (bez3 (hodo_n 2 t Q) (B2R s)))) by ring. eapply Rle_trans; [apply Rabs_triang|]. lra.
    Qed.
  End Sample.
End Main.
