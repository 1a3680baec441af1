(** Sums in any order, and products. *)
From Flocq Require Import Core BinarySingleNaN.
From Coq Require Import List Lia Lra Permutation.
From Verif Require Import Vec SpecBezier ModelData ModelDispatch SpecCom Double ModelPtsDouble ModelRowsDouble SpecDouble SpecPtsDouble SpecCoefDouble SpecRowsDouble
  ProofDouble ProofPtsDouble ProofCoefDouble.
Import ListNotations.
Open Scope R_scope.

Definition val (l : list f64) : R := fold_right (fun a s => B2R a + s) 0 l.
Definition mag (l : list f64) : R := fold_right (fun a s => Rabs (B2R a) + s) 0 l.
Lemma val_app l m : val (l ++ m) = val l + val m.
Proof. unfold val. induction l as [|a l IH]; cbn [app fold_right]; [ring|]. rewrite IH. ring. Qed.
Lemma mag_app l m : mag (l ++ m) = mag l + mag m.
Proof. unfold mag. induction l as [|a l IH]; cbn [app fold_right]; [ring|]. rewrite IH. ring. Qed.
Lemma mag_pos l : 0 <= mag l.
Proof. unfold mag. induction l as [|a l IH]; cbn [fold_right]; [lra|]. pose proof (Rabs_pos (B2R a)). lra. Qed.
Lemma val_mag l : Rabs (val l) <= mag l.
Proof. unfold val, mag. induction l as [|a l IH]; cbn [fold_right]; [rewrite Rabs_R0; lra|]. eapply Rle_trans; [apply Rabs_triang|]. lra. Qed.
Lemma val_perm l m : Permutation l m -> val l = val m.
Proof. unfold val. induction 1; cbn [fold_right] in *; lra. Qed.
Lemma mag_perm l m : Permutation l m -> mag l = mag m.
Proof. unfold mag. induction 1; cbn [fold_right] in *; lra. Qed.

Lemma val_opp l : val (map fopp l) = - val l.
Proof. unfold val. induction l as [|a l IH]; cbn [map fold_right]; [ring|]. rewrite IH. unfold fopp. rewrite B2R_Bopp. ring. Qed.
Lemma mag_opp l : mag (map fopp l) = mag l.
Proof. unfold mag. induction l as [|a l IH]; cbn [map fold_right]; [ring|]. rewrite IH. unfold fopp. rewrite B2R_Bopp, Rabs_Ropp. ring. Qed.
Lemma f64_fmt (x : f64) : fmt (B2R x).
Proof. apply (generic_format_B2R 53 1024). Qed.
Lemma fadd_sum (x y : f64) : is_finite x = true -> is_finite y = true -> Rabs (B2R x + B2R y) <= 2 ^ 1000 ->
  is_finite (fadd x y) = true /\ Rabs (B2R (fadd x y) - (B2R x + B2R y)) <= u53 * Rabs (B2R x + B2R y).
Proof.
  intros Fx Fy H. destruct (fadd_fin x y Fx Fy (rnd_big _ H)) as [F V]. split; [exact F|]. rewrite V. apply add_err; apply f64_fmt.
Qed.
Lemma fmul_near (x y : f64) : is_finite x = true -> is_finite y = true -> Rabs (B2R x * B2R y) <= 2 ^ 1000 ->
  is_finite (fmul x y) = true /\ Rabs (B2R (fmul x y) - B2R x * B2R y) <= u53 * Rabs (B2R x * B2R y) + eta.
Proof.
  intros Fx Fy H. destruct (fmul_fin x y Fx Fy (rnd_big _ H)) as [F V]. split; [exact F|]. rewrite V. apply rnd_err.
Qed.

Lemma sums_ok l x : sums_to l x -> (length l <= 20)%nat -> (forall a, In a l -> is_finite a = true) -> mag l <= 2 ^ 900 ->
  is_finite x = true /\ (1 <= length l)%nat /\ Rabs (B2R x - val l) <= (th (length l - 1) - 1) * mag l.
Proof.
  intros H. assert (P9 : 2 * 2 ^ 900 <= 2 ^ 1000) by (apply (Rle_pow 2 901 1000); [lra|lia]).
  assert (Bd : forall k (a v m : R), (k <= 20)%nat -> 0 <= m -> m <= 2 ^ 900 -> Rabs v <= m -> Rabs (a - v) <= (th k - 1) * m -> Rabs a <= th k * m).
  { intros k a v m Hk M0 M9 V E. replace a with (a - v + v) by ring. eapply Rle_trans; [apply Rabs_triang|]. lra. }
  induction H as [a|l m x y H1 IH1 H2 IH2|l m x P H IH|l x H IH|l x H IH]; intros L F M.
  - split; [apply F; now left|]. split; [cbn; lia|]. cbn [length val mag fold_right Nat.sub]. replace (B2R a - (B2R a + 0)) with 0 by ring. rewrite Rabs_R0.
    unfold th. cbn [pow]. lra.
  - rewrite app_length in L. rewrite mag_app in M. pose proof (mag_pos l) as Ml. pose proof (mag_pos m) as Mm.
    destruct IH1 as (Fx & Lx & Ex); [lia|intros; apply F, in_or_app; now left|lra|]. destruct IH2 as (Fy & Ly & Ey); [lia|intros; apply F, in_or_app; now right|lra|].
    rewrite app_length, val_app, mag_app. set (k := (length l + length m - 2)%nat). assert (Hk : (k <= 18)%nat) by (unfold k; lia).
    assert (Ex' : Rabs (B2R x - val l) <= (th k - 1) * mag l) by (eapply Rle_trans; [exact Ex|]; apply Rmult_le_compat_r; [exact Ml|]; pose proof (th_mono (length l - 1) k ltac:(unfold k; lia)); lra).
    assert (Ey' : Rabs (B2R y - val m) <= (th k - 1) * mag m) by (eapply Rle_trans; [exact Ey|]; apply Rmult_le_compat_r; [exact Mm|]; pose proof (th_mono (length m - 1) k ltac:(unfold k; lia)); lra).
    pose proof (Bd k _ _ _ ltac:(lia) Ml ltac:(lra) (val_mag l) Ex') as Bx. pose proof (Bd k _ _ _ ltac:(lia) Mm ltac:(lra) (val_mag m) Ey') as By.
    assert (S : Rabs (B2R x + B2R y) <= th k * (mag l + mag m)) by (eapply Rle_trans; [apply Rabs_triang|]; lra).
    assert (S9 : Rabs (B2R x + B2R y) <= 2 ^ 1000).
    { eapply Rle_trans; [exact S|]. eapply Rle_trans; [|exact P9]. pose proof (th_2 k ltac:(lia)). pose proof (th_1 k). apply Rmult_le_compat; lra. }
    destruct (fadd_sum x y Fx Fy S9) as [Fz Ez]. split; [exact Fz|]. split; [lia|].
    replace (length l + length m - 1)%nat with (Datatypes.S k) by (unfold k; lia). rewrite th_S. pose proof u53_pos.
    assert (u53 * Rabs (B2R x + B2R y) <= u53 * (th k * (mag l + mag m))) by (apply Rmult_le_compat_l; lra).
    replace (B2R (fadd x y) - (val l + val m)) with ((B2R (fadd x y) - (B2R x + B2R y)) + ((B2R x - val l) + (B2R y - val m))) by ring.
    eapply Rle_trans; [apply Rabs_triang|]. eapply Rle_trans; [apply Rplus_le_compat_l, Rabs_triang|]. lra.
  - rewrite <- (val_perm _ _ P), <- (mag_perm _ _ P), <- (Permutation_length P) in *. apply IH; [exact L|intros a Ha; apply F, (Permutation_in a P Ha)|exact M].
  - destruct (IH L F M) as (Fx & Lx & Ex).
    assert (A : Rabs (B2R f0 + B2R x) <= 2 ^ 1000).
    { change (B2R f0) with 0. rewrite Rplus_0_l. pose proof (Bd (length l - 1)%nat _ _ _ ltac:(lia) (mag_pos l) M (val_mag l) Ex) as Bx.
      eapply Rle_trans; [exact Bx|]. eapply Rle_trans; [|exact P9]. pose proof (th_2 (length l - 1) ltac:(lia)). pose proof (th_1 (length l - 1)). pose proof (mag_pos l). apply Rmult_le_compat; lra. }
    destruct (fadd_fin f0 x eq_refl Fx (rnd_big _ A)) as [Fz Vz]. split; [exact Fz|]. split; [exact Lx|].
    rewrite Vz. change (B2R f0) with 0. rewrite Rplus_0_l, rnd_fmt by apply f64_fmt. exact Ex.
  - rewrite map_length, val_opp, mag_opp in IH. destruct IH as (Fx & Lx & Ex); [exact L| |exact M|].
    + intros a Ha. apply in_map_iff in Ha as (c & <- & Hc). unfold fopp. rewrite is_finite_Bopp. apply F, Hc.
    + split; [unfold fopp; rewrite is_finite_Bopp; exact Fx|]. split; [exact Lx|]. unfold fopp. rewrite B2R_Bopp. replace (- B2R x - val l) with (- (B2R x - - val l)) by ring. rewrite Rabs_Ropp. exact Ex.
Qed.

Lemma th3 : th 3 - 1 <= 4 * u53.
Proof.
  unfold th. pose proof u53_pos. pose proof u53_small. assert (0 <= u53 * u53) by (apply Rmult_le_pos; lra). assert (u53 * u53 <= u53 * / 1000000) by (apply Rmult_le_compat_l; lra).
  assert (u53 * u53 * u53 <= u53 * u53 * 1) by (apply Rmult_le_compat_l; lra). replace ((1 + u53) ^ 3 - 1) with (3 * u53 + 3 * (u53 * u53) + u53 * u53 * u53) by ring. lra.
Qed.
(** [k - K.b] *)
Lemma sub_near sub (k : f64) (K b : fvec) : subtracts sub -> mild k -> mild3 K -> finite3 b ->
  (forall ax, axis ax -> Rabs (ax (fv_R b)) <= 2 ^ 650) ->
  is_finite (sub k K b) = true /\
  Rabs (B2R (sub k K b) - (B2R k - vdot (fv_R K) (fv_R b))) <=
    4 * u53 * Rabs (B2R k) + 6 * u53 * (Rabs (vx (fv_R K)) * Rabs (vx (fv_R b)) + Rabs (vy (fv_R K)) * Rabs (vy (fv_R b)) + Rabs (vz (fv_R K)) * Rabs (vz (fv_R b))) + 4 * eta.
Proof.
  intros Hs [Fk Bk] ((Fx & Bx) & (Fy & By) & (Fz & Bz)) (Gx & Gy & Gz) Hb.
  pose proof (Hb vx (or_introl eq_refl)) as Cx. pose proof (Hb vy (or_intror (or_introl eq_refl))) as Cy. pose proof (Hb vz (or_intror (or_intror eq_refl))) as Cz.
  unfold fv_R in *. cbn [vx vy vz] in *. unfold vdot. cbn [vx vy vz].
  assert (Pm : forall a c : f64, is_finite a = true -> is_finite c = true -> Rabs (B2R a) <= 2 ^ 200 -> Rabs (B2R c) <= 2 ^ 650 ->
    is_finite (fopp (fmul a c)) = true /\ exists e, B2R (fopp (fmul a c)) = - (B2R a * B2R c) + e /\ Rabs e <= u53 * (Rabs (B2R a) * Rabs (B2R c)) + eta /\ Rabs (B2R a) * Rabs (B2R c) <= 2 ^ 850).
  { intros a c Fa Fc Ba Bc. assert (B8 : Rabs (B2R a) * Rabs (B2R c) <= 2 ^ 850) by (change 850%nat with (200 + 650)%nat; rewrite pow_add; apply Rmult_le_compat; try apply Rabs_pos; assumption).
    destruct (fmul_near a c Fa Fc) as [F E]; [rewrite Rabs_mult; eapply Rle_trans; [exact B8|apply Rle_pow; [lra|lia]]|].
    split; [unfold fopp; rewrite is_finite_Bopp; exact F|]. exists (- (B2R (fmul a c) - B2R a * B2R c)). split; [unfold fopp; rewrite B2R_Bopp; ring|]. rewrite Rabs_Ropp. rewrite <- Rabs_mult at 1. split; [exact E|exact B8]. }
  destruct (Pm _ _ Fx Gx Bx Cx) as (F1 & e1 & V1 & E1 & M1). destruct (Pm _ _ Fy Gy By Cy) as (F2 & e2 & V2 & E2 & M2). destruct (Pm _ _ Fz Gz Bz Cz) as (F3 & e3 & V3 & E3 & M3).
  pose proof (Hs k K b) as S. set (p1 := fopp (fmul (fx K) (fx b))) in *. set (p2 := fopp (fmul (fy K) (fy b))) in *. set (p3 := fopp (fmul (fz K) (fz b))) in *.
  set (m1 := Rabs (B2R (fx K)) * Rabs (B2R (fx b))) in *. set (m2 := Rabs (B2R (fy K)) * Rabs (B2R (fy b))) in *. set (m3 := Rabs (B2R (fz K)) * Rabs (B2R (fz b))) in *.
  assert (Q : forall a c e : R, Rabs (- (a * c) + e) <= Rabs a * Rabs c + Rabs e) by (intros; eapply Rle_trans; [apply Rabs_triang|]; rewrite Rabs_Ropp, Rabs_mult; lra).
  pose proof u53_pos as U. pose proof u53_small as U'. pose proof eta_pos as E0. pose proof eta_1 as E0'.
  assert (P1 : Rabs (B2R p1) <= m1 + (u53 * m1 + eta)) by (rewrite V1; eapply Rle_trans; [apply Q|]; fold m1; lra).
  assert (P2 : Rabs (B2R p2) <= m2 + (u53 * m2 + eta)) by (rewrite V2; eapply Rle_trans; [apply Q|]; fold m2; lra).
  assert (P3 : Rabs (B2R p3) <= m3 + (u53 * m3 + eta)) by (rewrite V3; eapply Rle_trans; [apply Q|]; fold m3; lra).
  assert (N1 : 0 <= m1) by (apply Rmult_le_pos; apply Rabs_pos). assert (N2 : 0 <= m2) by (apply Rmult_le_pos; apply Rabs_pos). assert (N3 : 0 <= m3) by (apply Rmult_le_pos; apply Rabs_pos).
  assert (W1 : u53 * m1 <= m1) by (rewrite <- (Rmult_1_l m1) at 2; apply Rmult_le_compat_r; lra). assert (W2 : u53 * m2 <= m2) by (rewrite <- (Rmult_1_l m2) at 2; apply Rmult_le_compat_r; lra). assert (W3 : u53 * m3 <= m3) by (rewrite <- (Rmult_1_l m3) at 2; apply Rmult_le_compat_r; lra).
  assert (X8 : 100 * 2 ^ 850 <= 2 ^ 900) by (change 900%nat with (50 + 850)%nat; rewrite pow_add; apply Rmult_le_compat_r; [apply pow_le; lra|rewrite pow_IZR2; apply IZR_le; vm_compute; discriminate]).
  assert (X2 : 2 ^ 200 <= 2 ^ 850) by (apply Rle_pow; [lra|lia]). assert (X1 : 1 <= 2 ^ 850) by (apply pow_R1_Rle; lra).
  destruct (sums_ok _ _ S) as (Fs & _ & Es).
  - cbn; lia.
  - intros a [<-|[<-|[<-|[<-|[]]]]]; assumption.
  - cbn [mag fold_right]. lra.
  - split; [exact Fs|]. cbn [val mag fold_right length Nat.sub] in Es.
    assert (T3 : (th 3 - 1) * (Rabs (B2R k) + (Rabs (B2R p1) + (Rabs (B2R p2) + (Rabs (B2R p3) + 0)))) <= 4 * u53 * (Rabs (B2R k) + (m1 + m2 + m3) + (u53 * (m1 + m2 + m3) + 3 * eta))).
    { pose proof (th_1 3). pose proof th3. pose proof (Rabs_pos (B2R k)). pose proof (Rabs_pos (B2R p1)). pose proof (Rabs_pos (B2R p2)). pose proof (Rabs_pos (B2R p3)). apply Rmult_le_compat; lra. }
    rewrite V1, V2, V3 in Es at 1.
    assert (G : u53 * (4 * (u53 * (m1 + m2 + m3) + 3 * eta)) <= u53 * (m1 + m2 + m3) + eta).
    { assert (u53 * (4 * (u53 * (m1 + m2 + m3))) <= u53 * (m1 + m2 + m3)).
      { apply Rmult_le_compat_l; [lra|]. assert (u53 * (m1 + m2 + m3) <= / 1000000 * (m1 + m2 + m3)) by (apply Rmult_le_compat_r; lra). lra. }
      assert (u53 * eta <= / 1000000 * eta) by (apply Rmult_le_compat_r; lra). lra. }
    set (r := B2R (sub k K b)) in *.
    replace (r - (B2R k - (B2R (fx K) * B2R (fx b) + B2R (fy K) * B2R (fy b) + B2R (fz K) * B2R (fz b))))
      with ((r - (B2R k + (- (B2R (fx K) * B2R (fx b)) + e1 + (- (B2R (fy K) * B2R (fy b)) + e2 + (- (B2R (fz K) * B2R (fz b)) + e3 + 0))))) + (e1 + (e2 + e3))) by ring.
    eapply Rle_trans; [apply Rabs_triang|]. eapply Rle_trans; [apply Rplus_le_compat_l; eapply Rle_trans; [apply Rabs_triang|apply Rplus_le_compat_l, Rabs_triang]|]. lra.
Qed.
