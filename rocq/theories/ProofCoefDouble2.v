(** The expressions of the coefficients, and their sizes. *)
From Flocq Require Import Core BinarySingleNaN.
From Coq Require Import List Lia Lra.
From Verif Require Import Vec ModelData Double ModelPtsDouble ModelCoefDouble SpecDouble SpecPtsDouble ProofDouble ProofPtsDouble ProofCoefDouble.
Import ListNotations.
Open Scope R_scope.

Definition pos_c0_dc0_c1_a : ex := (Ad (Mu (K (-3)) (Mu (Mu Tm Tm) Tm)) (Mu (K (3)) (Mu Tm Tm))).
Definition pos_c0_dc0_c1_b : ex := (Ad (Ad (Su (Ad (Ad (Su (Ad (Mu (Mu (Mu Tm Tm) Tm) (Mu (K (-1)) (Pt 0))) (Mu (Mu Tm Tm) (Mu (K (3)) (Pt 0)))) (Mu Tm (Mu (K (3)) (Pt 0)))) (Mu (K (1)) (Pt 0))) (Mu (Mu (Mu Tm Tm) Tm) (Mu (K (3)) (Pt 1)))) (Mu (Mu Tm Tm) (Mu (K (6)) (Pt 1)))) (Mu Tm (Mu (K (3)) (Pt 1)))) (Mu (Mu (Mu Tm Tm) Tm) (Mu (K (1)) (Pt 3)))).
Definition acc_c0_dc0_c1_a : ex := (Mu (Ad (Mu (K (-18)) Tm) (K (6))) Al).
Definition acc_c0_dc0_c1_b : ex := (Mu Al (Ad (Su (Ad (Ad (Mu Tm (Mu (K (-6)) (Pt 0))) (Mu (K (6)) (Pt 0))) (Mu Tm (Mu (K (18)) (Pt 1)))) (Mu (K (12)) (Pt 1))) (Mu Tm (Mu (K (6)) (Pt 3))))).
Definition pos_c0_dc0_dc1_a : ex := (Ad (Mu (K (-2)) (Mu (Mu Tm Tm) Tm)) (Mu (K (3)) (Mu Tm Tm))).
Definition pos_c0_dc0_dc1_b : ex := (Ad (Su (Ad (Ad (Su (Ad (Mu (Mu (Mu Tm Tm) Tm) (Mu (K (-1)) (Pt 0))) (Mu (Mu Tm Tm) (Mu (K (3)) (Pt 0)))) (Mu Tm (Mu (K (3)) (Pt 0)))) (Mu (K (1)) (Pt 0))) (Mu (Mu (Mu Tm Tm) Tm) (Mu (K (3)) (Pt 1)))) (Mu (Mu Tm Tm) (Mu (K (6)) (Pt 1)))) (Mu Tm (Mu (K (3)) (Pt 1)))).
Definition acc_c0_dc0_dc1_a : ex := (Mu (Ad (Mu (K (-12)) Tm) (K (6))) Al).
Definition acc_c0_dc0_dc1_b : ex := (Mu Al (Su (Ad (Ad (Mu Tm (Mu (K (-6)) (Pt 0))) (Mu (K (6)) (Pt 0))) (Mu Tm (Mu (K (18)) (Pt 1)))) (Mu (K (12)) (Pt 1)))).
Definition pos_c0_dc0_dc1_c1_a : ex := (Ad (Su (Mu (K (6)) (Mu (Mu (Mu Tm Tm) Tm) Tm)) (Mu (K (12)) (Mu (Mu Tm Tm) Tm))) (Mu (K (6)) (Mu Tm Tm))).
Definition pos_c0_dc0_dc1_c1_b : ex := (Ad (Ad (Su (Ad (Su (Ad (Su (Ad (Su (Ad (Su (Mu (Mu (Mu (Mu Tm Tm) Tm) Tm) (Mu (K (1)) (Pt 0))) (Mu (Mu (Mu Tm Tm) Tm) (Mu (K (4)) (Pt 0)))) (Mu (Mu Tm Tm) (Mu (K (6)) (Pt 0)))) (Mu Tm (Mu (K (4)) (Pt 0)))) (Mu (K (1)) (Pt 0))) (Mu (Mu (Mu (Mu Tm Tm) Tm) Tm) (Mu (K (4)) (Pt 1)))) (Mu (Mu (Mu Tm Tm) Tm) (Mu (K (12)) (Pt 1)))) (Mu (Mu Tm Tm) (Mu (K (12)) (Pt 1)))) (Mu Tm (Mu (K (4)) (Pt 1)))) (Mu (Mu (Mu (Mu Tm Tm) Tm) Tm) (Mu (K (4)) (Pt 3)))) (Mu (Mu (Mu Tm Tm) Tm) (Mu (K (4)) (Pt 3)))) (Mu (Mu (Mu (Mu Tm Tm) Tm) Tm) (Mu (K (1)) (Pt 4)))).
Definition acc_c0_dc0_dc1_c1_a : ex := (Mu (Ad (Su (Mu (Mu (K (72)) Tm) Tm) (Mu (K (72)) Tm)) (K (12))) Al).
Definition acc_c0_dc0_dc1_c1_b : ex := (Mu Al (Ad (Ad (Su (Su (Ad (Su (Ad (Su (Mu Tm (Mu Tm (Mu (K (12)) (Pt 0)))) (Mu Tm (Mu (K (24)) (Pt 0)))) (Mu (K (12)) (Pt 0))) (Mu Tm (Mu Tm (Mu (K (48)) (Pt 1))))) (Mu Tm (Mu (K (72)) (Pt 1)))) (Mu (K (24)) (Pt 1))) (Mu Tm (Mu Tm (Mu (K (48)) (Pt 3))))) (Mu Tm (Mu (K (24)) (Pt 3)))) (Mu Tm (Mu Tm (Mu (K (12)) (Pt 4)))))).
Definition pos_c0_dc0_ddc0_a : ex := (Mu (Mu Tm Tm) Tm).
Definition pos_c0_dc0_ddc0_b : ex := (Ad (Ad (Ad (Mu (Mu (Mu Tm Tm) Tm) (Su (Mu (K (3)) (Su (Pt 1) (Pt 2))) (Pt 0))) (Mu (Mu Tm Tm) (Su (Mu (K (3)) (Ad (Pt 0) (Pt 2))) (Mu (K (6)) (Pt 1))))) (Mu (Mu (K (3)) Tm) (Su (Pt 1) (Pt 0)))) (Pt 0)).
Definition acc_c0_dc0_ddc0_a : ex := (Mu (Mu (K (6)) Tm) Al).
Definition acc_c0_dc0_ddc0_b : ex := (Ad (Mu Tm (Mu Al (Su (Mu (K (18)) (Su (Pt 1) (Pt 2))) (Mu (K (6)) (Pt 0))))) (Mu Al (Su (Mu (K (6)) (Ad (Pt 0) (Pt 2))) (Mu (K (12)) (Pt 1))))).
Definition pos_c0_dc0_ddc0_c1_a : ex := (Ad (Mu (K (-4)) (Mu (Mu (Mu Tm Tm) Tm) Tm)) (Mu (K (4)) (Mu (Mu Tm Tm) Tm))).
Definition pos_c0_dc0_ddc0_c1_b : ex := (Ad (Ad (Su (Ad (Ad (Su (Ad (Su (Ad (Su (Ad (Su (Mu (Mu (Mu (Mu Tm Tm) Tm) Tm) (Mu (K (1)) (Pt 0))) (Mu (Mu (Mu Tm Tm) Tm) (Mu (K (4)) (Pt 0)))) (Mu (Mu Tm Tm) (Mu (K (6)) (Pt 0)))) (Mu Tm (Mu (K (4)) (Pt 0)))) (Mu (K (1)) (Pt 0))) (Mu (Mu (Mu (Mu Tm Tm) Tm) Tm) (Mu (K (4)) (Pt 1)))) (Mu (Mu (Mu Tm Tm) Tm) (Mu (K (12)) (Pt 1)))) (Mu (Mu Tm Tm) (Mu (K (12)) (Pt 1)))) (Mu Tm (Mu (K (4)) (Pt 1)))) (Mu (Mu (Mu (Mu Tm Tm) Tm) Tm) (Mu (K (6)) (Pt 2)))) (Mu (Mu (Mu Tm Tm) Tm) (Mu (K (12)) (Pt 2)))) (Mu (Mu Tm Tm) (Mu (K (6)) (Pt 2)))) (Mu (Mu (Mu (Mu Tm Tm) Tm) Tm) (Mu (K (1)) (Pt 4)))).
Definition acc_c0_dc0_ddc0_c1_a : ex := (Mu (Ad (Mu (K (-48)) (Mu Tm Tm)) (Mu (K (24)) Tm)) Al).
Definition acc_c0_dc0_ddc0_c1_b : ex := (Mu Al (Ad (Ad (Su (Ad (Su (Ad (Su (Ad (Su (Mu (Mu Tm Tm) (Mu (K (12)) (Pt 0))) (Mu Tm (Mu (K (24)) (Pt 0)))) (Mu (K (12)) (Pt 0))) (Mu (Mu Tm Tm) (Mu (K (48)) (Pt 1)))) (Mu Tm (Mu (K (72)) (Pt 1)))) (Mu (K (24)) (Pt 1))) (Mu (Mu Tm Tm) (Mu (K (72)) (Pt 2)))) (Mu Tm (Mu (K (72)) (Pt 2)))) (Mu (K (12)) (Pt 2))) (Mu (Mu Tm Tm) (Mu (K (12)) (Pt 4))))).
Definition pos_c0_dc0_ddc0_dc1_c1_a : ex := (Ad (Su (Mu (K (10)) (Mu (Mu (Mu (Mu Tm Tm) Tm) Tm) Tm)) (Mu (K (20)) (Mu (Mu (Mu Tm Tm) Tm) Tm))) (Mu (K (10)) (Mu (Mu Tm Tm) Tm))).
Definition pos_c0_dc0_ddc0_dc1_c1_b : ex := (Ad (Ad (Su (Ad (Su (Ad (Su (Ad (Su (Ad (Su (Ad (Ad (Su (Ad (Su (Ad (Mu (Mu (Mu (Mu (Mu Tm Tm) Tm) Tm) Tm) (Mu (K (-1)) (Pt 0))) (Mu (Mu (Mu (Mu Tm Tm) Tm) Tm) (Mu (K (5)) (Pt 0)))) (Mu (Mu (Mu Tm Tm) Tm) (Mu (K (10)) (Pt 0)))) (Mu (Mu Tm Tm) (Mu (K (10)) (Pt 0)))) (Mu Tm (Mu (K (5)) (Pt 0)))) (Mu (K (1)) (Pt 0))) (Mu (Mu (Mu (Mu (Mu Tm Tm) Tm) Tm) Tm) (Mu (K (5)) (Pt 1)))) (Mu (Mu (Mu (Mu Tm Tm) Tm) Tm) (Mu (K (20)) (Pt 1)))) (Mu (Mu (Mu Tm Tm) Tm) (Mu (K (30)) (Pt 1)))) (Mu (Mu Tm Tm) (Mu (K (20)) (Pt 1)))) (Mu Tm (Mu (K (5)) (Pt 1)))) (Mu (Mu (Mu (Mu (Mu Tm Tm) Tm) Tm) Tm) (Mu (K (10)) (Pt 2)))) (Mu (Mu (Mu (Mu Tm Tm) Tm) Tm) (Mu (K (30)) (Pt 2)))) (Mu (Mu (Mu Tm Tm) Tm) (Mu (K (30)) (Pt 2)))) (Mu (Mu Tm Tm) (Mu (K (10)) (Pt 2)))) (Mu (Mu (Mu (Mu (Mu Tm Tm) Tm) Tm) Tm) (Mu (K (5)) (Pt 4)))) (Mu (Mu (Mu (Mu Tm Tm) Tm) Tm) (Mu (K (5)) (Pt 4)))) (Mu (Mu (Mu (Mu (Mu Tm Tm) Tm) Tm) Tm) (Mu (K (1)) (Pt 5)))).
Definition acc_c0_dc0_ddc0_dc1_c1_a : ex := (Mu (Ad (Su (Mu (K (200)) (Mu (Mu Tm Tm) Tm)) (Mu (K (240)) (Mu Tm Tm))) (Mu (K (60)) Tm)) Al).
Definition acc_c0_dc0_ddc0_dc1_c1_b : ex := (Mu Al (Mu (K (1)) (Ad (Ad (Su (Ad (Su (Ad (Su (Su (Ad (Su (Ad (Ad (Su (Ad (Mu (Mu (Mu Tm Tm) Tm) (Mu (K (-20)) (Pt 0))) (Mu (Mu Tm Tm) (Mu (K (60)) (Pt 0)))) (Mu Tm (Mu (K (60)) (Pt 0)))) (Mu (K (20)) (Pt 0))) (Mu (Mu (Mu Tm Tm) Tm) (Mu (K (100)) (Pt 1)))) (Mu (Mu Tm Tm) (Mu (K (240)) (Pt 1)))) (Mu Tm (Mu (K (180)) (Pt 1)))) (Mu (K (40)) (Pt 1))) (Mu (Mu (Mu Tm Tm) Tm) (Mu (K (200)) (Pt 2)))) (Mu (Mu Tm Tm) (Mu (K (360)) (Pt 2)))) (Mu Tm (Mu (K (180)) (Pt 2)))) (Mu (K (20)) (Pt 2))) (Mu (Mu (Mu Tm Tm) Tm) (Mu (K (100)) (Pt 4)))) (Mu (Mu Tm Tm) (Mu (K (60)) (Pt 4)))) (Mu (Mu (Mu Tm Tm) Tm) (Mu (K (20)) (Pt 5)))))).
Definition pos_c0_dc0_ddc0_ddc1_dc1_c1_a : ex := (Ad (Su (Ad (Mu (K (-20)) (Mu (Mu (Mu (Mu (Mu Tm Tm) Tm) Tm) Tm) Tm)) (Mu (K (60)) (Mu (Mu (Mu (Mu Tm Tm) Tm) Tm) Tm))) (Mu (K (60)) (Mu (Mu (Mu Tm Tm) Tm) Tm))) (Mu (K (20)) (Mu (Mu Tm Tm) Tm))).
Definition pos_c0_dc0_ddc0_ddc1_dc1_c1_b : ex := (Ad (Ad (Su (Ad (Su (Ad (Ad (Su (Ad (Su (Ad (Ad (Su (Ad (Su (Ad (Su (Ad (Su (Ad (Su (Ad (Su (Mu (Mu (Mu (Mu (Mu (Mu Tm Tm) Tm) Tm) Tm) Tm) (Mu (K (1)) (Pt 0))) (Mu (Mu (Mu (Mu (Mu Tm Tm) Tm) Tm) Tm) (Mu (K (6)) (Pt 0)))) (Mu (Mu (Mu (Mu Tm Tm) Tm) Tm) (Mu (K (15)) (Pt 0)))) (Mu (Mu (Mu Tm Tm) Tm) (Mu (K (20)) (Pt 0)))) (Mu (Mu Tm Tm) (Mu (K (15)) (Pt 0)))) (Mu Tm (Mu (K (6)) (Pt 0)))) (Mu (K (1)) (Pt 0))) (Mu (Mu (Mu (Mu (Mu (Mu Tm Tm) Tm) Tm) Tm) Tm) (Mu (K (6)) (Pt 1)))) (Mu (Mu (Mu (Mu (Mu Tm Tm) Tm) Tm) Tm) (Mu (K (30)) (Pt 1)))) (Mu (Mu (Mu (Mu Tm Tm) Tm) Tm) (Mu (K (60)) (Pt 1)))) (Mu (Mu (Mu Tm Tm) Tm) (Mu (K (60)) (Pt 1)))) (Mu (Mu Tm Tm) (Mu (K (30)) (Pt 1)))) (Mu Tm (Mu (K (6)) (Pt 1)))) (Mu (Mu (Mu (Mu (Mu (Mu Tm Tm) Tm) Tm) Tm) Tm) (Mu (K (15)) (Pt 2)))) (Mu (Mu (Mu (Mu (Mu Tm Tm) Tm) Tm) Tm) (Mu (K (60)) (Pt 2)))) (Mu (Mu (Mu (Mu Tm Tm) Tm) Tm) (Mu (K (90)) (Pt 2)))) (Mu (Mu (Mu Tm Tm) Tm) (Mu (K (60)) (Pt 2)))) (Mu (Mu Tm Tm) (Mu (K (15)) (Pt 2)))) (Mu (Mu (Mu (Mu (Mu (Mu Tm Tm) Tm) Tm) Tm) Tm) (Mu (K (15)) (Pt 4)))) (Mu (Mu (Mu (Mu (Mu Tm Tm) Tm) Tm) Tm) (Mu (K (30)) (Pt 4)))) (Mu (Mu (Mu (Mu Tm Tm) Tm) Tm) (Mu (K (15)) (Pt 4)))) (Mu (Mu (Mu (Mu (Mu (Mu Tm Tm) Tm) Tm) Tm) Tm) (Mu (K (6)) (Pt 5)))) (Mu (Mu (Mu (Mu (Mu Tm Tm) Tm) Tm) Tm) (Mu (K (6)) (Pt 5)))) (Mu (Mu (Mu (Mu (Mu (Mu Tm Tm) Tm) Tm) Tm) Tm) (Mu (K (1)) (Pt 6)))).
Definition acc_c0_dc0_ddc0_ddc1_dc1_c1_a : ex := (Mu (Mu (K (1)) (Ad (Su (Ad (Mu (K (-600)) (Mu (Mu (Mu Tm Tm) Tm) Tm)) (Mu (K (1200)) (Mu (Mu Tm Tm) Tm))) (Mu (K (720)) (Mu Tm Tm))) (Mu (K (120)) Tm))) Al).
Definition acc_c0_dc0_ddc0_ddc1_dc1_c1_b : ex := (Mu Al (Mu (K (1)) (Ad (Ad (Su (Ad (Su (Ad (Ad (Su (Ad (Su (Ad (Su (Ad (Su (Ad (Su (Ad (Su (Ad (Su (Mu (Mu (Mu (Mu Tm Tm) Tm) Tm) (Mu (K (30)) (Pt 0))) (Mu (Mu (Mu Tm Tm) Tm) (Mu (K (120)) (Pt 0)))) (Mu (Mu Tm Tm) (Mu (K (180)) (Pt 0)))) (Mu Tm (Mu (K (120)) (Pt 0)))) (Mu (K (30)) (Pt 0))) (Mu (Mu (Mu (Mu Tm Tm) Tm) Tm) (Mu (K (180)) (Pt 1)))) (Mu (Mu (Mu Tm Tm) Tm) (Mu (K (600)) (Pt 1)))) (Mu (Mu Tm Tm) (Mu (K (720)) (Pt 1)))) (Mu Tm (Mu (K (360)) (Pt 1)))) (Mu (K (60)) (Pt 1))) (Mu (Mu (Mu (Mu Tm Tm) Tm) Tm) (Mu (K (450)) (Pt 2)))) (Mu (Mu (Mu Tm Tm) Tm) (Mu (K (1200)) (Pt 2)))) (Mu (Mu Tm Tm) (Mu (K (1080)) (Pt 2)))) (Mu Tm (Mu (K (360)) (Pt 2)))) (Mu (K (30)) (Pt 2))) (Mu (Mu (Mu (Mu Tm Tm) Tm) Tm) (Mu (K (450)) (Pt 4)))) (Mu (Mu (Mu Tm Tm) Tm) (Mu (K (600)) (Pt 4)))) (Mu (Mu Tm Tm) (Mu (K (180)) (Pt 4)))) (Mu (Mu (Mu (Mu Tm Tm) Tm) Tm) (Mu (K (180)) (Pt 5)))) (Mu (Mu (Mu Tm Tm) Tm) (Mu (K (120)) (Pt 5)))) (Mu (Mu (Mu (Mu Tm Tm) Tm) Tm) (Mu (K (30)) (Pt 6)))))).

Lemma th_lin k : (k <= 100)%nat -> th k - 1 <= IZR (Z.of_nat k + 1) * u53.
Proof.
  intros H. pose proof u53_pos as U. pose proof u53_small as V.
  assert (Q : forall j, (j <= 100)%nat -> th j <= 1 + INR j * u53 + INR j * INR j * (u53 * u53)).
  { induction j as [|j IH]; intros Hj; [unfold th; cbn; lra|]. specialize (IH ltac:(lia)). rewrite th_S, S_INR.
    pose proof (pos_INR j). assert (INR j <= 100) by (change 100 with (IZR (Z.of_nat 100)); rewrite <- INR_IZR_INZ; apply le_INR; lia).
    assert (INR j * u53 <= 1) by nra.
    assert (u53 * th j <= u53 * (1 + INR j * u53 + INR j * INR j * (u53 * u53))) by (apply Rmult_le_compat_l; lra).
    assert (INR j * INR j * (u53 * u53 * u53) <= INR j * (u53 * u53)).
    { replace (INR j * INR j * (u53 * u53 * u53)) with (INR j * u53 * (INR j * (u53 * u53))) by ring.
      rewrite <- (Rmult_1_l (INR j * (u53 * u53))) at 2. apply Rmult_le_compat_r; [|assumption]. apply Rmult_le_pos; [assumption|]. apply Rmult_le_pos; lra. }
    assert (0 <= u53 * u53) by (apply Rmult_le_pos; lra). lra. }
  specialize (Q k H). rewrite plus_IZR, <- INR_IZR_INZ. pose proof (pos_INR k). assert (INR k <= 100) by (change 100 with (IZR (Z.of_nat 100)); rewrite <- INR_IZR_INZ; apply le_INR; lia).
  assert (INR k * INR k * u53 <= 1) by nra.
  assert (INR k * INR k * (u53 * u53) <= u53).
  { replace (INR k * INR k * (u53 * u53)) with (INR k * INR k * u53 * u53) by ring. rewrite <- (Rmult_1_l u53) at 3. apply Rmult_le_compat_r; lra. }
  lra.
Qed.

(** An affine expression of the free point. *)
Definition fits (Kz : Z) (s : sz) : bool := (Nat.leb (s_k s) 100 && Z.leb ((Z.of_nat (s_k s) + 1) * s_m s) Kz && Z.leb (s_c s) (2 ^ 39))%bool.
Lemma size_err A M s Kz f x : has_size A M s f x -> fits Kz s = true -> 
  is_finite f = true /\
  Rabs (B2R f - x) <= IZR Kz * u53 * (wt (s_a s) A * wt (s_v s) M) + 2 ^ 39 * (eta * (wt (s_a s) (1 + A) * wt (s_v s) (1 + M))).
Proof.
  intros (F & B & X & Hm & Hc & HG & HD) H. unfold fits in H. apply andb_prop in H as [H H3]. apply andb_prop in H as [H1 H2].
  apply Nat.leb_le in H1. apply Z.leb_le in H2, H3. split; [exact F|]. eapply Rle_trans; [exact B|]. pose proof eta_pos. pose proof u53_pos.
  apply Rplus_le_compat.
  - rewrite <- Rmult_assoc. apply Rmult_le_compat_r; [lra|].
    apply Rle_trans with (IZR (Z.of_nat (s_k s) + 1) * u53 * IZR (s_m s)); [apply Rmult_le_compat_r; [apply IZR_le; lia|apply th_lin, H1]|].
    replace (IZR (Z.of_nat (s_k s) + 1) * u53 * IZR (s_m s)) with (IZR ((Z.of_nat (s_k s) + 1) * s_m s) * u53) by (rewrite mult_IZR; ring).
    apply Rmult_le_compat_r; [lra|]. apply IZR_le, H2.
  - apply Rmult_le_compat_r; [apply Rmult_le_pos; lra|]. rewrite pow_IZR2. apply IZR_le, H3.
Qed.

Definition good (acc : bool) (n : nat) (Kz : Z) (a b : ex) : bool :=
  match an n a, an n b with
  | Some sa, Some sb => fits Kz sa && fits Kz sb && Bool.eqb (s_a sa) acc && Bool.eqb (s_a sb) acc && negb (s_v sa) && s_v sb
  | _, _ => false end%bool.

Section Affine.
Variables (n : nat) (t al : f64) (P : nat -> f64) (A M : R).
Hypotheses (Ft : is_finite t = true) (Ht : 0 <= B2R t <= 1).
Hypotheses (HA : 0 <= A) (Fa : is_finite al = true) (Ha : Rabs (B2R al - A) <= (th 3 - 1) * A).
Hypotheses (HM : 0 <= M) (FP : forall i, (i < n)%nat -> is_finite (P i) = true /\ Rabs (B2R (P i)) <= M).
Hypothesis (HD : (1 + A) * (1 + M) <= 2 ^ 840).
Definition affine_err (acc : bool) (Kz : Z) (A M X : R) : R :=
  IZR Kz * u53 * (wt acc A * (M + X)) + 2 ^ 39 * (eta * (wt acc (1 + A) * (1 + M + X))).
(** the first coefficient does not depend on the points *)
Lemma an_novec e : forall s, an n e = Some s -> s_v s = false -> forall t' al' Q Q', evF t' al' Q e = evF t' al' Q' e.
Proof.
  induction e as [z| | |i|a IHa b IHb|a IHa b IHb|a IHa b IHb]; intros s H V t' al' Q Q'; cbn [an evF] in *; try reflexivity.
  - destruct (Nat.ltb i n); [|discriminate]. injection H as <-. discriminate.
  - destruct (an n a) as [x|]; [|discriminate]. destruct (an n b) as [y|]; [|discriminate]. unfold sum_sz, chk in H.
    destruct (Bool.eqb_spec (s_a x) (s_a y)) as [Ea|]; [|discriminate]. destruct (Bool.eqb_spec (s_v x) (s_v y)) as [Ev|]; [|discriminate].
    cbn [andb] in H. destruct (_ && _)%bool in H; [|discriminate]. injection H as <-. cbn [s_v] in V.
    rewrite (IHa x eq_refl V t' al' Q Q'), (IHb y eq_refl) with (Q := Q) (Q' := Q'); [reflexivity|congruence].
  - destruct (an n a) as [x|]; [|discriminate]. destruct (an n b) as [y|]; [|discriminate]. unfold sum_sz, chk in H.
    destruct (Bool.eqb_spec (s_a x) (s_a y)) as [Ea|]; [|discriminate]. destruct (Bool.eqb_spec (s_v x) (s_v y)) as [Ev|]; [|discriminate].
    cbn [andb] in H. destruct (_ && _)%bool in H; [|discriminate]. injection H as <-. cbn [s_v] in V.
    rewrite (IHa x eq_refl V t' al' Q Q'), (IHb y eq_refl) with (Q := Q) (Q' := Q'); [reflexivity|congruence].
  - destruct (an n a) as [x|]; [|discriminate]. destruct (an n b) as [y|]; [|discriminate]. unfold mul_sz, chk in H.
    destruct (_ || _)%bool in H; [discriminate|]. destruct (_ && _)%bool in H; [|discriminate]. injection H as <-. cbn [s_v] in V.
    apply Bool.orb_false_elim in V as [V1 V2]. rewrite (IHa x eq_refl V1 t' al' Q Q'), (IHb y eq_refl V2 t' al' Q Q'). reflexivity.
Qed.
Lemma affine_ok acc Kz a b X : good acc n Kz a b = true ->
  is_finite (evF t al P a) = true /\ is_finite (evF t al P b) = true /\
  Rabs (B2R (evF t al P a) * X + B2R (evF t al P b) -
    (evR (B2R t) A (fun i => B2R (P i)) a * X + evR (B2R t) A (fun i => B2R (P i)) b)) <= affine_err acc Kz A M (Rabs X).
Proof.
  unfold good. destruct (an n a) as [sa|] eqn:Ea; [|discriminate]. destruct (an n b) as [sb|] eqn:Eb; [|discriminate]. intros H.
  apply andb_prop in H as [H H0]. apply andb_prop in H as [H H1]. apply andb_prop in H as [H H2]. apply andb_prop in H as [H H3]. apply andb_prop in H as [H H4]. apply Bool.eqb_prop in H2, H3. apply Bool.negb_true_iff in H1.
  pose proof (an_sound n t al P A M Ft Ht HA Fa Ha HM FP HD a sa Ea) as Sa. pose proof (an_sound n t al P A M Ft Ht HA Fa Ha HM FP HD b sb Eb) as Sb.
  destruct (size_err _ _ _ _ _ _ Sa H) as [Fa' Ba]. destruct (size_err _ _ _ _ _ _ Sb H4) as [Fb Bb].
  split; [exact Fa'|]. split; [exact Fb|]. rewrite H2, H3, H1, H0 in *. cbn [wt] in Ba, Bb.
  set (fa := B2R (evF t al P a)) in *. set (fb := B2R (evF t al P b)) in *. set (ra := evR _ _ _ a) in *. set (rb := evR _ _ _ b) in *.
  replace (fa * X + fb - (ra * X + rb)) with ((fa - ra) * X + (fb - rb)) by ring. eapply Rle_trans; [apply Rabs_triang|]. rewrite Rabs_mult.
  pose proof (Rmult_le_compat_r (Rabs X) _ _ (Rabs_pos X) Ba) as Bx. unfold affine_err. lra.
Qed.
End Affine.

Lemma alpha_ok (T : f64) : is_finite T = true -> / 2 ^ 100 <= B2R T -> B2R T <= 2 ^ 200 ->
  let al := fdiv (of_Z 1) (fmul T T) in
  is_finite al = true /\ Rabs (B2R al - / (B2R T) ^ 2) <= (th 3 - 1) * / (B2R T) ^ 2 /\ 0 < / (B2R T) ^ 2 <= 2 ^ 200.
Proof.
  intros F L1 L2. cbv zeta. assert (Z : 0 < / 2 ^ 100) by (apply Rinv_0_lt_compat, pow_lt; lra).
  set (T' := B2R T) in *. assert (P : 0 < T') by lra. assert (P2 : 0 < T' ^ 2) by (apply pow_lt, P).
  assert (Lo : / 2 ^ 200 <= T' ^ 2).
  { replace (2 ^ 200) with ((2 ^ 100) ^ 2) by (rewrite <- pow_mult; reflexivity). rewrite <- pow_inv. apply pow_incr. lra. }
  assert (Hi : T' ^ 2 <= 2 ^ 400).
  { replace (2 ^ 400) with ((2 ^ 200) ^ 2) by (rewrite <- pow_mult; reflexivity). apply pow_incr. lra. }
  assert (A2 : 0 < / T' ^ 2 <= 2 ^ 200).
  { split; [apply Rinv_0_lt_compat, P2|]. rewrite <- (Rinv_inv (2 ^ 200)). apply Rinv_le_contravar; [apply Rinv_0_lt_compat, pow_lt; lra|exact Lo]. }
  assert (A1 : / 2 ^ 400 <= / T' ^ 2) by (apply Rinv_le_contravar; assumption).
  assert (N : forall j : nat, (j <= 1000)%nat -> / IZR (2 ^ 1022) <= / 2 ^ j).
  { intros j Hj. apply Rinv_le_contravar; [apply pow_lt; lra|]. change 1022%Z with (Z.of_nat 1022). rewrite <- pow_IZR2. apply Rle_pow; [lra|lia]. }
  pose proof u53_pos as U. pose proof u53_small as V.
  assert (B1000 : forall j : nat, (j <= 1000)%nat -> 2 ^ j <= 2 ^ 1000) by (intros j Hj; apply Rle_pow; [lra|exact Hj]).
  assert (E1 : T' * T' = T' ^ 2) by ring.
  destruct (fmul_fin T T F F) as [F2 V2].
  { apply rnd_big. fold T'. rewrite E1, Rabs_pos_eq by lra. eapply Rle_trans; [exact Hi|]. apply B1000. lia. }
  fold T' in V2. rewrite E1 in V2.
  assert (R1 : Rabs (rnd (T' ^ 2) - T' ^ 2) <= u53 * T' ^ 2).
  { rewrite <- (Rabs_pos_eq (T' ^ 2)) at 3 by lra. apply rel_err. rewrite Rabs_pos_eq by lra. eapply Rle_trans; [apply (N 200%nat); lia|exact Lo]. }
  set (Y := rnd (T' ^ 2)) in *. apply Rabs_le_inv in R1.
  assert (YP : 0 < Y) by nra.
  assert (IY1 : / Y <= (1 + u53) ^ 2 * / T' ^ 2).
  { apply Rmult_le_reg_r with (Y * T' ^ 2); [apply Rmult_lt_0_compat; assumption|].
    replace (/ Y * (Y * T' ^ 2)) with (T' ^ 2) by (field; lra).
    replace ((1 + u53) ^ 2 * / T' ^ 2 * (Y * T' ^ 2)) with ((1 + u53) ^ 2 * Y) by (field; lra).
    apply Rle_trans with ((1 + u53) ^ 2 * ((1 - u53) * T' ^ 2)); [|apply Rmult_le_compat_l; [apply pow_le; lra|lra]].
    assert (1 <= (1 + u53) ^ 2 * (1 - u53)) by nra. nra. }
  assert (IY2 : (1 - u53) * / T' ^ 2 <= / Y).
  { apply Rmult_le_reg_r with (Y * T' ^ 2); [apply Rmult_lt_0_compat; assumption|].
    replace (/ Y * (Y * T' ^ 2)) with (T' ^ 2) by (field; lra).
    replace ((1 - u53) * / T' ^ 2 * (Y * T' ^ 2)) with ((1 - u53) * Y) by (field; lra).
    apply Rle_trans with ((1 - u53) * ((1 + u53) * T' ^ 2)); [apply Rmult_le_compat_l; lra|]. nra. }
  assert (IYP : 0 < / Y) by (apply Rinv_0_lt_compat, YP).
  destruct (of_Z_val 1) as [F1 V1]; [lia|].
  destruct (fdiv_fin (of_Z 1) (fmul T T) F1) as [F3 V3].
  { rewrite V2. fold Y. lra. }
  { apply rnd_big. rewrite V1, V2. fold Y. unfold Rdiv. rewrite Rmult_1_l, Rabs_pos_eq by lra.
    apply Rle_trans with (2 ^ 201); [|apply B1000; lia]. replace (2 ^ 201) with (2 * 2 ^ 200) by (change 201%nat with (S 200); reflexivity).
    assert ((1 + u53) ^ 2 <= 2) by nra. eapply Rle_trans; [exact IY1|]. apply Rmult_le_compat; try lra. apply pow_le; lra. }
  split; [exact F3|]. split; [|exact A2]. rewrite V3, V1, V2. fold Y. unfold Rdiv. rewrite Rmult_1_l.
  assert (R2 : Rabs (rnd (/ Y) - / Y) <= u53 * / Y).
  { rewrite <- (Rabs_pos_eq (/ Y)) at 3 by lra. apply rel_err. rewrite Rabs_pos_eq by lra. eapply Rle_trans; [apply (N 401%nat); lia|].
    replace (2 ^ 401) with (2 * 2 ^ 400) by (change 401%nat with (S 400); reflexivity). rewrite Rinv_mult. nra. }
  apply Rabs_le_inv in R2. assert (T3 : th 3 = (1 + u53) ^ 3) by reflexivity. set (a := / T' ^ 2) in *. set (y := / Y) in *. apply Rabs_le. rewrite T3.
  assert (A0 : 0 < a) by lra. assert (M1 : u53 * y <= u53 * ((1 + u53) ^ 2 * a)) by (apply Rmult_le_compat_l; lra).
  split; [|apply Rle_trans with ((1 + u53) * y - a); [lra|]; assert ((1 + u53) * y <= (1 + u53) * ((1 + u53) ^ 2 * a)) by (apply Rmult_le_compat_l; lra); lra].
  assert (M2 : u53 * (1 + u53) ^ 2 <= 2 * u53) by nra.
  assert (M3 : u53 * ((1 + u53) ^ 2 * a) <= 2 * u53 * a) by (rewrite <- Rmult_assoc; apply Rmult_le_compat_r; lra).
  assert (M4 : 3 * u53 <= (1 + u53) ^ 3 - 1) by nra.
  assert (3 * u53 * a <= ((1 + u53) ^ 3 - 1) * a) by (apply Rmult_le_compat_r; lra). lra.
Qed.
