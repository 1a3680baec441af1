(** Rounding errors of polynomial expressions in a normalised time, an inverse squared duration and points. *)
From Flocq Require Import Core BinarySingleNaN.
From Coq Require Import List Lia Lra Psatz.
From Verif Require Import Vec ModelData Double ModelPtsDouble SpecDouble SpecPtsDouble ProofDouble ProofPtsDouble.
Import ListNotations.
Open Scope R_scope.

Lemma th_2' k : (k <= 100)%nat -> th k <= 2.
Proof.
  intros H. eapply Rle_trans; [apply (th_mono k 100 H)|]. unfold th.
  eapply Rle_trans; [apply (pow_incr _ (1 + / 1000000)); pose proof u53_small; pose proof u53_pos; lra|].
  replace 100%nat with (10 * 10)%nat by reflexivity. rewrite pow_mult.
  eapply Rle_trans; [apply (pow_incr _ (1 + / 10000))|]; [split; [apply pow_le; lra|lra]|lra].
Qed.
Lemma th_add k k' : th (k + k') = th k * th k'.
Proof. apply pow_add. Qed.
Lemma eta_1 : eta <= 1.
Proof. unfold eta. apply (Rle_trans _ (/ 1)); [|right; apply Rinv_1]. apply Rinv_le_contravar; [lra|]. apply pow_R1_Rle. lra. Qed.

(** [f] is [x], of size [m * G], up to [k] roundings and [c] underflows scaled by [D]. *)
Definition sized (k : nat) (m c : Z) (G D : R) (f : f64) (x : R) : Prop :=
  is_finite f = true /\ Rabs (B2R f - x) <= (th k - 1) * (IZR m * G) + IZR c * (eta * D) /\ Rabs x <= IZR m * G /\
  (0 <= m)%Z /\ (0 <= c)%Z /\ 0 <= G <= D /\ 1 <= D.

Lemma sized_mono k k' m c G D f x : (k <= k')%nat -> sized k m c G D f x -> sized k' m c G D f x.
Proof.
  intros Hk (F & B & X & Hm & Hc & HG & HD). repeat split; try assumption; try apply HG.
  eapply Rle_trans; [exact B|]. apply Rplus_le_compat_r, Rmult_le_compat_r; [pose proof (Rabs_pos x); lra|]. pose proof (th_mono k k' Hk). lra.
Qed.
Lemma sized_abs k m c G D f x : sized k m c G D f x -> Rabs (B2R f) <= th k * (IZR m * G) + IZR c * (eta * D).
Proof.
  intros (F & B & X & _). replace (B2R f) with (B2R f - x + x) by ring. eapply Rle_trans; [apply Rabs_triang|]. lra.
Qed.
Lemma sized_fits k m c G D : (k <= 100)%nat -> (0 <= m <= 2 ^ 50)%Z -> (0 <= c <= 2 ^ 50)%Z -> 0 <= G <= D -> 1 <= D <= 2 ^ 840 ->
  th k * (IZR m * G) + IZR c * (eta * D) <= 2 ^ 1000.
Proof.
  intros Hk Hm Hc HG HD. pose proof (th_2' k Hk). pose proof (th_1 k). pose proof eta_1. pose proof eta_pos.
  assert (0 <= IZR m <= 2 ^ 50) by (rewrite pow_IZR2; split; apply IZR_le; lia).
  assert (0 <= IZR c <= 2 ^ 50) by (rewrite pow_IZR2; split; apply IZR_le; lia).
  assert (E : 3 * (2 ^ 50 * 2 ^ 840) <= 2 ^ 1000).
  { rewrite !pow_IZR2, <- !mult_IZR. apply IZR_le. vm_compute. discriminate. }
  assert (0 <= IZR m * G <= 2 ^ 50 * 2 ^ 840) by (split; [apply Rmult_le_pos; lra|apply Rmult_le_compat; lra]).
  assert (0 <= eta * D <= 2 ^ 840) by (split; [apply Rmult_le_pos; lra|nra]).
  assert (0 <= IZR c * (eta * D) <= 2 ^ 50 * 2 ^ 840) by (split; [apply Rmult_le_pos; lra|apply Rmult_le_compat; lra]).
  nra.
Qed.

Lemma sized_sum k m1 c1 m2 c2 G D (f1 f2 : f64) x1 x2 (g : f64) : sized k m1 c1 G D f1 x1 -> sized k m2 c2 G D f2 x2 ->
  is_finite g = true -> B2R g = rnd (B2R f1 + B2R f2) -> sized (S k) (m1 + m2) (2 * (c1 + c2)) G D g (x1 + x2).
Proof.
  intros N1 N2 Fg Vg. pose proof (sized_abs _ _ _ _ _ _ _ N1) as A1. pose proof (sized_abs _ _ _ _ _ _ _ N2) as A2.
  destruct N1 as (F1 & B1 & X1 & Hm1 & Hc1 & HG & HD), N2 as (F2 & B2 & X2 & Hm2 & Hc2 & _ & _).
  pose proof (add_err (B2R f1) (B2R f2) (fmt_B2R f1) (fmt_B2R f2)) as E. pose proof u53_pos as U. pose proof u53_small. pose proof eta_pos.
  assert (0 <= eta * D) by (apply Rmult_le_pos; lra).
  apply IZR_le in Hc1 as Hc1', Hc2 as Hc2'.
  split; [exact Fg|]. split; [|split; [rewrite plus_IZR; pose proof (Rabs_triang x1 x2); lra|split; [lia|split; [lia|split; assumption]]]].
  rewrite Vg, th_S. replace (rnd (B2R f1 + B2R f2) - (x1 + x2)) with (rnd (B2R f1 + B2R f2) - (B2R f1 + B2R f2) + ((B2R f1 - x1) + (B2R f2 - x2))) by ring.
  eapply Rle_trans; [apply Rabs_triang|]. pose proof (Rabs_triang (B2R f1 - x1) (B2R f2 - x2)). pose proof (Rabs_triang (B2R f1) (B2R f2)).
  rewrite mult_IZR, !plus_IZR.
  assert (0 <= (IZR c1 + IZR c2) * (eta * D)) by (apply Rmult_le_pos; lra).
  assert (u53 * ((IZR c1 + IZR c2) * (eta * D)) <= 1 * ((IZR c1 + IZR c2) * (eta * D))) by (apply Rmult_le_compat_r; lra).
  assert (u53 * Rabs (B2R f1 + B2R f2) <= u53 * (th k * (IZR m1 * G + IZR m2 * G) + (IZR c1 + IZR c2) * (eta * D))) by (apply Rmult_le_compat_l; lra).
  lra.
Qed.
Lemma sized_opp k m c G D f x : sized k m c G D f x -> sized k m c G D (fopp f) (- x).
Proof.
  intros (F & B & X & R). unfold sized, fopp. rewrite is_finite_Bopp, B2R_Bopp. split; [exact F|]. split; [|split; [now rewrite Rabs_Ropp|exact R]].
  replace (- B2R f - - x) with (- (B2R f - x)) by ring. now rewrite Rabs_Ropp.
Qed.
Lemma sized_big k1 k2 m1 c1 m2 c2 G D (f1 f2 : f64) x1 x2 : sized k1 m1 c1 G D f1 x1 -> sized k2 m2 c2 G D f2 x2 ->
  (S (max k1 k2) <= 100)%nat -> (m1 + m2 <= 2 ^ 50)%Z -> (2 * (c1 + c2) <= 2 ^ 50)%Z -> D <= 2 ^ 840 -> Rabs (B2R f1 + B2R f2) <= 2 ^ 1000.
Proof.
  intros N1 N2 Hk Hm Hc HD. apply (sized_mono _ (max k1 k2)) in N1; [|lia]. apply (sized_mono _ (max k1 k2)) in N2; [|lia].
  pose proof (sized_abs _ _ _ _ _ _ _ N1) as A1. pose proof (sized_abs _ _ _ _ _ _ _ N2) as A2.
  destruct N1 as (_ & _ & _ & Hm1 & Hc1 & HG & HD1), N2 as (_ & _ & _ & Hm2 & Hc2 & _ & _).
  pose proof (Rabs_triang (B2R f1) (B2R f2)).
  pose proof (sized_fits (max k1 k2) (m1 + m2) (c1 + c2) G D ltac:(lia) ltac:(lia) ltac:(lia) HG ltac:(lra)) as Q. rewrite !plus_IZR in Q. lra.
Qed.
Lemma sized_add k1 k2 m1 c1 m2 c2 G D (f1 f2 : f64) x1 x2 : sized k1 m1 c1 G D f1 x1 -> sized k2 m2 c2 G D f2 x2 ->
  (S (max k1 k2) <= 100)%nat -> (m1 + m2 <= 2 ^ 50)%Z -> (2 * (c1 + c2) <= 2 ^ 50)%Z -> D <= 2 ^ 840 ->
  sized (S (max k1 k2)) (m1 + m2) (2 * (c1 + c2)) G D (fadd f1 f2) (x1 + x2).
Proof.
  intros N1 N2 Hk Hm Hc HD. destruct (fadd_fin f1 f2 (proj1 N1) (proj1 N2)) as [F V].
  { apply rnd_big, (sized_big k1 k2 m1 c1 m2 c2 G D f1 f2 x1 x2); assumption. }
  apply sized_sum with (f1 := f1) (f2 := f2); try assumption; eapply sized_mono; try eassumption; lia.
Qed.
Lemma sized_sub k1 k2 m1 c1 m2 c2 G D (f1 f2 : f64) x1 x2 : sized k1 m1 c1 G D f1 x1 -> sized k2 m2 c2 G D f2 x2 ->
  (S (max k1 k2) <= 100)%nat -> (m1 + m2 <= 2 ^ 50)%Z -> (2 * (c1 + c2) <= 2 ^ 50)%Z -> D <= 2 ^ 840 ->
  sized (S (max k1 k2)) (m1 + m2) (2 * (c1 + c2)) G D (fsub f1 f2) (x1 - x2).
Proof.
  intros N1 N2 Hk Hm Hc HD. pose proof (sized_opp _ _ _ _ _ _ _ N2) as N3.
  assert (V2 : B2R (fopp f2) = - B2R f2) by (unfold fopp; apply B2R_Bopp).
  destruct (fsub_fin f1 f2 (proj1 N1) (proj1 N2)) as [F V].
  { apply rnd_big. unfold Rminus. rewrite <- V2. apply (sized_big k1 k2 m1 c1 m2 c2 G D f1 (fopp f2) x1 (- x2)); assumption. }
  apply sized_sum with (f1 := f1) (f2 := fopp f2); try assumption; [eapply sized_mono; try eassumption; lia..|]. rewrite V, V2. reflexivity.
Qed.
Definition mul_c (m1 c1 m2 c2 : Z) : Z := 2 * (2 * c1 * m2 + 2 * c2 * m1 + c1 * c2) + 1.
Lemma sized_prod k1 k2 m1 c1 m2 c2 G1 D1 G2 D2 (f1 f2 : f64) x1 x2 : sized k1 m1 c1 G1 D1 f1 x1 -> sized k2 m2 c2 G2 D2 f2 x2 ->
  (k1 <= 100)%nat -> (k2 <= 100)%nat ->
  Rabs (B2R f1 * B2R f2 - x1 * x2) <= (th (k1 + k2) - 1) * (IZR (m1 * m2) * (G1 * G2)) + IZR (2 * c1 * m2 + 2 * c2 * m1 + c1 * c2) * (eta * (D1 * D2)).
Proof.
  intros (F1 & B1 & X1 & Hm1 & Hc1 & HG1 & HD1) (F2 & B2 & X2 & Hm2 & Hc2 & HG2 & HD2) Hk1 Hk2.
  pose proof (th_2' k1 Hk1) as T1. pose proof (th_2' k2 Hk2) as T2. pose proof (th_1 k1) as L1. pose proof (th_1 k2) as L2. pose proof eta_pos as E0. pose proof eta_1 as E1.
  apply IZR_le in Hm1, Hc1, Hm2, Hc2. rewrite th_add, !plus_IZR, !mult_IZR.
  set (d1 := B2R f1 - x1) in *. set (d2 := B2R f2 - x2) in *.
  replace (B2R f1 * B2R f2 - x1 * x2) with (d1 * d2 + (x1 * d2 + d1 * x2)) by (unfold d1, d2; ring).
  set (M1 := IZR m1 * G1) in *. set (M2 := IZR m2 * G2) in *. set (e1 := eta * D1) in *. set (e2 := eta * D2) in *.
  assert (PM1 : 0 <= M1 <= IZR m1 * D1) by (unfold M1; split; [apply Rmult_le_pos; lra|apply Rmult_le_compat_l; lra]).
  assert (PM2 : 0 <= M2 <= IZR m2 * D2) by (unfold M2; split; [apply Rmult_le_pos; lra|apply Rmult_le_compat_l; lra]).
  assert (P1 : 0 <= IZR c1 * e1) by (apply Rmult_le_pos; [lra|apply Rmult_le_pos; lra]).
  assert (P2 : 0 <= IZR c2 * e2) by (apply Rmult_le_pos; [lra|apply Rmult_le_pos; lra]).
  assert (Q1 : Rabs (d1 * d2) <= ((th k1 - 1) * M1 + IZR c1 * e1) * ((th k2 - 1) * M2 + IZR c2 * e2)) by (rewrite Rabs_mult; apply Rmult_le_compat; try apply Rabs_pos; assumption).
  assert (Q2 : Rabs (x1 * d2) <= M1 * ((th k2 - 1) * M2 + IZR c2 * e2)) by (rewrite Rabs_mult; apply Rmult_le_compat; try apply Rabs_pos; assumption).
  assert (Q3 : Rabs (d1 * x2) <= ((th k1 - 1) * M1 + IZR c1 * e1) * M2) by (rewrite Rabs_mult; apply Rmult_le_compat; try apply Rabs_pos; assumption).
  eapply Rle_trans; [apply Rabs_triang|]. eapply Rle_trans; [apply Rplus_le_compat_l, Rabs_triang|].
  eapply Rle_trans; [apply Rplus_le_compat; [exact Q1|apply Rplus_le_compat; [exact Q2|exact Q3]]|].
  assert (R1 : IZR c1 * e1 * (th k2 * M2) <= IZR c1 * e1 * (2 * (IZR m2 * D2))) by (apply Rmult_le_compat_l; [assumption|apply Rmult_le_compat; lra]).
  assert (R2 : IZR c2 * e2 * (th k1 * M1) <= IZR c2 * e2 * (2 * (IZR m1 * D1))) by (apply Rmult_le_compat_l; [assumption|apply Rmult_le_compat; lra]).
  assert (R3 : IZR c1 * e1 * (IZR c2 * e2) <= IZR c1 * IZR c2 * (eta * (D1 * D2))).
  { replace (IZR c1 * e1 * (IZR c2 * e2)) with (eta * (IZR c1 * IZR c2 * (eta * (D1 * D2)))) by (unfold e1, e2; ring).
    rewrite <- (Rmult_1_l (IZR c1 * IZR c2 * (eta * (D1 * D2)))) at 2. apply Rmult_le_compat_r; [|exact E1].
    apply Rmult_le_pos; [apply Rmult_le_pos; lra|apply Rmult_le_pos; [lra|apply Rmult_le_pos; lra]]. }
  replace (((th k1 - 1) * M1 + IZR c1 * e1) * ((th k2 - 1) * M2 + IZR c2 * e2) +
    (M1 * ((th k2 - 1) * M2 + IZR c2 * e2) + ((th k1 - 1) * M1 + IZR c1 * e1) * M2))
    with ((th k1 * th k2 - 1) * (M1 * M2) + (IZR c1 * e1 * (th k2 * M2) + IZR c2 * e2 * (th k1 * M1) + IZR c1 * e1 * (IZR c2 * e2))) by ring.
  replace (IZR m1 * IZR m2 * (G1 * G2)) with (M1 * M2) by (unfold M1, M2; ring).
  apply Rplus_le_compat_l. unfold e1, e2 in *. lra.
Qed.
Lemma sized_mul k1 k2 m1 c1 m2 c2 G1 D1 G2 D2 (f1 f2 : f64) x1 x2 : sized k1 m1 c1 G1 D1 f1 x1 -> sized k2 m2 c2 G2 D2 f2 x2 ->
  (S (k1 + k2) <= 100)%nat -> (m1 * m2 <= 2 ^ 50)%Z -> (mul_c m1 c1 m2 c2 <= 2 ^ 50)%Z -> D1 * D2 <= 2 ^ 840 ->
  sized (S (k1 + k2)) (m1 * m2) (mul_c m1 c1 m2 c2) (G1 * G2) (D1 * D2) (fmul f1 f2) (x1 * x2).
Proof.
  intros N1 N2 Hk Hm Hc HD. pose proof (sized_prod _ _ _ _ _ _ _ _ _ _ _ _ _ _ N1 N2 ltac:(lia) ltac:(lia)) as P.
  destruct N1 as (F1 & B1 & X1 & Hm1 & Hc1 & HG1 & HD1), N2 as (F2 & B2 & X2 & Hm2 & Hc2 & HG2 & HD2).
  set (c' := (2 * c1 * m2 + 2 * c2 * m1 + c1 * c2)%Z) in *. unfold mul_c in *. fold c' in Hc |- *.
  assert (Hc' : (0 <= c')%Z) by (unfold c'; nia). assert (Hm' : (0 <= m1 * m2)%Z) by nia.
  assert (HG : 0 <= G1 * G2 <= D1 * D2) by (split; [apply Rmult_le_pos; lra|apply Rmult_le_compat; lra]).
  assert (HD' : 1 <= D1 * D2) by nra.
  assert (X : Rabs (x1 * x2) <= IZR (m1 * m2) * (G1 * G2)).
  { rewrite Rabs_mult, mult_IZR. replace (IZR m1 * IZR m2 * (G1 * G2)) with (IZR m1 * G1 * (IZR m2 * G2)) by ring. apply Rmult_le_compat; try apply Rabs_pos; assumption. }
  assert (A : Rabs (B2R f1 * B2R f2) <= th (k1 + k2) * (IZR (m1 * m2) * (G1 * G2)) + IZR c' * (eta * (D1 * D2))).
  { replace (B2R f1 * B2R f2) with (B2R f1 * B2R f2 - x1 * x2 + x1 * x2) by ring. eapply Rle_trans; [apply Rabs_triang|]. lra. }
  pose proof (sized_fits (k1 + k2) (m1 * m2) c' _ _ ltac:(lia) ltac:(lia) ltac:(lia) HG ltac:(lra)) as Q.
  destruct (fmul_fin f1 f2 F1 F2) as [F V]; [apply rnd_big; lra|].
  split; [exact F|]. split; [|split; [exact X|split; [exact Hm'|split; [lia|split; assumption]]]].
  rewrite V, th_S. pose proof (rnd_err (B2R f1 * B2R f2)) as E. pose proof u53_pos. pose proof u53_small. pose proof eta_pos.
  replace (rnd (B2R f1 * B2R f2) - x1 * x2) with (rnd (B2R f1 * B2R f2) - B2R f1 * B2R f2 + (B2R f1 * B2R f2 - x1 * x2)) by ring.
  eapply Rle_trans; [apply Rabs_triang|]. rewrite plus_IZR, (mult_IZR 2).
  set (W := IZR (m1 * m2) * (G1 * G2)) in *. set (D := D1 * D2) in *.
  assert (0 <= eta * D) by (apply Rmult_le_pos; lra). assert (eta * 1 <= eta * D) by (apply Rmult_le_compat_l; lra).
  apply IZR_le in Hc'. assert (0 <= IZR c' * (eta * D)) by (apply Rmult_le_pos; lra).
  assert (u53 * (IZR c' * (eta * D)) <= 1 * (IZR c' * (eta * D))) by (apply Rmult_le_compat_r; lra).
  assert (u53 * Rabs (B2R f1 * B2R f2) <= u53 * (th (k1 + k2) * W + IZR c' * (eta * D))) by (apply Rmult_le_compat_l; lra).
  lra.
Qed.

(** expressions *)
Inductive ex : Set := K (z : Z) | Tm | Al | Pt (i : nat) | Ad (a b : ex) | Su (a b : ex) | Mu (a b : ex).
Fixpoint evF (t al : f64) (P : nat -> f64) (e : ex) : f64 :=
  match e with K z => of_Z z | Tm => t | Al => al | Pt i => P i
  | Ad a b => fadd (evF t al P a) (evF t al P b) | Su a b => fsub (evF t al P a) (evF t al P b) | Mu a b => fmul (evF t al P a) (evF t al P b) end.
Fixpoint evR (t al : R) (P : nat -> R) (e : ex) : R :=
  match e with K z => IZR z | Tm => t | Al => al | Pt i => P i
  | Ad a b => evR t al P a + evR t al P b | Su a b => evR t al P a - evR t al P b | Mu a b => evR t al P a * evR t al P b end.

Record sz : Set := Sz { s_k : nat; s_m : Z; s_c : Z; s_a : bool; s_v : bool }.
Definition chk (s : sz) : option sz :=
  if (Nat.leb (s_k s) 100 && Z.leb (s_m s) (2 ^ 50) && Z.leb (s_c s) (2 ^ 50))%bool then Some s else None.
Definition sum_sz (x y : sz) : option sz :=
  if (Bool.eqb (s_a x) (s_a y) && Bool.eqb (s_v x) (s_v y))%bool
  then chk (Sz (S (max (s_k x) (s_k y))) (s_m x + s_m y) (2 * (s_c x + s_c y)) (s_a x) (s_v x)) else None.
Definition mul_sz (x y : sz) : option sz :=
  if (s_a x && s_a y || s_v x && s_v y)%bool then None
  else chk (Sz (S (s_k x + s_k y)) (s_m x * s_m y) (mul_c (s_m x) (s_c x) (s_m y) (s_c y)) (s_a x || s_a y) (s_v x || s_v y)).
Fixpoint an (n : nat) (e : ex) : option sz :=
  match e with
  | K z => if Z.leb (Z.abs z) (2 ^ 50) then Some (Sz 0 (Z.abs z) 0 false false) else None
  | Tm => Some (Sz 0 1 0 false false)
  | Al => Some (Sz 3 1 0 true false)
  | Pt i => if Nat.ltb i n then Some (Sz 0 1 0 false true) else None
  | Ad a b | Su a b => match an n a, an n b with Some x, Some y => sum_sz x y | _, _ => None end
  | Mu a b => match an n a, an n b with Some x, Some y => mul_sz x y | _, _ => None end
  end.

Definition wt (b : bool) (x : R) : R := if b then x else 1.
Definition has_size (A M : R) (s : sz) (f : f64) (x : R) : Prop :=
  sized (s_k s) (s_m s) (s_c s) (wt (s_a s) A * wt (s_v s) M) (wt (s_a s) (1 + A) * wt (s_v s) (1 + M)) f x.

Section Sound.
Variables (n : nat) (t al : f64) (P : nat -> f64) (A M : R).
Hypotheses (Ft : is_finite t = true) (Ht : 0 <= B2R t <= 1).
Hypotheses (HA : 0 <= A) (Fa : is_finite al = true) (Ha : Rabs (B2R al - A) <= (th 3 - 1) * A).
Hypotheses (HM : 0 <= M) (FP : forall i, (i < n)%nat -> is_finite (P i) = true /\ Rabs (B2R (P i)) <= M).
Hypothesis (HD : (1 + A) * (1 + M) <= 2 ^ 840).

Lemma wt_le a v : wt a (1 + A) * wt v (1 + M) <= 2 ^ 840.
Proof. destruct a, v; unfold wt; nra. Qed.
Lemma sized_const k m G D (f : f64) x : is_finite f = true -> Rabs (B2R f - x) <= (th k - 1) * (IZR m * G) -> Rabs x <= IZR m * G -> (0 <= m)%Z ->
  0 <= G <= D -> 1 <= D -> sized k m 0 G D f x.
Proof. intros. repeat split; try assumption; try tauto; [|lia]. rewrite Rmult_0_l. lra. Qed.
Lemma an_sound e : forall s, an n e = Some s -> has_size A M s (evF t al P e) (evR (B2R t) A (fun i => B2R (P i)) e).
Proof.
  assert (th0 : th 0 - 1 = 0) by (unfold th; cbn; ring).
  induction e as [z| | |i|a IHa b IHb|a IHa b IHb|a IHa b IHb]; intros s H; cbn [an evF evR] in *.
  - destruct (Z.leb_spec (Z.abs z) (2 ^ 50)) as [L|]; [|discriminate]. injection H as <-. unfold has_size; cbn [s_k s_m s_c s_a s_v wt].
    destruct (of_Z_val z) as [F V]; [lia|]. apply sized_const; [exact F| | |lia|lra|lra].
    + rewrite V, Rminus_diag_eq, Rabs_R0 by reflexivity. rewrite th0. lra.
    + rewrite <- abs_IZR. lra.
  - injection H as <-. unfold has_size; cbn [s_k s_m s_c s_a s_v wt]. apply sized_const; [exact Ft| | |lia|lra|lra].
    + rewrite Rminus_diag_eq, Rabs_R0 by reflexivity. rewrite th0. lra.
    + rewrite Rabs_pos_eq; lra.
  - injection H as <-. unfold has_size; cbn [s_k s_m s_c s_a s_v wt]. apply sized_const; [exact Fa| | |lia|lra|lra].
    + rewrite Rmult_1_l, Rmult_1_r. exact Ha.
    + rewrite Rabs_pos_eq; lra.
  - destruct (Nat.ltb_spec i n) as [L|]; [|discriminate]. injection H as <-. unfold has_size; cbn [s_k s_m s_c s_a s_v wt].
    destruct (FP i L) as [F V]. apply sized_const; [exact F| | |lia|lra|lra].
    + rewrite Rminus_diag_eq, Rabs_R0 by reflexivity. rewrite th0. lra.
    + lra.
  - destruct (an n a) as [x|]; [|discriminate]. destruct (an n b) as [y|]; [|discriminate].
    specialize (IHa x eq_refl). specialize (IHb y eq_refl). unfold sum_sz in H.
    destruct (Bool.eqb_spec (s_a x) (s_a y)) as [Ea|]; [|discriminate]. destruct (Bool.eqb_spec (s_v x) (s_v y)) as [Ev|]; [|discriminate].
    cbn [andb] in H. unfold chk in H. cbn [s_k s_m s_c] in H.
    destruct (Nat.leb_spec (S (Nat.max (s_k x) (s_k y))) 100) as [L1|]; [|discriminate].
    destruct (Z.leb_spec (s_m x + s_m y) (2 ^ 50)) as [L2|]; [|discriminate].
    destruct (Z.leb_spec (2 * (s_c x + s_c y)) (2 ^ 50)) as [L3|]; [|discriminate]. injection H as <-.
    unfold has_size in *; cbn [s_k s_m s_c s_a s_v]. rewrite <- Ea, <- Ev in IHb. apply sized_add; try assumption. apply wt_le.
  - destruct (an n a) as [x|]; [|discriminate]. destruct (an n b) as [y|]; [|discriminate].
    specialize (IHa x eq_refl). specialize (IHb y eq_refl). unfold sum_sz in H.
    destruct (Bool.eqb_spec (s_a x) (s_a y)) as [Ea|]; [|discriminate]. destruct (Bool.eqb_spec (s_v x) (s_v y)) as [Ev|]; [|discriminate].
    cbn [andb] in H. unfold chk in H. cbn [s_k s_m s_c] in H.
    destruct (Nat.leb_spec (S (Nat.max (s_k x) (s_k y))) 100) as [L1|]; [|discriminate].
    destruct (Z.leb_spec (s_m x + s_m y) (2 ^ 50)) as [L2|]; [|discriminate].
    destruct (Z.leb_spec (2 * (s_c x + s_c y)) (2 ^ 50)) as [L3|]; [|discriminate]. injection H as <-.
    unfold has_size in *; cbn [s_k s_m s_c s_a s_v]. rewrite <- Ea, <- Ev in IHb. apply sized_sub; try assumption. apply wt_le.
  - destruct (an n a) as [x|]; [|discriminate]. destruct (an n b) as [y|]; [|discriminate].
    specialize (IHa x eq_refl). specialize (IHb y eq_refl). unfold mul_sz in H.
    destruct ((s_a x && s_a y || s_v x && s_v y)%bool) eqn:Eb; [discriminate|]. unfold chk in H. cbn [s_k s_m s_c] in H.
    destruct (Nat.leb_spec (S (s_k x + s_k y)) 100) as [L1|]; [|discriminate].
    destruct (Z.leb_spec (s_m x * s_m y) (2 ^ 50)) as [L2|]; [|discriminate].
    destruct (Z.leb_spec (mul_c (s_m x) (s_c x) (s_m y) (s_c y)) (2 ^ 50)) as [L3|]; [|discriminate]. injection H as <-.
    unfold has_size in *; cbn [s_k s_m s_c s_a s_v].
    assert (Ew : forall p q, wt (s_a x || s_a y) p * wt (s_v x || s_v y) q = wt (s_a x) p * wt (s_v x) q * (wt (s_a y) p * wt (s_v y) q)).
    { intros p q. destruct (s_a x), (s_a y), (s_v x), (s_v y); try discriminate; cbn [orb wt]; ring. }
    rewrite !Ew. apply sized_mul; try assumption. rewrite <- Ew. apply wt_le.
Qed.
End Sound.
