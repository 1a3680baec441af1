(** A QP back end that solves every strictly convex problem: the least value of a
    strictly convex quadratic function on a non-empty polyhedron is attained. *)
From Coq Require Import List Lia Lra Psatz Classical_Prop.
From Verif Require Import Vec ModelData ModelSolver ModelTraj SpecWp SpecSolver SpecTraj.
Import ListNotations.
Open Scope R_scope.

Fixpoint ladd (a b : list R) : list R := match a, b with x :: a', y :: b' => (x + y) :: ladd a' b' | _, _ => [] end.
Definition lscal (k : R) (a : list R) : list R := map (Rmult k) a.
Definition lsub (a b : list R) : list R := ladd a (lscal (-1) b).
Lemma ladd_len a : forall b, length a = length b -> length (ladd a b) = length a.
Proof. induction a as [|x a IH]; intros [|y b] L; cbn in *; try discriminate; [reflexivity|]. rewrite IH; lia. Qed.
Lemma lscal_len k a : length (lscal k a) = length a. Proof. apply map_length. Qed.
Lemma lsub_len a b : length a = length b -> length (lsub a b) = length a.
Proof. intros L. unfold lsub. apply ladd_len. rewrite lscal_len. exact L. Qed.
Lemma rdot_add r : forall a b, length a = length b -> rdot r (ladd a b) = rdot r a + rdot r b.
Proof.
  induction r as [|z r IH]; intros [|x a] [|y b] L; cbn in *; try discriminate; try lra. rewrite IH by lia. ring.
Qed.
Lemma rdot_scal r k : forall a, rdot r (lscal k a) = k * rdot r a.
Proof. unfold lscal. induction r as [|z r IH]; intros [|x a]; cbn; try lra. rewrite IH. ring. Qed.
Lemma rdot_addl a : forall b r, length a = length b -> rdot (ladd a b) r = rdot a r + rdot b r.
Proof.
  induction a as [|x a IH]; intros [|y b] [|z r] L; cbn in *; try discriminate; try lra. rewrite IH by lia. ring.
Qed.
Lemma rdot_scall k : forall a r, rdot (lscal k a) r = k * rdot a r.
Proof. unfold lscal. induction a as [|z a IH]; intros [|x r]; cbn; try lra. rewrite IH. ring. Qed.
Lemma nth_add a : forall b i, length a = length b -> nth i (ladd a b) 0 = nth i a 0 + nth i b 0.
Proof. induction a as [|x a IH]; intros [|y b] [|i] L; cbn in *; try discriminate; try lra. apply IH. lia. Qed.
Lemma nth_scal k a : forall i, nth i (lscal k a) 0 = k * nth i a 0.
Proof. unfold lscal. induction a as [|x a IH]; intros [|i]; cbn; try lra. apply IH. Qed.
Lemma nth_sub a b i : length a = length b -> nth i (lsub a b) 0 = nth i a 0 - nth i b 0.
Proof. intros L. unfold lsub. rewrite nth_add by (rewrite lscal_len; exact L). rewrite nth_scal. ring. Qed.
Lemma norm_ge a : 0 <= rdot a a.
Proof. induction a as [|x a IH]; cbn; [lra|]. pose proof (Rle_0_sqr x) as P. unfold Rsqr in P. lra. Qed.
Lemma coord_le a : forall i, nth i a 0 * nth i a 0 <= rdot a a.
Proof.
  induction a as [|x a IH]; intros [|i]; cbn; try lra.
  - pose proof (norm_ge a). lra.
  - specialize (IH i). pose proof (Rle_0_sqr x) as P. unfold Rsqr in P. lra.
Qed.
Lemma norm_le K : forall a, (forall i, nth i a 0 * nth i a 0 <= K) -> rdot a a <= INR (length a) * K.
Proof.
  induction a as [|x a IH]; intros H; [cbn; lra|]. cbn [rdot length]. rewrite S_INR.
  pose proof (H 0%nat) as H0. cbn in H0. specialize (IH (fun i => H (S i))). lra.
Qed.

(** Symmetric bilinear and linear functions of lists of length [n]. *)
Definition linear (n : nat) (l : list R -> R) : Prop :=
  (forall u v, length u = n -> length v = n -> l (ladd u v) = l u + l v) /\ (forall k u, length u = n -> l (lscal k u) = k * l u).
Definition bilinear (n : nat) (B : list R -> list R -> R) : Prop :=
  (forall u v, length u = n -> length v = n -> B u v = B v u) /\ (forall u, length u = n -> linear n (B u)).
Definition unit1 (n : nat) : list R := 1 :: repeat 0 n.
Lemma split1 t u n : length u = n -> t :: u = ladd (lscal t (unit1 n)) (0 :: u).
Proof.
  intros <-. unfold unit1. cbn [lscal map ladd]. f_equal; [ring|]. induction u as [|x u IH]; [reflexivity|]. cbn. f_equal; [ring|]. exact IH.
Qed.
Lemma unit1_len n : length (unit1 n) = S n. Proof. unfold unit1. cbn. rewrite repeat_length. reflexivity. Qed.
Lemma tail_linear n l : linear (S n) l -> linear n (fun u => l (0 :: u)).
Proof.
  intros [A S]. split.
  - intros u v Hu Hv. replace (0 :: ladd u v) with (ladd (0 :: u) (0 :: v)) by (cbn; f_equal; ring). apply A; cbn; lia.
  - intros k u Hu. replace (0 :: lscal k u) with (lscal k (0 :: u)) by (cbn; f_equal; ring). apply S; cbn; lia.
Qed.
Lemma linear_bound n : forall l, linear n l -> exists b, 0 <= b /\ forall v, length v = n -> l v * l v <= b * rdot v v.
Proof.
  induction n as [|n IH]; intros l HL.
  - exists 0. split; [lra|]. intros [|x v] L; [|discriminate]. destruct HL as [_ S]. specialize (S 0 [] eq_refl). cbn in S. rewrite S. cbn. lra.
  - destruct (IH _ (tail_linear _ _ HL)) as (b & Hb & Hl). set (e := l (unit1 n)). exists (2 * (e * e) + 2 * b).
    pose proof (Rle_0_sqr e) as Pe. unfold Rsqr in Pe. split; [lra|]. intros [|t u] L; [discriminate|]. cbn in L.
    assert (E : l (t :: u) = t * e + l (0 :: u)).
    { rewrite (split1 t u n) by lia. destruct HL as [A S]. rewrite A by (rewrite ?lscal_len, ?unit1_len; cbn; lia). rewrite S by apply unit1_len. reflexivity. }
    rewrite E. specialize (Hl u ltac:(lia)). cbv beta in Hl. cbn [rdot]. set (p := l (0 :: u)) in *. pose proof (norm_ge u) as Pu.
    pose proof (Rle_0_sqr (t * e - p)) as P1. pose proof (Rle_0_sqr t) as Pt. unfold Rsqr in *.
    assert (0 <= b * (t * t)) by (apply Rmult_le_pos; lra). assert (0 <= e * e * rdot u u) by (apply Rmult_le_pos; lra). nra.
Qed.
Lemma coercive n : forall B, bilinear n B -> (forall v, length v = n -> v <> repeat 0 n -> 0 < B v v) ->
  exists lam, 0 < lam /\ forall v, length v = n -> lam * rdot v v <= B v v.
Proof.
  induction n as [|n IH]; intros B HB HP.
  - exists 1. split; [lra|]. intros [|x v] L; [|discriminate]. destruct HB as [_ HL]. destruct (HL [] eq_refl) as [_ S]. specialize (S 0 [] eq_refl). cbn in S. rewrite S. cbn. lra.
  - set (e := unit1 n). assert (Le : length e = S n) by apply unit1_len. set (c := B e e).
    assert (Hc : 0 < c) by (apply HP; [exact Le|unfold e, unit1; cbn; intros F; injection F; lra]).
    destruct HB as [Sy HL].
    assert (EX : forall t u w s, length u = n -> length w = n -> B (t :: u) (s :: w) = t * s * c + s * B e (0 :: u) + t * B e (0 :: w) + B (0 :: u) (0 :: w)).
    { intros t u w s Hu Hw. rewrite (split1 t u n Hu), (split1 s w n Hw). fold e.
      assert (L1 : length (ladd (lscal t e) (0 :: u)) = S n) by (rewrite ladd_len; rewrite lscal_len, Le; cbn; lia).
      assert (L0 : forall x, length x = n -> length (0 :: x) = S n) by (intros; cbn; lia).
      assert (L2 : forall k, length (lscal k e) = S n) by (intros; rewrite lscal_len; exact Le).
      destruct (HL _ L1) as [A1 S1]. rewrite A1 by auto. rewrite S1 by exact Le.
      rewrite (Sy _ e L1 Le), (Sy _ (0 :: w) L1 (L0 w Hw)). destruct (HL e Le) as [A2 S2]. destruct (HL _ (L0 w Hw)) as [A3 S3].
      rewrite A2, A3 by auto. rewrite S2, S3 by exact Le. rewrite (Sy (0 :: w) e) by auto. rewrite (Sy (0 :: w) (0 :: u)) by auto. fold c. ring. }
    set (be := fun u => B e (0 :: u)). pose proof (tail_linear n (B e) (HL e Le)) as HE. change (linear n be) in HE.
    set (B' := fun u w => B (0 :: u) (0 :: w) - be u * be w / c).
    assert (HB' : bilinear n B').
    { split.
      - intros u v Hu Hv. unfold B'. rewrite (Sy (0 :: u)) by (cbn; lia). unfold Rdiv. ring.
      - intros u Hu. assert (L0 : length (0 :: u) = S n) by (cbn; lia). destruct (tail_linear n _ (HL _ L0)) as [A S]. destruct HE as [AE SE]. split.
        + intros v w Hv Hw. unfold B'. cbv beta in A. rewrite A, AE by assumption. unfold Rdiv. ring.
        + intros k v Hv. unfold B'. cbv beta in S. rewrite S, SE by assumption. unfold Rdiv. ring. }
    assert (EB : forall t u, length u = n -> B (t :: u) (t :: u) = c * ((t + be u / c) * (t + be u / c)) + B' u u).
    { intros t u Hu. rewrite (EX t u u t Hu Hu). unfold B'. fold (be u). field. lra. }
    assert (HP' : forall v, length v = n -> v <> repeat 0 n -> 0 < B' v v).
    { intros v Hv Hn. specialize (HP ((- (be v / c)) :: v)). rewrite EB in HP by exact Hv. 
      replace (c * ((- (be v / c) + be v / c) * (- (be v / c) + be v / c)) + B' v v) with (B' v v) in HP by ring. apply HP; [cbn; lia|].
      intros F. apply Hn. cbn in F. injection F. auto. }
    destruct (IH B' HB' HP') as (lam & Hl & HQ). destruct (linear_bound n be HE) as (b & Hb & Hbe).
    set (D := 1 + 2 * (b / (c * c))). assert (Hcc : 0 < c * c) by nra. assert (Hbc : 0 <= b / (c * c)) by (apply Rmult_le_pos; [exact Hb|left; apply Rinv_0_lt_compat; exact Hcc]).
    assert (HD : 0 < D) by (unfold D; lra). set (mu := Rmin (c / 2) (lam / D)).
    assert (M1 : mu <= c / 2) by apply Rmin_l. assert (M2 : mu <= lam / D) by apply Rmin_r.
    assert (M0 : 0 < mu) by (apply Rmin_glb_lt; [lra|apply Rmult_lt_0_compat; [exact Hl|apply Rinv_0_lt_compat; exact HD]]).
    exists mu. split; [exact M0|]. intros [|t u] L; [discriminate|]. cbn in L. assert (Hu : length u = n) by lia.
    rewrite EB by exact Hu. cbn [rdot]. specialize (HQ u Hu). specialize (Hbe u Hu). pose proof (norm_ge u) as Pu.
    set (s := t + be u / c) in *. set (N := rdot u u) in *. set (q := be u / c) in *.
    assert (Q2 : q * q <= b / (c * c) * N).
    { unfold q. replace (be u / c * (be u / c)) with (be u * be u * / (c * c)) by (field; lra). replace (b / (c * c) * N) with (b * N * / (c * c)) by (unfold Rdiv; ring).
      apply Rmult_le_compat_r; [left; apply Rinv_0_lt_compat; exact Hcc|exact Hbe]. }
    assert (T2 : t * t <= 2 * (s * s) + 2 * (q * q)). { replace t with (s - q) by (unfold s; ring). pose proof (Rle_0_sqr (s + q)) as P. unfold Rsqr in P. nra. }
    assert (MD : mu * D <= lam). { replace lam with (lam / D * D) by (field; lra). apply Rmult_le_compat_r; lra. }
    assert (0 <= s * s) by apply Rle_0_sqr.
    assert (X1 : t * t + N <= 2 * (s * s) + D * N) by (unfold D; nra).
    apply Rle_trans with (mu * (2 * (s * s) + D * N)); [apply Rmult_le_compat_l; lra|].
    assert (mu * (2 * (s * s)) <= c * (s * s)) by (apply Rle_trans with (c / 2 * (2 * (s * s))); [apply Rmult_le_compat_r; lra|lra]).
    assert (mu * D * N <= lam * N) by (apply Rmult_le_compat_r; lra). lra.
Qed.

Section Minimum.
  Variable n : nat.
  Variable B : list R -> list R -> R.
  Variable l : list R -> R.
  Variable X : list R -> Prop.
  Hypothesis HB : bilinear n B.
  Hypothesis HP : forall v, length v = n -> v <> repeat 0 n -> 0 < B v v.
  Hypothesis HL : linear n l.
  Hypothesis XL : forall x, X x -> length x = n.
  Hypothesis Xmid : forall x y, X x -> X y -> X (lscal (1 / 2) (ladd x y)).
  Hypothesis Xcl : forall c, length c = n -> (forall eta, 0 < eta -> exists x, X x /\ rdot (lsub x c) (lsub x c) <= eta) -> X c.
  Hypothesis Xne : exists x, X x.
  Let f (x : list R) : R := 1 / 2 * B x x + l x.

  Lemma below : exists K, forall x, X x -> K <= f x.
  Proof.
    destruct (coercive n B HB HP) as (lam & Hl & HC). destruct (linear_bound n l HL) as (b & Hb & Hv).
    exists (- (b / (2 * lam))). intros x Hx. specialize (HC x (XL x Hx)). specialize (Hv x (XL x Hx)). pose proof (norm_ge x) as Pn. set (N := rdot x x) in *. set (a := l x) in *.
    assert (P : - a <= 1 / 2 * (lam * N + b / lam)).
    { destruct (Rle_lt_dec (- a) (1 / 2 * (lam * N + b / lam))) as [G|G]; [exact G|exfalso].
      assert (HbN : 0 <= b / lam) by (apply Rmult_le_pos; [exact Hb|left; apply Rinv_0_lt_compat; exact Hl]). assert (HlN : 0 <= lam * N) by (apply Rmult_le_pos; lra).
      assert (E : lam * N * (b / lam) = b * N) by (field; lra). set (p := lam * N) in *. set (q := b / lam) in *.
      pose proof (Rle_0_sqr (p - q)) as S1. unfold Rsqr in S1. assert ((1 / 2 * (p + q)) * (1 / 2 * (p + q)) < (- a) * (- a)) by (apply Rmult_le_0_lt_compat; lra). nra. }
    replace (b / (2 * lam)) with (1 / 2 * (b / lam)) by (field; lra). unfold f. fold a. lra.
  Qed.
  Let Ev : R -> Prop := fun r => exists x, X x /\ r = - f x.
  Lemma Ev_bound : Raxioms.bound Ev.
  Proof. destruct below as (K & HK). exists (- K). intros r (x & Hx & ->). specialize (HK x Hx). lra. Qed.
  Lemma Ev_ne : exists r, Ev r. Proof. destruct Xne as (x & Hx). exists (- f x). exists x. split; [exact Hx|reflexivity]. Qed.
  Definition least : R := - proj1_sig (completeness Ev Ev_bound Ev_ne).
  Lemma least_le x : X x -> least <= f x.
  Proof. intros Hx. unfold least. destruct (completeness _ _ _) as (m & H1 & H2). cbn. specialize (H1 (- f x) (ex_intro _ x (conj Hx eq_refl))). lra. Qed.
  Lemma least_near eps : 0 < eps -> exists x, X x /\ f x <= least + eps.
  Proof.
    intros He. unfold least. destruct (completeness _ _ _) as (m & H1 & H2). cbn. destruct (classic (exists x, X x /\ f x <= - m + eps)) as [G|G]; [exact G|exfalso].
    assert (U : is_upper_bound Ev (m - eps)).
    { intros r (x & Hx & ->). destruct (Rle_lt_dec (f x) (- m + eps)) as [F|F]; [exfalso; apply G; exists x; split; assumption|lra]. }
    specialize (H2 _ U). lra.
  Qed.
  Lemma near_close : exists K, 0 < K /\ forall eps x y, X x -> X y -> f x <= least + eps -> f y <= least + eps -> forall i, (nth i x 0 - nth i y 0) * (nth i x 0 - nth i y 0) <= K * eps.
  Proof.
    destruct (coercive n B HB HP) as (lam & Hl & HC). exists (8 / lam). split; [apply Rmult_lt_0_compat; [lra|apply Rinv_0_lt_compat; exact Hl]|].
    intros eps x y Hx Hy Fx Fy i. assert (Lx := XL x Hx). assert (Ly := XL y Hy). assert (Lxy : length x = length y) by congruence.
    assert (Ld : length (lsub x y) = n) by (rewrite lsub_len; assumption). rewrite <- nth_sub by exact Lxy.
    pose proof (coord_le (lsub x y) i) as C1. specialize (HC (lsub x y) Ld). pose proof (least_le _ (Xmid x y Hx Hy)) as Fm.
    assert (LS : forall k, length (lscal k y) = n) by (intros; rewrite lscal_len; exact Ly).
    assert (La : length (ladd x y) = n) by (rewrite ladd_len; congruence).
    assert (E1 : B (lsub x y) (lsub x y) = B x x - 2 * B x y + B y y).
    { destruct HB as [Sy BL]. destruct (BL _ Ld) as [A S]. unfold lsub at 2. rewrite A, S by auto. rewrite (Sy _ x), (Sy _ y) by auto.
      destruct (BL x Lx) as [Ax Sx]. destruct (BL y Ly) as [Ay Sy']. unfold lsub. rewrite Ax, Ay, Sx, Sy' by auto. rewrite (Sy y x) by auto. ring. }
    assert (E2 : f (lscal (1 / 2) (ladd x y)) = 1 / 2 * f x + 1 / 2 * f y - 1 / 8 * B (lsub x y) (lsub x y)).
    { rewrite E1. unfold f. destruct HB as [Sy BL]. destruct HL as [AL SL]. rewrite SL, AL by auto. assert (Lh : length (lscal (1 / 2) (ladd x y)) = n) by (rewrite lscal_len; exact La).
      destruct (BL _ Lh) as [_ Sh]. rewrite Sh by exact La. rewrite (Sy _ (ladd x y)) by auto. destruct (BL _ La) as [Aa Sa]. rewrite Sa by exact La. rewrite Aa by auto.
      rewrite (Sy _ x), (Sy _ y) by auto. destruct (BL x Lx) as [Ax _]. destruct (BL y Ly) as [Ay _]. rewrite Ax, Ay by auto. rewrite (Sy y x) by auto. field. }
    rewrite E2 in Fm. replace (8 / lam * eps) with (8 * eps / lam) by (unfold Rdiv; ring). set (w := nth i (lsub x y) 0 * nth i (lsub x y) 0) in *.
    apply Rmult_le_reg_l with lam; [exact Hl|]. replace (lam * (8 * eps / lam)) with (8 * eps) by (field; lra).
    apply Rle_trans with (lam * rdot (lsub x y) (lsub x y)); [apply Rmult_le_compat_l; lra|lra].
  Qed.
  Let Ec (i : nat) : R -> Prop := fun r => exists eps, 0 < eps /\ forall x, X x -> f x <= least + eps -> r <= nth i x 0.
  Lemma sq_close a b K : 0 <= K -> (a - b) * (a - b) <= K -> b - (1 + K) <= a <= b + (1 + K).
  Proof.
    intros HK H. destruct (Rle_lt_dec (b - (1 + K)) a) as [G|G]; [split; [exact G|]|exfalso; assert ((1 + K) * (1 + K) <= (b - a) * (b - a)) by (apply Rmult_le_compat; lra); nra].
    destruct (Rle_lt_dec a (b + (1 + K))) as [G'|G']; [exact G'|exfalso]. assert ((1 + K) * (1 + K) <= (a - b) * (a - b)) by (apply Rmult_le_compat; lra). nra.
  Qed.
  Lemma Ec_bound i : Raxioms.bound (Ec i).
  Proof.
    destruct near_close as (K & HK & HC). destruct (least_near 1 Rlt_0_1) as (y & Hy & Fy). exists (nth i y 0 + (1 + K)). intros r (eps & He & Hr).
    destruct (least_near (Rmin eps 1)) as (x & Hx & Fx); [apply Rmin_glb_lt; lra|]. pose proof (Rmin_l eps 1). pose proof (Rmin_r eps 1).
    specialize (Hr x Hx ltac:(lra)). specialize (HC 1 x y Hx Hy ltac:(lra) Fy i). rewrite Rmult_1_r in HC. apply sq_close in HC; lra.
  Qed.
  Lemma Ec_ne i : exists r, Ec i r.
  Proof.
    destruct near_close as (K & HK & HC). destruct (least_near 1 Rlt_0_1) as (y & Hy & Fy). exists (nth i y 0 - (1 + K)), 1. split; [lra|].
    intros x Hx Fx. specialize (HC 1 x y Hx Hy Fx Fy i). rewrite Rmult_1_r in HC. apply sq_close in HC; lra.
  Qed.
  Definition coord (i : nat) : R := proj1_sig (completeness (Ec i) (Ec_bound i) (Ec_ne i)).
  Definition point : list R := map coord (seq 0 n).
  Lemma point_len : length point = n. Proof. unfold point. rewrite map_length, seq_length. reflexivity. Qed.
  Lemma near_point : exists K, 0 < K /\ forall eps x, 0 < eps -> X x -> f x <= least + eps -> forall i, (nth i x 0 - coord i) * (nth i x 0 - coord i) <= K * eps.
  Proof.
    destruct near_close as (K & HK & HC). exists K. split; [exact HK|]. intros eps x He Hx Fx i. unfold coord. destruct (completeness _ _ _) as (c & H1 & H2). cbn.
    assert (HS : 0 <= K * eps) by (apply Rmult_le_pos; lra). set (s := sqrt (K * eps)). assert (Es : s * s = K * eps) by (apply sqrt_sqrt; exact HS). pose proof (sqrt_pos (K * eps)) as Ps. fold s in Ps.
    assert (AB : forall a, a * a <= K * eps -> - s <= a <= s). { intros a Ha. rewrite <- Es in Ha. split; nra. }
    assert (L1 : nth i x 0 - s <= c).
    { apply H1. exists eps. split; [exact He|]. intros y Hy Fy. destruct (AB _ (HC eps x y Hx Hy Fx Fy i)). lra. }
    assert (L2 : c <= nth i x 0 + s).
    { apply H2. intros r (eps' & He' & Hr). destruct (least_near (Rmin eps eps')) as (y & Hy & Fy); [apply Rmin_glb_lt; lra|]. pose proof (Rmin_l eps eps'). pose proof (Rmin_r eps eps').
      specialize (Hr y Hy ltac:(lra)). destruct (AB _ (HC eps x y Hx Hy Fx ltac:(lra) i)). lra. }
    rewrite <- Es. nra.
  Qed.
  Lemma near_norm : exists K, 0 < K /\ forall eps x, 0 < eps -> X x -> f x <= least + eps -> rdot (lsub x point) (lsub x point) <= K * eps.
  Proof.
    destruct near_point as (K & HK & HC). exists ((INR n + 1) * K). pose proof (pos_INR n). split; [apply Rmult_lt_0_compat; lra|].
    intros eps x He Hx Fx. assert (Lx : length x = length point) by (rewrite point_len; auto).
    assert (HS : 0 <= K * eps) by (apply Rmult_le_pos; lra).
    apply Rle_trans with (INR (length (lsub x point)) * (K * eps)).
    - apply norm_le. intros i. rewrite nth_sub by exact Lx. destruct (Nat.lt_ge_cases i n) as [Hi|Hi].
      + replace (nth i point 0) with (coord i); [apply HC; assumption|]. unfold point. rewrite (nth_indep _ 0 (coord 0)) by (rewrite map_length, seq_length; exact Hi).
        rewrite map_nth, seq_nth by exact Hi. reflexivity.
      + rewrite !nth_overflow by (rewrite ?Lx, ?point_len; exact Hi). lra.
    - rewrite lsub_len, Lx, point_len by exact Lx. nra.
  Qed.
  Lemma point_in : X point.
  Proof.
    destruct near_norm as (K & HK & HC). apply Xcl; [apply point_len|]. intros eta He. destruct (least_near (eta / K)) as (x & Hx & Fx); [apply Rmult_lt_0_compat; [exact He|apply Rinv_0_lt_compat; exact HK]|].
    exists x. split; [exact Hx|]. apply Rle_trans with (K * (eta / K)); [apply HC; [apply Rmult_lt_0_compat; [exact He|apply Rinv_0_lt_compat; exact HK]|exact Hx|exact Fx]|right; field; lra].
  Qed.
  Lemma point_value : f point <= least.
  Proof.
    destruct near_norm as (K & HK & HC). set (c := point) in *. assert (Lc : length c = n) by apply point_len. destruct HB as [Sy BL]. destruct HL as [AL SL].
    set (L := fun d => B c d + l d).
    assert (HLin : linear n L). { destruct (BL c Lc) as [A S]. split; [intros u v Hu Hv|intros k u Hu]; unfold L; [rewrite A, AL by assumption; ring|rewrite S, SL by assumption; ring]. }
    destruct (linear_bound n L HLin) as (b & Hb & HBd).
    destruct (Rle_lt_dec (f c) least) as [G|G]; [exact G|exfalso]. set (g := f c - least). assert (Hg : 0 < g) by (unfold g; lra).
    assert (HD : 0 < 4 * b * K + 1) by (assert (0 <= b * K) by (apply Rmult_le_pos; lra); lra).
    set (e := Rmin (g / 2) (g * g / (4 * b * K + 1))).
    assert (He : 0 < e) by (apply Rmin_glb_lt; [lra|apply Rmult_lt_0_compat; [nra|apply Rinv_0_lt_compat; exact HD]]).
    destruct (least_near e He) as (x & Hx & Fx). assert (Lx := XL x Hx). assert (Ld : length (lsub x c) = n) by (rewrite lsub_len; congruence).
    pose proof (HC e x He Hx Fx) as HN. pose proof (HBd _ Ld) as HV. set (d := lsub x c) in *.
    assert (E : f x = f c + L d + 1 / 2 * B d d).
    { assert (Ex : x = ladd c d).
      { unfold d, lsub. clear -Lx Lc. assert (Lxc : length x = length c) by congruence. clear Lx Lc. revert Lxc. generalize c. clear. induction x as [|a x IH]; intros [|b c] L; try discriminate; [reflexivity|].
        cbn in *. f_equal; [ring|]. apply IH. lia. }
      rewrite Ex at 1. unfold f. rewrite AL by assumption. assert (Lcd : length (ladd c d) = n) by (rewrite ladd_len; congruence).
      destruct (BL _ Lcd) as [A _]. rewrite A by assumption. rewrite (Sy _ c), (Sy _ d) by assumption. destruct (BL c Lc) as [Ac _]. destruct (BL d Ld) as [Ad _]. rewrite Ac, Ad by assumption. rewrite (Sy d c) by assumption. unfold L. field. }
    assert (Bd : 0 <= B d d). { destruct (coercive n B (conj Sy BL) HP) as (lam & Hl & HQ). specialize (HQ d Ld). pose proof (norm_ge d). assert (0 <= lam * rdot d d) by (apply Rmult_le_pos; lra). lra. }
    assert (L1 : g - e <= - L d) by (unfold g; lra). pose proof (Rmin_l (g / 2) (g * g / (4 * b * K + 1))) as R1. pose proof (Rmin_r (g / 2) (g * g / (4 * b * K + 1))) as R2. fold e in R1, R2.
    assert (L2 : g / 2 <= - L d) by lra. assert (L3 : g * g / 4 <= L d * L d) by nra.
    assert (L4 : L d * L d <= b * (K * e)) by (apply Rle_trans with (1 := HV); apply Rmult_le_compat_l; assumption).
    assert (L5 : (4 * b * K + 1) * e <= g * g). { apply Rle_trans with ((4 * b * K + 1) * (g * g / (4 * b * K + 1))); [apply Rmult_le_compat_l; lra|right; field; lra]. }
    lra.
  Qed.
  Lemma point_least x : X x -> f point <= f x.
  Proof. intros Hx. pose proof point_value. pose proof (least_le x Hx). lra. Qed.
End Minimum.

(** ** The back end *)
Definition bil (H : list (list R)) (u v : list R) : R := rdot (map (fun r => rdot r u) H) v.
Lemma bil_addl H u v w : length u = length v -> bil H (ladd u v) w = bil H u w + bil H v w.
Proof.
  intros L. unfold bil. rewrite <- rdot_addl by (rewrite !map_length; reflexivity). f_equal. induction H as [|r H IH]; [reflexivity|]. cbn. rewrite rdot_add by exact L. f_equal. exact IH.
Qed.
Lemma bil_scall H k u w : bil H (lscal k u) w = k * bil H u w.
Proof.
  unfold bil. rewrite <- rdot_scall. f_equal. unfold lscal at 2. rewrite map_map. apply map_ext. intros r. apply rdot_scal.
Qed.
Definition sym (H : list (list R)) (u v : list R) : R := 1 / 2 * (bil H u v + bil H v u).
Lemma sym_bilinear n H : bilinear n (sym H).
Proof.
  split; [intros; unfold sym; ring|]. intros u Hu. split.
  - intros v w Hv Hw. unfold sym. rewrite bil_addl by congruence. unfold bil at 1. rewrite rdot_add by congruence. fold (bil H u v) (bil H u w). ring.
  - intros k v Hv. unfold sym. rewrite bil_scall. unfold bil at 1. rewrite rdot_scal. fold (bil H u v). ring.
Qed.
Lemma sym_quad H v : sym H v v = quad H v. Proof. unfold sym, quad, bil. field. Qed.
Lemma rdot_linear n r : linear n (rdot r).
Proof. split; [intros; apply rdot_add; congruence|intros; apply rdot_scal]. Qed.

Definition row_ge (x : list R) (r : list R) (c : R) : Prop := 0 <= rdot r x + c.
Lemma row_closed n r k c : length c = n ->
  (forall eta, 0 < eta -> exists x, (length x = n /\ row_ge x r k) /\ rdot (lsub x c) (lsub x c) <= eta) -> row_ge c r k.
Proof.
  intros Lc H. unfold row_ge in *. destruct (Rle_lt_dec 0 (rdot r c + k)) as [G|G]; [exact G|exfalso].
  destruct (linear_bound n (rdot r) (rdot_linear n r)) as (b & Hb & HV). set (g := - (rdot r c + k)). assert (Hg : 0 < g) by (unfold g; lra).
  assert (He : 0 < g * g / (2 * (b + 1))) by (apply Rmult_lt_0_compat; [nra|apply Rinv_0_lt_compat; lra]).
  destruct (H _ He) as (x & (Lx & Hx) & HN). assert (Ld : length (lsub x c) = n) by (rewrite lsub_len; congruence). specialize (HV _ Ld).
  assert (E : rdot r (lsub x c) = rdot r x - rdot r c). { unfold lsub. rewrite rdot_add, rdot_scal by (rewrite lscal_len; congruence). ring. }
  rewrite E in HV. assert (G1 : g <= rdot r x - rdot r c) by (unfold g; lra). assert (G2 : g * g <= (rdot r x - rdot r c) * (rdot r x - rdot r c)) by (apply Rmult_le_compat; lra).
  assert (G3 : b * rdot (lsub x c) (lsub x c) <= b * (g * g / (2 * (b + 1)))) by (apply Rmult_le_compat_l; assumption).
  assert (G4 : b * (g * g / (2 * (b + 1))) <= g * g / 2).
  { replace (g * g / 2) with ((b + 1) * (g * g / (2 * (b + 1)))) by (field; lra). apply Rmult_le_compat_r; lra. }
  nra.
Qed.
Lemma rows_closed n c : length c = n -> forall A b, 
  (forall eta, 0 < eta -> exists x, (length x = n /\ Forall2 (row_ge x) A b) /\ rdot (lsub x c) (lsub x c) <= eta) -> Forall2 (row_ge c) A b.
Proof.
  intros Lc. induction A as [|r A IH]; intros b H.
  - destruct (H 1 Rlt_0_1) as (x & (_ & F) & _). inversion F. constructor.
  - destruct (H 1 Rlt_0_1) as (x & (_ & F) & _). inversion F as [|? k ? b' _ _]; subst. constructor.
    + eapply row_closed; [reflexivity|]. intros eta He. destruct (H eta He) as (y & (Ly & Fy) & HN). inversion Fy; subst. exists y. auto.
    + apply IH. intros eta He. destruct (H eta He) as (y & (Ly & Fy) & HN). inversion Fy; subst. exists y. auto.
Qed.
Lemma eq_two x A b : Forall2 (fun r c => rdot r x + c = 0) A b <-> Forall2 (row_ge x) A b /\ Forall2 (row_ge x) (map (lscal (-1)) A) (map Ropp b).
Proof.
  revert b. induction A as [|r A IH]; intros b; split.
  - intros F. inversion F. split; constructor.
  - intros [F _]. inversion F. constructor.
  - intros F. inversion F as [|? k ? b' E F']; subst. apply IH in F'. destruct F' as [F1 F2]. split; constructor; unfold row_ge; try assumption; [lra|]. rewrite rdot_scall. lra.
  - intros [F1 F2]. inversion F1 as [|? k ? b' E F']; subst. cbn in F2. inversion F2 as [|? ? ? ? E2 F2']; subst. unfold row_ge in E, E2. rewrite rdot_scall in E2. constructor; [lra|]. apply IH. split; assumption.
Qed.
Lemma rows_mid n x y A b : length x = n -> length y = n -> Forall2 (row_ge x) A b -> Forall2 (row_ge y) A b -> Forall2 (row_ge (lscal (1 / 2) (ladd x y))) A b.
Proof.
  intros Lx Ly F. induction F as [|r k A b E F IH]; intros G; [constructor|]. inversion G; subst. constructor; [|apply IH; assumption].
  unfold row_ge in *. rewrite rdot_scal, rdot_add by congruence. lra.
Qed.
Definition feas (q : qp) (n : nat) (x : list R) : Prop := length x = n /\ qp_feasible q x.
Lemma feas_len q n x : feas q n x -> length x = n. Proof. intros [H _]. exact H. Qed.
Lemma feas_mid q n x y : feas q n x -> feas q n y -> feas q n (lscal (1 / 2) (ladd x y)).
Proof.
  intros (Lx & E1 & I1) (Ly & E2 & I2). split; [rewrite lscal_len, ladd_len; congruence|]. apply eq_two in E1, E2. split.
  - apply eq_two. split; apply (rows_mid n); tauto.
  - change (Forall2 (row_ge (lscal (1 / 2) (ladd x y))) (qp_CI q) (qp_ci0 q)). apply (rows_mid n); assumption.
Qed.
Lemma feas_closed q n c : length c = n -> (forall eta, 0 < eta -> exists x, feas q n x /\ rdot (lsub x c) (lsub x c) <= eta) -> feas q n c.
Proof.
  intros Lc H. split; [exact Lc|]. split.
  - apply eq_two. split; apply (rows_closed n c Lc); intros eta He; destruct (H eta He) as (x & (Lx & E & I) & HN); apply eq_two in E; exists x; tauto.
  - change (Forall2 (row_ge c) (qp_CI q) (qp_ci0 q)). apply (rows_closed n c Lc). intros eta He. destruct (H eta He) as (x & (Lx & E & I) & HN). exists x. split; [split; [exact Lx|exact I]|exact HN].
Qed.

Definition solvable (q : qp) (n : nat) : Prop := qp_convex q n /\ exists x, feas q n x.
Lemma sym_convex q n : qp_convex q n -> forall v, length v = n -> v <> repeat 0 n -> 0 < sym (qp_H q) v v.
Proof. intros H v Lv Nv. rewrite sym_quad. apply H; assumption. Qed.
Definition minimiser (q : qp) (n : nat) (h : solvable q n) : list R :=
  point n (sym (qp_H q)) (rdot (qp_g q)) (feas q n) (sym_bilinear n (qp_H q)) (sym_convex q n (proj1 h)) (rdot_linear n (qp_g q))
    (feas_len q n) (feas_mid q n) (proj2 h).
Lemma minimiser_in q n h : feas q n (minimiser q n h).
Proof. apply (point_in n (sym (qp_H q)) (rdot (qp_g q)) (feas q n)). apply feas_closed. Qed.
Lemma minimiser_least q n h y : feas q n y -> qp_value q (minimiser q n h) <= qp_value q y.
Proof.
  intros Hy. unfold qp_value. rewrite <- !sym_quad.
  apply (point_least n (sym (qp_H q)) (rdot (qp_g q)) (feas q n)); exact Hy.
Qed.
Definition exact_solver (q : qp) (init : list R) : outcome (Z * list R * R) :=
  match ClassicalDedekindReals.sig_not_dec (solvable q (length init)) with
  | left h => let x := minimiser q (length init) (NNPP _ h) in Ok (EIQUADPROG_FAST_OPTIMAL, x, qp_value q x)
  | right _ => Ok (2%Z, [], 0)
  end.
Lemma exact_sound : qp_sound exact_solver.
Proof.
  intros q init x obj E. unfold exact_solver in E. destruct (ClassicalDedekindReals.sig_not_dec _) as [h|h]; [|discriminate].
  pose proof (minimiser_in q (length init) (NNPP _ h)) as [L F]. injection E as <- <-. split; assumption.
Qed.
Lemma exact_solves : qp_solves exact_solver.
Proof.
  intros q init HC (y & Ly & Fy). unfold exact_solver. destruct (ClassicalDedekindReals.sig_not_dec _) as [h|h].
  - pose proof (minimiser_in q (length init) (NNPP _ h)) as [L F]. eexists. split; [reflexivity|]. split; [exact L|]. split; [exact F|].
    intros z Lz Fz. apply minimiser_least. split; assumption.
  - exfalso. apply h. split; [exact HC|]. exists y. split; assumption.
Qed.
