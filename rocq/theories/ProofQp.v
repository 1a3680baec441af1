(** QP solver: sums, rotations, adding and deleting a constraint. *)
From Coq Require Import Lia Lra Psatz.
From Verif Require Import Vec SpecBezier ModelData ModelSolver ModelQp ProofBezier.
Open Scope R_scope.

(** * Sums *)
Lemma sumf_swap n m (f : nat -> nat -> R) :
  sumf n (fun i => sumf m (fun j => f i j)) = sumf m (fun j => sumf n (fun i => f i j)).
Proof.
  induction n as [|n IH]; cbn [sumf].
  - symmetry. apply sumf_zero. reflexivity.
  - rewrite IH, <- sumf_plus. reflexivity.
Qed.
Lemma sumf_split a b f : sumf (a + b) f = sumf a f + sumf b (fun i => f (a + i)%nat).
Proof. induction b as [|b IH]; [rewrite Nat.add_0_r; cbn; ring|]. rewrite Nat.add_succ_r. cbn [sumf]. rewrite IH. ring. Qed.
Lemma sumf_scal_r n k f : sumf n (fun i => f i * k) = sumf n f * k.
Proof. rewrite Rmult_comm, <- sumf_scal. apply sumf_ext. intros; ring. Qed.
Lemma sumf_minus n f g : sumf n (fun i => f i - g i) = sumf n f - sumf n g.
Proof. induction n as [|n IH]; cbn [sumf]; [ring|rewrite IH; ring]. Qed.
Lemma sumf_opp n f : sumf n (fun i => - f i) = - sumf n f.
Proof. induction n as [|n IH]; cbn [sumf]; [ring|rewrite IH; ring]. Qed.
Lemma sumf_one n f i : (i < n)%nat -> (forall j, (j < n)%nat -> j <> i -> f j = 0) -> sumf n f = f i.
Proof.
  induction n as [|n IH]; intros Hi H; [lia|]. cbn [sumf]. destruct (Nat.eq_dec i n) as [->|].
  - rewrite sumf_zero; [ring|]. intros j Hj. apply H; lia.
  - rewrite IH, (H n); [ring|lia|lia|lia|]. intros j Hj Hne. apply H; lia.
Qed.
(** two sums that differ at two places *)
Lemma sumf_two n f g a b : (a < n)%nat -> (b < n)%nat -> a <> b ->
  (forall i, (i < n)%nat -> i <> a -> i <> b -> f i = g i) -> f a + f b = g a + g b -> sumf n f = sumf n g.
Proof.
  intros Ha Hb Hab H E.
  assert (Z : sumf n (fun i => f i - g i) = 0); [|rewrite sumf_minus in Z; lra].
  assert (P : forall k, (k <= n)%nat -> sumf k (fun i => f i - g i) =
    (if (a <? k)%nat then f a - g a else 0) + (if (b <? k)%nat then f b - g b else 0)).
  { induction k as [|k IH]; intros Hk; cbn [sumf]; [destruct (Nat.ltb_spec a 0), (Nat.ltb_spec b 0); try lia; ring|].
    rewrite IH by lia.
    destruct (Nat.ltb_spec a k), (Nat.ltb_spec b k), (Nat.ltb_spec a (S k)), (Nat.ltb_spec b (S k)); try lia;
    try (assert (k = a) by lia; subst k); try (assert (k = b) by lia; subst k); try lia; try ring;
    rewrite (H k) by lia; ring. }
  rewrite P by lia. destruct (Nat.ltb_spec a n), (Nat.ltb_spec b n); try lia. lra.
Qed.
Lemma sumf_sq_nonneg n (f : nat -> R) : 0 <= sumf n (fun i => f i * f i).
Proof. induction n as [|n IH]; cbn [sumf]; [lra|]. pose proof (Rle_0_sqr (f n)). unfold Rsqr in *. lra. Qed.
Lemma sumf_sq_zero n (f : nat -> R) : sumf n (fun i => f i * f i) = 0 -> forall i, (i < n)%nat -> f i = 0.
Proof.
  induction n as [|n IH]; cbn [sumf]; intros E i Hi; [lia|]. pose proof (sumf_sq_nonneg n f). pose proof (Rle_0_sqr (f n)). unfold Rsqr in *.
  destruct (Nat.eq_dec i n) as [->|]; [|apply IH; [lra|lia]].
  assert (f n * f n = 0) as Z by lra. apply Rmult_integral in Z. tauto.
Qed.
Lemma sumf_nonneg n f : (forall i, (i < n)%nat -> 0 <= f i) -> 0 <= sumf n f.
Proof. intros H. rewrite <- (sumf_zero n (fun _ => 0)) by reflexivity. apply sumf_le. exact H. Qed.

Lemma setv_eq {X} (f : nat -> X) i v : setv f i v i = v.
Proof. unfold setv. now rewrite Nat.eqb_refl. Qed.
Lemma setv_ne {X} (f : nat -> X) i v j : j <> i -> setv f i v j = f j.
Proof. intros H. unfold setv. now rewrite (proj2 (Nat.eqb_neq j i)). Qed.

(** * Dot products *)
Lemma dot_sym n a b : dot n a b = dot n b a.
Proof. apply sumf_ext. intros; ring. Qed.
Lemma dot_ext n a a' b b' : (forall i, (i < n)%nat -> a i = a' i) -> (forall i, (i < n)%nat -> b i = b' i) -> dot n a b = dot n a' b'.
Proof. intros H H'. apply sumf_ext. intros i Hi. rewrite H, H' by exact Hi. reflexivity. Qed.
Lemma dot_lin n a b c k : dot n a (fun i => b i + k * c i) = dot n a b + k * dot n a c.
Proof. unfold dot. rewrite <- sumf_scal, <- sumf_plus. apply sumf_ext. intros; ring. Qed.
Lemma dot_sum n m a (c : nat -> R) (B : nat -> rvec) :
  dot n a (fun i => sumf m (fun k => c k * B k i)) = sumf m (fun k => c k * dot n a (B k)).
Proof.
  unfold dot. rewrite (sumf_ext n _ (fun i => sumf m (fun k => a i * (c k * B k i)))) by (intros; now rewrite sumf_scal).
  rewrite sumf_swap. apply sumf_ext. intros k _. rewrite <- sumf_scal. apply sumf_ext. intros; ring.
Qed.

(** * Rotations *)
Lemma distance_sq a b : distance a b * distance a b = a * a + b * b.
Proof.
  unfold distance. assert (Q : forall v, Rabs v * Rabs v = v * v) by (intros v; rewrite <- Rabs_mult, Rabs_pos_eq; [reflexivity|apply Rle_0_sqr]).
  destruct (Rlt_dec _ _) as [H|H]; [|destruct (Rlt_dec _ _) as [H'|H']].
  - pose proof (Rabs_pos b). rewrite <- (Q a), <- (Q b).
    set (x := Rabs a) in *. set (y := Rabs b) in *. replace (x * sqrt (1 + y / x * (y / x)) * (x * sqrt (1 + y / x * (y / x))))
      with (x * x * (sqrt (1 + y / x * (y / x)) * sqrt (1 + y / x * (y / x)))) by ring.
    rewrite sqrt_def by (pose proof (Rle_0_sqr (y / x)); unfold Rsqr in *; lra). field. lra.
  - pose proof (Rabs_pos a). rewrite <- (Q a), <- (Q b).
    set (x := Rabs a) in *. set (y := Rabs b) in *. replace (y * sqrt (1 + x / y * (x / y)) * (y * sqrt (1 + x / y * (x / y))))
      with (y * y * (sqrt (1 + x / y * (x / y)) * sqrt (1 + x / y * (x / y)))) by ring.
    rewrite sqrt_def by (pose proof (Rle_0_sqr (x / y)); unfold Rsqr in *; lra). field. lra.
  - assert (E : Rabs a = Rabs b) by lra. replace (Rabs a * sqrt 2 * (Rabs a * sqrt 2)) with (Rabs a * Rabs a * (sqrt 2 * sqrt 2)) by ring.
    rewrite sqrt_def by lra. rewrite <- (Q b), <- E, Q. ring.
Qed.
Lemma distance_pos a b : 0 <= distance a b.
Proof.
  unfold distance. pose proof (Rabs_pos a). pose proof (Rabs_pos b).
  destruct (Rlt_dec _ _); [|destruct (Rlt_dec _ _)]; apply Rmult_le_pos; try assumption; apply sqrt_pos.
Qed.
Lemma distance_zero a b : distance a b = 0 -> a = 0 /\ b = 0.
Proof. intros E. pose proof (distance_sq a b) as Q. rewrite E in Q. nra. Qed.
Lemma givens_ok a b cc ss v : distance a b <> 0 -> givens a b = (cc, ss, v) ->
  cc * cc + ss * ss = 1 /\ 0 <= cc /\ v = a * cc + b * ss /\ a * ss - b * cc = 0 /\ v * v = a * a + b * b.
Proof.
  intros Hd. pose proof (distance_sq a b) as Q. pose proof (distance_pos a b) as P. unfold givens. set (h := distance a b) in *. clearbody h.
  assert (E : a / h * (a / h) + b / h * (b / h) = 1) by (replace (a / h * (a / h) + b / h * (b / h)) with ((a * a + b * b) / (h * h)) by (field; lra); rewrite <- Q; field; lra).
  assert (E2 : h = a * (a / h) + b * (b / h)) by (apply Rmult_eq_reg_r with h; [rewrite Q; field; lra|lra]).
  destruct (Rlt_dec (a / h) 0); intros [= <- <- <-]; repeat split; try lra; try (field; lra); try (rewrite <- Q; ring).
Qed.
Lemma rot2_eq cc ss t1 t2 : cc * cc + ss * ss = 1 -> 0 <= cc -> rot2 cc ss t1 t2 = ss * t1 - cc * t2.
Proof.
  intros E P. unfold rot2, rot1. apply Rmult_eq_reg_l with (1 + cc); [|lra].
  replace ((1 + cc) * (ss / (1 + cc) * (t1 + (t1 * cc + t2 * ss)) - t2)) with (ss * (t1 + (t1 * cc + t2 * ss)) - (1 + cc) * t2) by (field; lra).
  replace (ss * (t1 + (t1 * cc + t2 * ss)) - (1 + cc) * t2) with (ss * t1 * (1 + cc) + (ss * ss) * t2 - (1 + cc) * t2) by ring.
  replace (ss * ss) with (1 - cc * cc) by lra. ring.
Qed.

Definition gram (n : nat) (J : rmat) (k l : nat) : R := sumf n (fun c => J k c * J l c).
Lemma rot_gram n cc ss a b J k l : (a < n)%nat -> (b < n)%nat -> a <> b -> cc * cc + ss * ss = 1 -> 0 <= cc ->
  gram n (rot_cols cc ss a b J) k l = gram n J k l.
Proof.
  intros Ha Hb Hab E P. unfold gram. apply (sumf_two n _ _ a b); try assumption.
  - intros i Hi Hia Hib. unfold rot_cols. apply Nat.eqb_neq in Hia, Hib. now rewrite Hia, Hib.
  - unfold rot_cols. rewrite !Nat.eqb_refl. rewrite (proj2 (Nat.eqb_neq b a)) by lia. rewrite !rot2_eq by assumption. unfold rot1.
    replace ((J k a * cc + J k b * ss) * (J l a * cc + J l b * ss) + (ss * J k a - cc * J k b) * (ss * J l a - cc * J l b))
      with ((cc * cc + ss * ss) * (J k a * J l a) + (cc * cc + ss * ss) * (J k b * J l b)) by ring. rewrite E. ring.
Qed.
Lemma rot_d n cc ss a b J v c : a <> b -> cc * cc + ss * ss = 1 -> 0 <= cc ->
  compute_d n (rot_cols cc ss a b J) v c =
    if Nat.eqb c a then cc * compute_d n J v a + ss * compute_d n J v b
    else if Nat.eqb c b then ss * compute_d n J v a - cc * compute_d n J v b else compute_d n J v c.
Proof.
  intros Hab E P. unfold compute_d, rot_cols. destruct (Nat.eqb_spec c a) as [->|]; [|destruct (Nat.eqb_spec c b) as [->|]; [|reflexivity]].
  - rewrite <- !sumf_scal, <- sumf_plus. apply sumf_ext. intros i _. unfold rot1. ring.
  - rewrite <- !sumf_scal, <- sumf_minus. apply sumf_ext. intros i _. rewrite rot2_eq by assumption. ring.
Qed.

(** * add_constraint *)
Lemma add_loop_ok n iq : forall cnt d J d' J', (iq + cnt < n)%nat -> add_loop iq cnt d J = (d', J') ->
  (forall k l, gram n J' k l = gram n J k l) /\
  (forall v, (forall c, (iq <= c <= iq + cnt)%nat -> compute_d n J v c = 0) -> forall c, compute_d n J' v c = compute_d n J v c) /\
  (forall v, (forall c, d c = compute_d n J v c) -> forall c, d' c = compute_d n J' v c) /\
  (forall c, (c < iq \/ iq + cnt < c)%nat -> d' c = d c) /\
  (forall c, (iq < c <= iq + cnt)%nat -> d' c = 0) /\
  d' iq * d' iq = sumf (S cnt) (fun c => d (iq + c)%nat * d (iq + c)%nat).
Proof.
  induction cnt as [|cnt IH]; intros d J d' J' Hn E.
  - cbn in E. injection E as <- <-. repeat split; intros; auto; try lia. cbn [sumf]. rewrite Nat.add_0_r. ring.
  - cbn [add_loop] in E. set (j := (iq + S cnt)%nat) in *. set (j1 := (iq + cnt)%nat) in *.
    destruct (Req_EM_T _ _) as [Z|Z].
    + apply distance_zero in Z. destruct Z as [Z1 Z2]. destruct (IH d J d' J' ltac:(lia) E) as (G & V & D & F & Zr & N).
      split; [exact G|]. split; [intros v Hv; apply V; intros c Hc; apply Hv; lia|]. split; [exact D|].
      split; [intros c Hc; apply F; lia|]. split.
      * intros c Hc. destruct (Nat.eq_dec c j) as [->|]; [rewrite F by (unfold j; lia); exact Z2|apply Zr; unfold j in *; lia].
      * rewrite N. cbn [sumf]. fold j. rewrite Z2. ring.
    + destruct (givens (d j1) (d j)) as [[cc ss] v0] eqn:EG. apply givens_ok in EG; [|exact Z]. destruct EG as (C1 & C2 & C3 & C4 & C5).
      assert (Hjj : j1 <> j) by (unfold j, j1; lia).
      destruct (IH _ _ d' J' ltac:(lia) E) as (G & V & D & F & Zr & N).
      split; [intros k l; rewrite G; apply rot_gram; unfold j, j1 in *; (assumption || lia)|]. split; [|split; [|split; [|split]]].
      * intros v Hv c. assert (R0 : forall c', compute_d n (rot_cols cc ss j1 j J) v c' = compute_d n J v c').
        { intros c'. rewrite rot_d by assumption. rewrite (Hv j1), (Hv j) by (unfold j, j1; lia).
          destruct (Nat.eqb_spec c' j1) as [->|]; [rewrite (Hv j1) by (unfold j1; lia); ring|].
          destruct (Nat.eqb_spec c' j) as [->|]; [rewrite (Hv j) by (unfold j; lia); ring|reflexivity]. }
        rewrite V; [apply R0|]. intros c' Hc'. rewrite R0. apply Hv. lia.
      * intros v Hv. apply D. intros c. rewrite rot_d by assumption. rewrite <- !Hv. unfold setv.
        destruct (Nat.eqb_spec c j1) as [->|]; [rewrite C3; ring|]. destruct (Nat.eqb_spec c j) as [->|]; [lra|reflexivity].
      * intros c Hc. rewrite F by lia. unfold setv. rewrite !(proj2 (Nat.eqb_neq _ _)) by (unfold j, j1; lia). reflexivity.
      * intros c Hc. destruct (Nat.eq_dec c j) as [->|].
        { rewrite F by (unfold j; lia). unfold setv. rewrite (proj2 (Nat.eqb_neq j j1)) by lia. now rewrite Nat.eqb_refl. }
        apply Zr. unfold j in *; lia.
      * rewrite N. cbn [sumf]. fold j1. fold j. rewrite !setv_eq, C5.
        rewrite (sumf_ext cnt _ (fun c => d (iq + c)%nat * d (iq + c)%nat)); [ring|]. intros i Hi. unfold setv.
        rewrite !(proj2 (Nat.eqb_neq _ _)) by (unfold j, j1; lia). reflexivity.
Qed.

Definition factored (n : nat) (N : nat -> rvec) (iq : nat) (Rm J : rmat) : Prop :=
  (forall k c, (k < iq)%nat -> (c < n)%nat -> compute_d n J (N k) c = if (c <? iq)%nat then Rm c k else 0) /\
  (forall k c, (k < c)%nat -> Rm c k = 0) /\
  (forall k, (k < iq)%nat -> Rm k k <> 0).

Lemma add_ok n N iq Rm J Rn : factored n N iq Rm J -> (iq < n)%nat -> 0 <= Rn ->
  exists b Rm' J' Rn' w, add_constraint n Rm J (compute_d n J (N iq)) iq Rn = Ok (b, Rm', J', S iq, Rn') /\
    (forall k l, gram n J' k l = gram n J k l) /\
    w * w = sumf (n - iq) (fun c => compute_d n J (N iq) (iq + c)%nat * compute_d n J (N iq) (iq + c)%nat) /\
    (b = true -> factored n N (S iq) Rm' J' /\ eps52 * Rn < Rabs w /\ Rn' = Rmax Rn (Rabs w)) /\
    (b = false -> factored n N iq Rm' J' /\ Rabs w <= eps52 * Rn /\ Rn' = Rn).
Proof.
  intros (F1 & F2 & F3) Hn HR. set (d := compute_d n J (N iq)).
  destruct (add_loop iq (n - S iq) d J) as [d' J'] eqn:E.
  destruct (add_loop_ok n iq (n - S iq) d J d' J' ltac:(lia) E) as (G & V & D & F & Zr & W).
  unfold add_constraint. rewrite (proj2 (Nat.leb_gt n iq)) by lia. rewrite E.
  set (Rm' := fun i k => if Nat.eqb k iq then _ else _).
  assert (VN : forall k c, (k < iq)%nat -> (c < n)%nat -> compute_d n J' (N k) c = if (c <? iq)%nat then Rm c k else 0).
  { intros k c Hk Hc. rewrite V; [apply F1; assumption|]. intros c' Hc'. rewrite F1 by lia. now rewrite (proj2 (Nat.ltb_ge c' iq)) by lia. }
  assert (R0 : forall k i, (k < iq)%nat -> Rm' i k = Rm i k).
  { intros k i Hk. unfold Rm'. now rewrite (proj2 (Nat.eqb_neq k iq)) by lia. }
  assert (R1 : forall i, (i <= iq)%nat -> Rm' i iq = d' i).
  { intros i Hi. unfold Rm'. rewrite Nat.eqb_refl. now rewrite (proj2 (Nat.leb_le i iq)) by lia. }
  assert (R2 : forall k c, (k < c)%nat -> Rm' c k = 0).
  { intros k c Hk. unfold Rm'. destruct (Nat.eqb_spec k iq) as [->|]; [|apply F2; exact Hk].
    rewrite (proj2 (Nat.leb_gt c iq)) by lia. apply F2; exact Hk. }
  assert (W' : d' iq * d' iq = sumf (n - iq) (fun c => d (iq + c)%nat * d (iq + c)%nat)) by (rewrite W; f_equal; lia).
  destruct (Rle_dec _ _) as [Hd|Hd].
  - exists false, Rm', J', Rn, (d' iq). split; [reflexivity|]. split; [exact G|]. split; [exact W'|]. split; [discriminate|]. intros _.
    split; [|auto]. split; [|split].
    + intros k c Hk Hc. rewrite VN by assumption. now rewrite R0.
    + exact R2.
    + intros k Hk. rewrite R0 by lia. apply F3; exact Hk.
  - exists true, Rm', J', (Rmax Rn (Rabs (d' iq))), (d' iq). split; [reflexivity|]. split; [exact G|]. split; [exact W'|]. split; [|discriminate]. intros _.
    split; [|split; [lra|reflexivity]]. split; [|split].
    + intros k c Hk Hc. destruct (Nat.eq_dec k iq) as [->|].
      * rewrite <- (D (N iq) (fun _ => eq_refl) c). destruct (Nat.ltb_spec c (S iq)); [symmetry; apply R1; lia|apply Zr; lia].
      * rewrite VN by lia. rewrite R0 by lia. destruct (Nat.ltb_spec c iq), (Nat.ltb_spec c (S iq)); try lia; try reflexivity.
        symmetry. apply F2. lia.
    + exact R2.
    + intros k Hk. destruct (Nat.eq_dec k iq) as [->|]; [|rewrite R0 by lia; apply F3; lia]. rewrite R1 by lia. intros Z. apply Hd. rewrite Z, Rabs_R0.
      apply Rmult_le_pos; [|exact HR]. unfold eps52. left. apply Rinv_0_lt_compat. apply pow_lt. lra.
Qed.

(** * delete_constraint *)
Definition hess (n : nat) (N : nat -> rvec) (iq j : nat) (Rm J : rmat) : Prop :=
  (forall k c, (k < iq)%nat -> (c < n)%nat -> compute_d n J (N k) c = if (c <? S iq)%nat then Rm c k else 0) /\
  (forall k c, (k < c)%nat -> (k < j \/ iq <= k \/ S k < c)%nat -> Rm c k = 0) /\
  (forall k, (k < j)%nat -> (k < iq)%nat -> Rm k k <> 0) /\
  (forall k, (j <= k < iq)%nat -> Rm (S k) k <> 0).

Lemma del_rot_ok n N iq j Rm J Rm' J' : (S iq <= n)%nat -> (j < iq)%nat -> hess n N iq j Rm J ->
  del_rot iq j Rm J = (Rm', J') -> hess n N iq (S j) Rm' J' /\ forall k l, gram n J' k l = gram n J k l.
Proof.
  intros Hn Hj (H1 & H2 & H3 & H4). unfold del_rot.
  destruct (Req_EM_T _ _) as [Z|Z]; [exfalso; apply distance_zero in Z; apply (H4 j); [lia|tauto]|].
  destruct (givens _ _) as [[cc ss] v] eqn:EG. apply givens_ok in EG; [|exact Z]. destruct EG as (C1 & C2 & C3 & C4 & C5).
  intros [= <- <-]. split; [|intros k l; apply rot_gram; (assumption || lia)]. split; [|split; [|split]].
  - intros k c Hk Hc. rewrite rot_d by (assumption || lia). rewrite !H1 by lia.
    rewrite (proj2 (Nat.ltb_lt j (S iq))), (proj2 (Nat.ltb_lt (S j) (S iq))) by lia.
    destruct (Nat.eqb_spec k j) as [->|Hkj].
    + destruct (Nat.eqb_spec c j) as [->|]; [rewrite (proj2 (Nat.ltb_lt j (S iq))) by lia; rewrite C3; ring|].
      destruct (Nat.eqb_spec c (S j)) as [->|]; [rewrite (proj2 (Nat.ltb_lt (S j) (S iq))) by lia; lra|reflexivity].
    + destruct (Nat.ltb_spec j k) as [Hjk|Hjk]; [rewrite (proj2 (Nat.ltb_lt k iq)) by lia; cbn [andb]|cbn [andb]].
      * destruct (Nat.eqb_spec c j) as [->|]; [rewrite (proj2 (Nat.ltb_lt j (S iq))) by lia; unfold rot1; ring|].
        destruct (Nat.eqb_spec c (S j)) as [->|]; [rewrite (proj2 (Nat.ltb_lt (S j) (S iq))) by lia; rewrite rot2_eq by assumption; ring|reflexivity].
      * rewrite (H2 k j), (H2 k (S j)) by lia.
        destruct (Nat.eqb_spec c j) as [->|]; [rewrite (proj2 (Nat.ltb_lt j (S iq))) by lia; rewrite (H2 k j) by lia; ring|].
        destruct (Nat.eqb_spec c (S j)) as [->|]; [rewrite (proj2 (Nat.ltb_lt (S j) (S iq))) by lia; rewrite (H2 k (S j)) by lia; ring|reflexivity].
  - intros k c Hk Hc. destruct (Nat.eqb_spec k j) as [->|Hkj].
    + rewrite (proj2 (Nat.eqb_neq c j)) by lia. destruct (Nat.eqb_spec c (S j)); [reflexivity|]. apply H2; lia.
    + destruct (Nat.ltb_spec j k) as [Hjk|Hjk], (Nat.ltb_spec k iq); cbn [andb]; try (apply H2; lia).
      rewrite (proj2 (Nat.eqb_neq c j)), (proj2 (Nat.eqb_neq c (S j))) by lia. apply H2; lia.
  - intros k Hk Hk'. destruct (Nat.eqb_spec k j) as [->|Hkj].
    + intros E0. rewrite E0 in C5. pose proof (H4 j ltac:(lia)) as H40. apply H40. nra.
    + rewrite (proj2 (Nat.ltb_ge j k)) by lia. cbn [andb]. apply H3; lia.
  - intros k Hk. rewrite (proj2 (Nat.eqb_neq k j)) by lia. rewrite (proj2 (Nat.ltb_lt j k)), (proj2 (Nat.ltb_lt k iq)) by lia. cbn [andb].
    rewrite (proj2 (Nat.eqb_neq (S k) j)), (proj2 (Nat.eqb_neq (S k) (S j))) by lia. apply H4. lia.
Qed.

Lemma del_loop_ok n N iq : (S iq <= n)%nat -> forall cnt j Rm J Rm' J', (j + cnt = iq)%nat -> hess n N iq j Rm J ->
  del_loop iq j cnt Rm J = (Rm', J') -> factored n N iq Rm' J' /\ forall k l, gram n J' k l = gram n J k l.
Proof.
  intros Hn. induction cnt as [|cnt IH]; intros j Rm J Rm' J' Hj HH E; cbn [del_loop] in E.
  - injection E as <- <-. split; [|reflexivity]. destruct HH as (H1 & H2 & H3 & _). rewrite Nat.add_0_r in Hj. subst j.
    split; [|split].
    + intros k c Hk Hc. rewrite H1 by assumption. destruct (Nat.ltb_spec c (S iq)), (Nat.ltb_spec c iq); try lia; try reflexivity.
      assert (c = iq) by lia. subst c. apply H2; lia.
    + intros k c Hk. apply H2; lia.
    + intros k Hk. apply H3; exact Hk.
  - destruct (del_rot iq j Rm J) as [Rm1 J1] eqn:E1. destruct (del_rot_ok n N iq j Rm J Rm1 J1 Hn ltac:(lia) HH E1) as [HH1 G1].
    destruct (IH (S j) Rm1 J1 Rm' J' ltac:(lia) HH1 E) as [F G]. split; [exact F|]. intros k l. rewrite G. apply G1.
Qed.

(** drop the element [qq] of a sequence *)
Definition drop_at {X} (qq : nat) (f : nat -> X) : nat -> X := fun i => if (i <? qq)%nat then f i else f (S i).
Lemma delete_ok m nEq n N iq Rm J A u l : factored n N iq Rm J -> (0 < iq)%nat -> (iq <= n)%nat -> (iq < m)%nat ->
  let qq := find_active A l nEq (iq - nEq) in (qq < iq)%nat ->
  exists Rm' J' A' u', delete_constraint m nEq Rm J A u iq l = Ok (Rm', J', A', u', (iq - 1)%nat) /\
    (forall k l, gram n J' k l = gram n J k l) /\ factored n (drop_at qq N) (iq - 1) Rm' J' /\
    (forall i, (i < iq)%nat -> A' i = drop_at qq A i) /\ (forall i, (i < iq)%nat -> u' i = drop_at qq u i).
Proof.
  intros (F1 & F2 & F3) H0 Hn Hm qq Hqq. unfold delete_constraint.
  rewrite (proj2 (Nat.leb_gt m iq)), (proj2 (Nat.eqb_neq iq 0)) by lia. cbn [orb]. fold qq.
  set (Rm1 := fun i k => if ((k =? iq - 1) && (i <? iq))%nat%bool then 0 else _).
  destruct (del_loop (iq - 1) qq (iq - 1 - qq) Rm1 J) as [Rm' J'] eqn:E.
  destruct (del_loop_ok n (drop_at qq N) (iq - 1) ltac:(lia) (iq - 1 - qq) qq Rm1 J Rm' J' ltac:(lia)) as [F G]; [|exact E|].
  - split; [|split; [|split]].
    + intros k c Hk Hc. unfold drop_at. replace (S (iq - 1)) with iq by lia. unfold Rm1.
      rewrite (proj2 (Nat.eqb_neq k (iq - 1))) by lia. cbn [andb]. rewrite (proj2 (Nat.ltb_lt k (iq - 1))) by lia.
      destruct (Nat.ltb_spec k qq); [rewrite (proj2 (Nat.leb_gt qq k)) by lia|rewrite (proj2 (Nat.leb_le qq k)) by lia]; cbn [andb]; apply F1; lia.
    + intros k c Hk Hc. unfold Rm1. destruct (Nat.eqb_spec k (iq - 1)); cbn [andb].
      * destruct (Nat.ltb_spec c iq); [reflexivity|]. rewrite (proj2 (Nat.ltb_ge k (iq - 1))) by lia. rewrite Bool.andb_false_r. apply F2; lia.
      * destruct (Nat.leb_spec qq k), (Nat.ltb_spec k (iq - 1)); cbn [andb]; apply F2; lia.
    + intros k Hk Hk'. unfold Rm1. rewrite (proj2 (Nat.eqb_neq k (iq - 1))) by lia. cbn [andb].
      rewrite (proj2 (Nat.leb_gt qq k)) by lia. cbn [andb]. apply F3; lia.
    + intros k Hk. unfold Rm1. rewrite (proj2 (Nat.eqb_neq k (iq - 1))) by lia. cbn [andb].
      rewrite (proj2 (Nat.leb_le qq k)), (proj2 (Nat.ltb_lt k (iq - 1))) by lia. cbn [andb]. apply F3; lia.
  - eexists Rm', J', _, _. split; [reflexivity|]. split; [exact G|]. split; [exact F|].
    split; intros i Hi; unfold drop_at; (destruct (Nat.ltb_spec i qq); [rewrite (proj2 (Nat.leb_gt qq i)) by lia|rewrite (proj2 (Nat.leb_le qq i)) by lia]);
      cbn [andb]; rewrite ?(proj2 (Nat.ltb_lt i iq)), ?(proj2 (Nat.eqb_neq i iq)) by lia; reflexivity.
Qed.
