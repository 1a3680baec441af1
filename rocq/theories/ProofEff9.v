(** Velocity cost of the end effector: integral, one and three free points. *)
From Coq Require Import Lia Lra QArith Qreals.
From Verif Require Import Vec SpecBezier ModelData Spec0Step ProofBezier ProofCurve Proof0Step2 ProofEff8.
Open Scope R_scope.

Definition zero_free (lo hi : nat) (a : nat -> R) (i : nat) : R := if andb (Nat.leb lo i) (Nat.leb i hi) then 0 else a i.
(** (2n - 1) T times the integral of the squared velocity *)
Definition velform (n : nat) (a : nat -> R) : R := INR n * INR n * sqform (pred n) (fun i => a (S i) - a i).

(** Pascal's triangle by rows *)
Fixpoint prow (l : list Z) (c : Z) : list Z := match l with [] => [c] | x :: l' => (c + x)%Z :: prow l' x end.
Fixpoint zrow (n : nat) : list Z := match n with O => [1%Z] | S n' => prow (zrow n') 0%Z end.
Definition zbin (n k : nat) : Z := nth k (zrow n) 0%Z.
Lemma nth_prow : forall l c k, nth k (prow l c) 0%Z = (nth k (c :: l) 0 + nth k l 0)%Z.
Proof.
  induction l as [|x l IH]; intros c k.
  - destruct k as [|[|k]]; cbn; lia.
  - destruct k as [|k]; [cbn; lia|]. cbn [prow nth]. rewrite IH. reflexivity.
Qed.
Lemma zbin_ok : forall n k, Z.of_nat (binom n k) = zbin n k.
Proof.
  unfold zbin. induction n as [|n IH]; intros [|k]; [reflexivity|destruct k; reflexivity| |].
  - cbn [binom zrow]. rewrite nth_prow. cbn [nth]. rewrite <- (IH 0%nat), binom_0_r. reflexivity.
  - cbn [binom zrow]. rewrite nth_prow. cbn [nth]. rewrite <- !IH. lia.
Qed.
Lemma wprod_Z m i j : wprod m i j = IZR (zbin m i) * IZR (zbin m j) / IZR (zbin (m + m) (i + j)).
Proof. unfold wprod. rewrite !INR_IZR_INZ, !zbin_ok. reflexivity. Qed.
(** Quadratic forms with rational coefficients, compared coefficient by coefficient. *)
Definition qterm := (nat * nat * Q)%type.
Definition ev1 (a : nat -> R) (t : qterm) : R := Q2R (snd t) * (a (fst (fst t)) * a (snd (fst t))).
Definition ev (l : list qterm) (a : nat -> R) : R := fold_right (fun t s => ev1 a t + s) 0 l.
Definition touch (i j : nat) (t : qterm) : bool := Nat.eqb (Nat.min (fst (fst t)) (snd (fst t))) i && Nat.eqb (Nat.max (fst (fst t)) (snd (fst t))) j.
Definition coef (l : list qterm) (i j : nat) : Q := fold_right (fun t c => if touch i j t then Qred (snd t + c) else c) 0%Q l.
Definition below (n : nat) (l : list qterm) : bool := forallb (fun t => Nat.ltb (fst (fst t)) n && Nat.ltb (snd (fst t)) n) l.
Lemma Q2R_red x : Q2R (Qred x) = Q2R x.
Proof. apply Qreals.Qeq_eqR. apply Qred_correct. Qed.
Lemma sumf_pick n i c : (i < n)%nat -> sumf n (fun k => if Nat.eqb i k then c else 0) = c.
Proof.
  induction n as [|n IH]; intros Hi; [lia|]. cbn [sumf]. destruct (Nat.eqb_spec i n) as [->|].
  - rewrite sumf_zero; [ring|]. intros k Hk. now rewrite (proj2 (Nat.eqb_neq n k)) by lia.
  - rewrite IH by lia. ring.
Qed.
Lemma ev_coef n a : forall l, below n l = true -> ev l a = sumf n (fun i => sumf n (fun j => Q2R (coef l i j) * (a i * a j))).
Proof.
  induction l as [|[[i j] c] l IH]; intros Hb.
  - cbn. symmetry. apply sumf_zero. intros i _. apply sumf_zero. intros j _. change (coef [] i j) with 0%Q. unfold Q2R. cbn [Qnum Qden]. field.
  - cbn [below forallb] in Hb. apply andb_prop in Hb. destruct Hb as [Hb Hl]. apply andb_prop in Hb. destruct Hb as [Hi Hj].
    apply Nat.ltb_lt in Hi, Hj. cbn [fst snd] in Hi, Hj. change (ev ((i, j, c) :: l) a) with (ev1 a (i, j, c) + ev l a). rewrite IH by exact Hl.
    transitivity (sumf n
      (fun i0 => (if Nat.eqb (Nat.min i j) i0 then ev1 a (i, j, c) else 0) + sumf n (fun j0 => Q2R (coef l i0 j0) * (a i0 * a j0)))).
    + rewrite sumf_plus, sumf_pick by lia. reflexivity.
    + apply sumf_ext. intros i0 Hi0. symmetry. rewrite (sumf_ext n _ (fun j0 => (if Nat.eqb (Nat.max i j) j0 then (if Nat.eqb (Nat.min i j) i0 then ev1 a (i, j, c) else 0) else 0) + Q2R (coef l i0 j0) * (a i0 * a j0))).
      * rewrite sumf_plus, sumf_pick by lia. reflexivity.
      * intros j0 Hj0. cbn [coef fold_right]. fold (coef l i0 j0). unfold touch. cbn [fst snd].
        destruct (Nat.eqb_spec (Nat.min i j) i0) as [E1|]; cbn [andb]; [|destruct (Nat.eqb _ _); ring].
        destruct (Nat.eqb_spec (Nat.max i j) j0) as [E2|]; [|ring].
        rewrite Q2R_red, Qreals.Q2R_plus. unfold ev1. cbn [fst snd].
        assert (E : a i * a j = a i0 * a j0).
        { destruct (Nat.le_ge_cases i j); [rewrite Nat.min_l, Nat.max_r in * by lia|rewrite Nat.min_r, Nat.max_l in * by lia]; subst; ring. }
        rewrite E. ring.
Qed.
Definition same_coefs (n : nat) (l l' : list qterm) : bool :=
  forallb (fun i => forallb (fun j => Qeq_bool (coef l i j) (coef l' i j)) (seq 0 n)) (seq 0 n).
Lemma ev_same n l l' a : (below n l && below n l' && same_coefs n l l')%bool = true -> ev l a = ev l' a.
Proof.
  intros H. apply andb_prop in H. destruct H as [H Hs]. apply andb_prop in H. destruct H as [Hl Hl'].
  rewrite (ev_coef n a l Hl), (ev_coef n a l' Hl'). unfold same_coefs in Hs. rewrite forallb_forall in Hs.
  apply sumf_ext. intros i Hi. apply sumf_ext. intros j Hj. f_equal. apply Qreals.Qeq_eqR. apply Qeq_bool_eq.
  specialize (Hs i ltac:(apply in_seq; lia)). rewrite forallb_forall in Hs. apply Hs. apply in_seq. lia.
Qed.
Lemma ev_app l l' a : ev (l ++ l') a = ev l a + ev l' a.
Proof. 
  induction l as [|t l IH]; cbn [app]; [change (ev [] a) with 0; ring|].
  change (ev1 a t + ev (l ++ l') a = ev1 a t + ev l a + ev l' a). rewrite IH. ring.
Qed.
Definition qneg (l : list qterm) : list qterm := map (fun t => (fst t, Qopp (snd t))) l.
Lemma ev_neg l a : ev (qneg l) a = - ev l a.
Proof.
  induction l as [|t l IH]; [change (0 = - 0); ring|]. change (ev1 a (fst t, Qopp (snd t)) + ev (qneg l) a = - (ev1 a t + ev l a)).
  rewrite IH. unfold ev1. cbn [fst snd]. rewrite Qreals.Q2R_opp. ring.
Qed.
Lemma ev_flat a f : forall n, ev (flat_map f (seq 0 n)) a = sumf n (fun i => ev (f i) a).
Proof.
  induction n as [|n IH]; [reflexivity|]. rewrite seq_S, flat_map_app, ev_app, IH. cbn [flat_map sumf Nat.add]. rewrite app_nil_r. reflexivity.
Qed.
(** the terms of velform *)
Definition vw (n i j : nat) : Q := Qred ((Z.of_nat n * Z.of_nat n * zbin (pred n) i * zbin (pred n) j) # Z.to_pos (zbin (pred n + pred n) (i + j))).
Definition vterms (n : nat) : list qterm :=
  flat_map (fun i => flat_map (fun j => let c := vw n i j in [(S i, S j, c); (i, j, c); (S i, j, Qopp c); (i, S j, Qopp c)]) (seq 0 (S (pred n)))) (seq 0 (S (pred n))).
Lemma vw_ok n i j : (i <= pred n)%nat -> (j <= pred n)%nat -> Q2R (vw n i j) = INR n * INR n * wprod (pred n) i j.
Proof.
  intros Hi Hj. unfold vw. rewrite Q2R_red, wprod_Z. unfold Q2R. cbn [Qnum Qden].
  assert (P : (0 < zbin (pred n + pred n) (i + j))%Z). { rewrite <- zbin_ok. assert (0 < binom (pred n + pred n) (i + j))%nat by (apply binom_pos; lia). lia. }
  rewrite Z2Pos.id by exact P. rewrite !mult_IZR, <- !INR_IZR_INZ. unfold Rdiv. ring.
Qed.
Lemma velform_terms n a : velform n a = ev (vterms n) a.
Proof.
  unfold velform, sqform, vterms. rewrite ev_flat, <- sumf_scal. apply sumf_ext. intros i Hi. rewrite ev_flat, <- sumf_scal. apply sumf_ext. intros j Hj.
  cbn [ev fold_right]. unfold ev1. cbn [fst snd]. rewrite !Qreals.Q2R_opp, !vw_ok by lia. ring.
Qed.
Definition outside (lo hi : nat) (t : qterm) : bool :=
  negb (Nat.leb lo (fst (fst t)) && Nat.leb (fst (fst t)) hi) && negb (Nat.leb lo (snd (fst t)) && Nat.leb (snd (fst t)) hi).
Lemma ev_zero_free lo hi a l : ev l (zero_free lo hi a) = ev (filter (outside lo hi) l) a.
Proof.
  induction l as [|[[i j] c] l IH]; [reflexivity|]. change (ev ((i, j, c) :: l) (zero_free lo hi a)) with (ev1 (zero_free lo hi a) (i, j, c) + ev l (zero_free lo hi a)).
  rewrite IH. cbn [filter]. unfold ev1, zero_free. cbn [fst snd].
  destruct (outside lo hi (i, j, c)) eqn:E; unfold outside in E; cbn [fst snd] in E.
  - apply andb_prop in E. destruct E as [E1 E2]. apply Bool.negb_true_iff in E1, E2. rewrite E1, E2. reflexivity.
  - apply Bool.andb_false_iff in E. destruct E as [E|E]; apply Bool.negb_false_iff in E; rewrite E; ring.
Qed.
Lemma id_of n lo hi (ql el : list qterm) a :
  (let l := ql ++ qneg (vterms n) ++ filter (outside lo hi) (vterms n) in below (S n) l && below (S n) el && same_coefs (S n) l el)%bool = true ->
  ev ql a - (velform n a - velform n (zero_free lo hi a)) = ev el a.
Proof.
  intros H. rewrite <- (ev_same (S n) _ _ a H). rewrite !ev_app, ev_neg, !velform_terms, ev_zero_free. ring.
Qed.
(** the form as a list of terms *)
Ltac reify_coef c := lazymatch c with
  | Ropp (Rdiv (IZR ?x) (IZR (Zpos ?y))) => constr:(Qopp (Qmake x y))
  | Rdiv (IZR ?x) (IZR (Zpos ?y)) => constr:(Qmake x y) end.
Ltac reify_form a e := lazymatch e with
  | Rplus ?u (Rmult ?c (Rmult (a ?i) (a ?j))) => let l := reify_form a u in let k := reify_coef c in constr:((i, j, k) :: l)
  | Rmult ?c (Rmult (a ?i) (a ?j)) => let k := reify_coef c in constr:([(i, j, k)]) end.
Lemma ev_cons i j c t l a : ev ((i, j, c) :: t :: l) a = ev (t :: l) a + Q2R c * (a i * a j).
Proof. change (ev ((i, j, c) :: t :: l) a) with (ev1 a (i, j, c) + ev (t :: l) a). unfold ev1. cbn [fst snd]. ring. Qed.
Lemma ev_one i j c a : ev [(i, j, c)] a = Q2R c * (a i * a j).
Proof. cbn [ev fold_right]. unfold ev1. cbn [fst snd]. ring. Qed.
Lemma Q2R_make x y : Q2R (Qmake x y) = IZR x / IZR (Zpos y).
Proof. reflexivity. Qed.
Ltac form_terms a e := let l := reify_form a e in
  let H := fresh in assert (H : e = ev l a) by (rewrite ?ev_cons, ev_one, ?Qreals.Q2R_opp, ?Q2R_make; reflexivity); rewrite H; clear H.

Lemma term_pos c x y M : 0 <= c -> Rabs x <= M -> Rabs y <= M -> Rabs (c * (x * y)) <= c * (M * M).
Proof.
  intros Hc Hx Hy. rewrite !Rabs_mult, (Rabs_pos_eq c) by exact Hc. apply Rmult_le_compat_l; [exact Hc|].
  apply Rmult_le_compat; try apply Rabs_pos; assumption.
Qed.
Lemma term_neg c x y M : 0 <= c -> Rabs x <= M -> Rabs y <= M -> Rabs (- c * (x * y)) <= c * (M * M).
Proof. intros Hc Hx Hy. rewrite Ropp_mult_distr_l_reverse, Rabs_Ropp. apply term_pos; assumption. Qed.
Lemma sum_abs A B u v : Rabs A <= u -> Rabs B <= v -> Rabs (A + B) <= u + v.
Proof. intros HA HB. eapply Rle_trans; [apply Rabs_triang|]. lra. Qed.
Ltac abs_terms H := repeat apply sum_abs; (first [apply term_neg | apply term_pos]; [lra|apply H; lia|apply H; lia]).

Definition q8 (a : nat -> R) : R :=
  (652680652684107 / 100000000000000) * (a 4%nat * a 4%nat) +
  (- (19580419580437 / 2500000000000)) * (a 4%nat * a 0%nat) +
  (- (391608391618793 / 50000000000000)) * (a 4%nat * a 1%nat) +
  (114219114216023 / 12500000000000) * (a 4%nat * a 3%nat) +
  (456876456879227 / 50000000000000) * (a 4%nat * a 5%nat) +
  (- (783216783216697 / 100000000000000)) * (a 4%nat * a 7%nat) +
  (- (783216783216777 / 100000000000000)) * (a 4%nat * a 8%nat).

Definition e8 (a : nat -> R) : R :=
  (1481903 / 42900000000000000) * (a 4%nat * a 4%nat) +
  (- (2491 / 357500000000000)) * (a 4%nat * a 0%nat) +
  (- (1487399 / 7150000000000000)) * (a 4%nat * a 1%nat) +
  (- (1326133 / 5362500000000000)) * (a 4%nat * a 3%nat) +
  (1188383 / 21450000000000000) * (a 4%nat * a 5%nat) +
  (12329 / 14300000000000000) * (a 4%nat * a 7%nat) +
  (889 / 14300000000000000) * (a 4%nat * a 8%nat).

Lemma id8 a : q8 a - (velform 8 a - velform 8 (zero_free 4 4 a)) = e8 a.
Proof.
  unfold q8, e8. match goal with |- ?e - _ = ?e' => form_terms a e; form_terms a e' end.
  apply (id_of 8 4 4). vm_compute. reflexivity.
Qed.
Lemma bound8 a M : (forall i, (i <= 8)%nat -> Rabs (a i) <= M) -> Rabs (e8 a) <= / 10 ^ 9 * (M * M).
Proof.
  intros H. unfold e8. eapply Rle_trans; [abs_terms H|]. assert (0 <= M * M) by (apply Rle_0_sqr). lra.
Qed.

Definition q10 (a : nat -> R) : R :=
  (388728916823403 / 50000000000000) * (a 4%nat * a 4%nat) +
  (27211024351663 / 5000000000000) * (a 4%nat * a 5%nat) +
  (120937884230467 / 100000000000000) * (a 4%nat * a 6%nat) +
  (- (12352941184069 / 1000000000000)) * (a 4%nat * a 0%nat) +
  (- (26470588357537 / 2500000000000)) * (a 4%nat * a 1%nat) +
  (2443438903321 / 2000000000000) * (a 4%nat * a 2%nat) +
  (122171947000329 / 10000000000000) * (a 4%nat * a 3%nat) +
  (- (233237350848769 / 50000000000000)) * (a 4%nat * a 7%nat) +
  (- (721925133730399 / 100000000000000)) * (a 4%nat * a 8%nat) +
  (- (108597285066759 / 20000000000000)) * (a 4%nat * a 9%nat) +
  (- (203619909502433 / 100000000000000)) * (a 4%nat * a 10%nat) +
  (27211024351663 / 5000000000000) * (a 5%nat * a 4%nat) +
  (725627312788583 / 100000000000000) * (a 5%nat * a 5%nat) +
  (108844097036619 / 20000000000000) * (a 5%nat * a 6%nat) +
  (- (529411764601331 / 100000000000000)) * (a 5%nat * a 0%nat) +
  (- (447963802623641 / 50000000000000)) * (a 5%nat * a 1%nat) +
  (- (610859723220821 / 100000000000000)) * (a 5%nat * a 2%nat) +
  (11106540003679 / 5000000000000) * (a 5%nat * a 3%nat) +
  (55532702530231 / 25000000000000) * (a 5%nat * a 7%nat) +
  (- (610859728485633 / 100000000000000)) * (a 5%nat * a 8%nat) +
  (- (55995475113027 / 6250000000000)) * (a 5%nat * a 9%nat) +
  (- (264705882352881 / 50000000000000)) * (a 5%nat * a 10%nat) +
  (120937884230467 / 100000000000000) * (a 6%nat * a 4%nat) +
  (108844097036619 / 20000000000000) * (a 6%nat * a 5%nat) +
  (388728918108279 / 50000000000000) * (a 6%nat * a 6%nat) +
  (- (203619909557297 / 100000000000000)) * (a 6%nat * a 0%nat) +
  (- (542986425052241 / 100000000000000)) * (a 6%nat * a 1%nat) +
  (- (360962566857463 / 50000000000000)) * (a 6%nat * a 2%nat) +
  (- (466474700749421 / 100000000000000)) * (a 6%nat * a 3%nat) +
  (24434389141211 / 2000000000000) * (a 6%nat * a 7%nat) +
  (61085972847883 / 50000000000000) * (a 6%nat * a 8%nat) +
  (- (26470588235293 / 2500000000000)) * (a 6%nat * a 9%nat) +
  (- (61764705882353 / 5000000000000)) * (a 6%nat * a 10%nat).

Definition e10 (a : nat -> R) : R :=
  (- (3202307307 / 121550000000000000)) * (a 4%nat * a 4%nat) +
  (198892753 / 12155000000000000) * (a 4%nat * a 5%nat) +
  (- (3435734723 / 243100000000000000)) * (a 4%nat * a 6%nat) +
  (- (129173 / 17000000000000)) * (a 4%nat * a 0%nat) +
  (- (2078129 / 42500000000000)) * (a 4%nat * a 1%nat) +
  (- (2366059 / 442000000000000)) * (a 4%nat * a 2%nat) +
  (287072709 / 2210000000000000) * (a 4%nat * a 3%nat) +
  (86642561 / 121550000000000000) * (a 4%nat * a 7%nat) +
  (- (7584613 / 18700000000000000)) * (a 4%nat * a 8%nat) +
  (246261 / 4420000000000000) * (a 4%nat * a 9%nat) +
  (- (37693 / 22100000000000000)) * (a 4%nat * a 10%nat) +
  (198892753 / 12155000000000000) * (a 5%nat * a 4%nat) +
  (- (2610954727 / 243100000000000000)) * (a 5%nat * a 5%nat) +
  (- (103979211 / 48620000000000000)) * (a 5%nat * a 6%nat) +
  (1777373 / 1700000000000000) * (a 5%nat * a 0%nat) +
  (- (379824661 / 11050000000000000)) * (a 5%nat * a 1%nat) +
  (1168198559 / 22100000000000000) * (a 5%nat * a 2%nat) +
  (- (1251056351 / 12155000000000000)) * (a 5%nat * a 3%nat) +
  (- (149008439 / 60775000000000000)) * (a 5%nat * a 7%nat) +
  (4675107 / 22100000000000000) * (a 5%nat * a 8%nat) +
  (21033 / 1381250000000000) * (a 5%nat * a 9%nat) +
  (1023 / 850000000000000) * (a 5%nat * a 10%nat) +
  (- (3435734723 / 243100000000000000)) * (a 6%nat * a 4%nat) +
  (- (103979211 / 48620000000000000)) * (a 6%nat * a 5%nat) +
  (- (78773751 / 121550000000000000)) * (a 6%nat * a 6%nat) +
  (- (12162637 / 22100000000000000)) * (a 6%nat * a 0%nat) +
  (63454739 / 22100000000000000) * (a 6%nat * a 1%nat) +
  (- (2345581 / 9350000000000000)) * (a 6%nat * a 2%nat) +
  (2478157549 / 243100000000000000) * (a 6%nat * a 3%nat) +
  (207631 / 442000000000000) * (a 6%nat * a 7%nat) +
  (- (617857 / 11050000000000000)) * (a 6%nat * a 8%nat) +
  (19 / 42500000000000) * (a 6%nat * a 9%nat) +
  (- (1 / 85000000000000)) * (a 6%nat * a 10%nat).

Lemma id10 a : q10 a - (velform 10 a - velform 10 (zero_free 4 6 a)) = e10 a.
Proof.
  unfold q10, e10. match goal with |- ?e - _ = ?e' => form_terms a e; form_terms a e' end.
  apply (id_of 10 4 6). vm_compute. reflexivity.
Qed.
Lemma bound10 a M : (forall i, (i <= 10)%nat -> Rabs (a i) <= M) -> Rabs (e10 a) <= / 10 ^ 6 * (M * M).
Proof.
  intros H. unfold e10. eapply Rle_trans; [abs_terms H|]. assert (0 <= M * M) by (apply Rle_0_sqr). lra.
Qed.
