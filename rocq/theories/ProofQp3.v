(** QP solver: the step directions and the invariant. *)
From Coq Require Import Lia Lra Psatz.
From Verif Require Import Vec SpecBezier ModelData ModelSolver ModelQp SpecQp ProofBezier ProofQp ProofQp2.
Open Scope R_scope.

Lemma sumf_nonzero n f : sumf n f <> 0 -> exists i, (i < n)%nat /\ f i <> 0.
Proof.
  induction n as [|n IH]; cbn [sumf]; intros H; [lra|]. destruct (Req_dec (f n) 0) as [E|E]; [|exists n; split; [lia|exact E]].
  destruct IH as (i & Hi & Hf); [lra|]. exists i. split; [lia|exact Hf].
Qed.
Lemma eps_pos : 0 < eps52.
Proof. unfold eps52. apply Rinv_0_lt_compat. apply pow_lt. lra. Qed.

Lemma hjd n H J v i : inverts n H J -> (i < n)%nat ->
  sumf n (fun j => H i j * sumf n (fun c => J j c * compute_d n J v c)) = v i.
Proof.
  intros HI Hi. rewrite (sumf_ext n _ (fun j => sumf n (fun l => H i j * gram n J j l * v l))).
  - rewrite sumf_swap. rewrite (sumf_ext n _ (fun l => delta i l * v l)); [apply delta_sum; exact Hi|].
    intros l Hl. rewrite (sumf_scal_r n (v l) (fun j => H i j * gram n J j l)). rewrite HI by assumption. reflexivity.
  - intros j Hj. rewrite (sumf_ext n (fun l => H i j * gram n J j l * v l) (fun l => H i j * (gram n J j l * v l))) by (intros; ring).
    rewrite sumf_scal. f_equal. unfold compute_d, gram.
    rewrite (sumf_ext n _ (fun c => sumf n (fun l => J j c * J l c * v l))).
    + rewrite sumf_swap. apply sumf_ext. intros l Hl. rewrite (sumf_scal_r n (v l) (fun c => J j c * J l c)). reflexivity.
    + intros c Hc. rewrite <- sumf_scal. apply sumf_ext. intros; ring.
Qed.
Lemma factored_ext n N N' iq Rm J : (forall k, (k < iq)%nat -> N k = N' k) -> factored n N iq Rm J -> factored n N' iq Rm J.
Proof. intros H (F1 & F2 & F3). split; [|split; assumption]. intros k c Hk Hc. rewrite <- H by exact Hk. apply F1; assumption. Qed.

Section Step.
  Variables (q : eqp) (N : nat -> rvec) (iq : nat) (Rm J : rmat) (np : rvec).
  Let n := e_n q.
  Hypothesis HI : inverts n (e_H q) J.
  Hypothesis HF : factored n N iq Rm J.
  Hypothesis Hn : (iq <= n)%nat.
  Let d := compute_d n J np.
  Let z := update_z n J d iq.
  Let r := update_r Rm d iq.
  Let e : rvec := fun c => if (c <? iq)%nat then 0 else d c.

  Lemma z_full j : z j = sumf n (fun c => J j c * e c).
  Proof.
    unfold z, update_z. replace (sumf n) with (sumf (iq + (n - iq))) by (f_equal; lia). rewrite sumf_split, (sumf_zero iq).
    - rewrite Rplus_0_l. apply sumf_ext. intros c Hc. unfold e. now rewrite (proj2 (Nat.ltb_ge _ _)) by lia.
    - intros c Hc. unfold e. rewrite (proj2 (Nat.ltb_lt _ _)) by lia. ring.
  Qed.
  Lemma r_solves k : (k < iq)%nat -> sumf iq (fun j => Rm k j * r j) = d k.
  Proof.
    intros Hk. destruct HF as (_ & F2 & F3). unfold r, update_r. apply backsub_solves; [exact F3|intros a c Hc Ha; apply F2; exact Hc|exact Hk].
  Qed.
  Lemma d_rest c : (c < n)%nat -> compute_d n J (fun i => np i - sumf iq (fun k => r k * N k i)) c = e c.
  Proof.
    intros Hc. destruct HF as (F1 & _ & _).
    assert (E1 : compute_d n J (fun i => np i - sumf iq (fun k => r k * N k i)) c = d c - sumf iq (fun k => r k * compute_d n J (N k) c)).
    { unfold d, compute_d. rewrite (sumf_ext n _ (fun i => J i c * np i - sumf iq (fun k => J i c * (r k * N k i)))) by (intros; rewrite sumf_scal; ring).
      rewrite sumf_minus, sumf_swap. f_equal. apply sumf_ext. intros k _. rewrite <- sumf_scal. apply sumf_ext. intros; ring. }
    rewrite E1. unfold e. destruct (Nat.ltb_spec c iq) as [Hq|Hq].
    - rewrite <- (r_solves c Hq). rewrite <- sumf_minus. apply sumf_zero. intros k Hk. rewrite F1 by assumption.
      rewrite (proj2 (Nat.ltb_lt _ _)) by lia. ring.
    - rewrite sumf_zero; [ring|]. intros k Hk. rewrite F1 by assumption. rewrite (proj2 (Nat.ltb_ge _ _)) by lia. ring.
  Qed.
  Lemma step_Hz i : (i < n)%nat -> hmul q z i = np i - sumf iq (fun k => r k * N k i).
  Proof.
    intros Hi. rewrite <- (hjd n (e_H q) J (fun i => np i - sumf iq (fun k => r k * N k i)) i HI Hi).
    unfold hmul, dot. fold n. apply sumf_ext. intros j Hj. f_equal. rewrite z_full. apply sumf_ext. intros c Hc. now rewrite d_rest.
  Qed.
  Lemma dot_z v : dot n v z = sumf (n - iq) (fun c => d (iq + c)%nat * compute_d n J v (iq + c)%nat).
  Proof.
    unfold dot, z, update_z. rewrite (sumf_ext n _ (fun i => sumf (n - iq) (fun c => d (iq + c)%nat * (J i (iq + c)%nat * v i)))).
    - rewrite sumf_swap. apply sumf_ext. intros c _. rewrite sumf_scal. reflexivity.
    - intros i Hi. rewrite <- sumf_scal. apply sumf_ext. intros; ring.
  Qed.
  Lemma step_orth k : (k < iq)%nat -> dot n (N k) z = 0.
  Proof.
    intros Hk. rewrite dot_z. apply sumf_zero. intros c Hc. destruct HF as (F1 & _ & _). rewrite F1 by lia.
    rewrite (proj2 (Nat.ltb_ge _ _)) by lia. ring.
  Qed.
  Lemma step_npz : dot n np z = sumf (n - iq) (fun c => d (iq + c)%nat * d (iq + c)%nat).
  Proof. rewrite dot_z. reflexivity. Qed.
  Lemma step_zero i : dot n np z = 0 -> z i = 0.
  Proof.
    rewrite step_npz. intros E. pose proof (sumf_sq_zero _ _ E) as Z. unfold z, update_z. apply sumf_zero. intros c Hc. rewrite Z by exact Hc. ring.
  Qed.
  Lemma step_zHz : dot n z (hmul q z) = dot n np z.
  Proof.
    rewrite (dot_ext n z z (hmul q z) (fun i => np i - sumf iq (fun k => r k * N k i))) by (auto; intros; apply step_Hz; assumption).
    rewrite dot_sym. unfold dot. rewrite (sumf_ext n _ (fun i => np i * z i - sumf iq (fun k => r k * (N k i * z i)))).
    - rewrite sumf_minus, sumf_swap. rewrite (sumf_zero iq); [ring|]. intros k Hk. rewrite sumf_scal.
      pose proof (step_orth k Hk) as O. unfold dot in O. rewrite O. ring.
    - intros i Hi. rewrite Rmult_minus_distr_r. f_equal. rewrite <- sumf_scal_r. apply sumf_ext. intros; ring.
  Qed.
  Lemma step_bound : exists w, (forall i, (i < n)%nat -> hmul q w i = np i) /\ dot n np z <= dot n np w.
  Proof.
    exists (fun j => sumf n (fun c => J j c * d c)). split.
    - intros i Hi. apply (hjd n (e_H q) J np i HI Hi).
    - rewrite step_npz. unfold dot.
      rewrite (sumf_ext n _ (fun i => sumf n (fun c => d c * (J i c * np i)))) by (intros; rewrite <- sumf_scal; apply sumf_ext; intros; ring).
      rewrite sumf_swap. rewrite (sumf_ext n _ (fun c => d c * d c)) by (intros; rewrite sumf_scal; reflexivity).
      replace (sumf n (fun c => d c * d c)) with (sumf (iq + (n - iq)) (fun c => d c * d c)) by (f_equal; lia).
      rewrite sumf_split. pose proof (sumf_sq_nonneg iq d). lra.
  Qed.
End Step.

(** * The invariant *)
Definition normal (q : eqp) (a : Z) : rvec := if (a <? 0)%Z then e_CE q (Z.to_nat (- a - 1)) else e_CI q (Z.to_nat a).
Definition offset (q : eqp) (a : Z) : R := if (a <? 0)%Z then e_ce q (Z.to_nat (- a - 1)) else e_ci q (Z.to_nat a).
Lemma normal_eq q k : normal q (- Z.of_nat k - 1) = e_CE q k.
Proof. unfold normal. rewrite (proj2 (Z.ltb_lt _ _)) by lia. f_equal. lia. Qed.
Lemma normal_in q k : normal q (Z.of_nat k) = e_CI q k.
Proof. unfold normal. rewrite (proj2 (Z.ltb_ge _ _)) by lia. f_equal. lia. Qed.
Lemma offset_eq q k : offset q (- Z.of_nat k - 1) = e_ce q k.
Proof. unfold offset. rewrite (proj2 (Z.ltb_lt _ _)) by lia. f_equal. lia. Qed.
Lemma offset_in q k : offset q (Z.of_nat k) = e_ci q k.
Proof. unfold offset. rewrite (proj2 (Z.ltb_ge _ _)) by lia. f_equal. lia. Qed.

Record inv (q : eqp) (e : nat) (extra : R) (ip : nat) (st : qst) : Prop := Inv {
  i_E : (e <= e_E q)%nat;
  i_e : (e <= q_iq st)%nat;
  i_n : (q_iq st <= e_n q)%nat;
  i_inv : inverts (e_n q) (e_H q) (q_J st);
  i_fac : factored (e_n q) (fun k => normal q (q_A st k)) (q_iq st) (q_R st) (q_J st);
  i_eq : forall k, (k < e)%nat -> q_A st k = (- Z.of_nat k - 1)%Z;
  i_in : forall k, (e <= k < q_iq st)%nat -> exists j, (j < e_I q)%nat /\ q_A st k = Z.of_nat j;
  i_inj : forall k k', (e <= k < q_iq st)%nat -> (e <= k' < q_iq st)%nat -> q_A st k = q_A st k' -> k = k';
  i_Rn1 : 1 <= q_Rn st;
  i_Rn : q_Rn st = 1 \/ exists v w, is_row q v /\ (forall i, (i < e_n q)%nat -> hmul q w i = v i) /\ q_Rn st * q_Rn st <= dot (e_n q) v w;
  i_st : forall i, (i < e_n q)%nat ->
    hmul q (q_x st) i + e_g q i = sumf (q_iq st) (fun k => q_u st k * normal q (q_A st k) i) + extra * e_CI q ip i;
  i_u : forall k, (e <= k < q_iq st)%nat -> 0 <= q_u st k;
  i_act : forall k, (k < q_iq st)%nat -> dot (e_n q) (normal q (q_A st k)) (q_x st) + offset q (q_A st k) = 0;
  i_f : q_f st = objective q (q_x st);
  i_iai : forall i, (i < e_I q)%nat -> q_iai st i = (-1)%Z -> exists k, (e <= k < q_iq st)%nat /\ q_A st k = Z.of_nat i
}.

(** The step direction is a direction in the sense of the specification. *)
Lemma step_direction q e extra ip st np : inv q e extra ip st ->
  direction q np (update_z (e_n q) (q_J st) (compute_d (e_n q) (q_J st) np) (q_iq st)).
Proof.
  intros I. set (n := e_n q). set (iq := q_iq st). set (A := q_A st). set (d := compute_d n (q_J st) np). set (z := update_z n (q_J st) d iq).
  set (r := update_r (q_R st) d iq).
  pose proof (i_e _ _ _ _ _ I) as He. fold iq in He. pose proof (i_E _ _ _ _ _ I) as HE.
  exists (fun k => if (k <? e)%nat then r k else 0).
  exists (fun j => sumf (iq - e) (fun k => if (A (e + k)%nat =? Z.of_nat j)%Z then r (e + k)%nat else 0)).
  split; [|split].
  - intros i Hi. pose proof (step_Hz q _ _ _ _ np (i_inv _ _ _ _ _ I) (i_fac _ _ _ _ _ I) (i_n _ _ _ _ _ I) i Hi) as EH.
    cbv beta in EH. fold n d r iq in EH. fold z r in EH. rewrite EH. clear EH.
    replace (sumf iq) with (sumf (e + (iq - e))) by (f_equal; lia). rewrite sumf_split.
    replace (sumf (e_E q)) with (sumf (e + (e_E q - e))) by (f_equal; lia). rewrite sumf_split.
    rewrite (sumf_ext e (fun k => (if (k <? e)%nat then r k else 0) * e_CE q k i) (fun k => r k * normal q (q_A st k) i)).
    2: { intros k Hk. rewrite (proj2 (Nat.ltb_lt _ _)) by lia. rewrite (i_eq _ _ _ _ _ I) by exact Hk. now rewrite normal_eq. }
    rewrite (sumf_zero (e_E q - e)).
    2: { intros k Hk. rewrite (proj2 (Nat.ltb_ge _ _)) by lia. ring. }
    enough (E : sumf (iq - e) (fun k => r (e + k)%nat * normal q (q_A st (e + k)%nat) i) =
      sumf (e_I q) (fun j => sumf (iq - e) (fun k => if (A (e + k)%nat =? Z.of_nat j)%Z then r (e + k)%nat else 0) * e_CI q j i)) by (fold r A in E |- *; fold r A; lra).
    rewrite (sumf_ext (e_I q) _ (fun j => sumf (iq - e) (fun k => (if (A (e + k)%nat =? Z.of_nat j)%Z then r (e + k)%nat else 0) * e_CI q j i))) by (intros; rewrite sumf_scal_r; reflexivity).
    rewrite sumf_swap. apply sumf_ext. intros k Hk. destruct (i_in _ _ _ _ _ I (e + k)%nat) as (j & Hj & EA); [fold iq; lia|].
    rewrite (sumf_one (e_I q) _ j Hj).
    + unfold A. rewrite EA, Z.eqb_refl, normal_in. reflexivity.
    + intros j' Hj' Hne. unfold A. rewrite EA. rewrite (proj2 (Z.eqb_neq _ _)) by lia. ring.
  - intros k Hk Hr. destruct (Nat.ltb_spec k e) as [Hke|]; [|exfalso; apply Hr; reflexivity].
    pose proof (step_orth q _ _ _ _ np (i_fac _ _ _ _ _ I) (i_n _ _ _ _ _ I) k ltac:(fold iq; lia)) as O. fold n d iq in O. fold z in O.
    cbv beta in O. rewrite (i_eq _ _ _ _ _ I) in O by exact Hke. rewrite normal_eq in O. exact O.
  - intros j Hj Hs. apply sumf_nonzero in Hs. destruct Hs as (k & Hk & Hr).
    destruct (Z.eqb_spec (A (e + k)%nat) (Z.of_nat j)) as [EA|]; [|exfalso; apply Hr; reflexivity].
    pose proof (step_orth q _ _ _ _ np (i_fac _ _ _ _ _ I) (i_n _ _ _ _ _ I) (e + k)%nat ltac:(fold iq; lia)) as O. fold n d iq in O. fold z in O.
    cbv beta in O. unfold A in EA. rewrite EA, normal_in in O. exact O.
Qed.

(** Under well_scaled, the solver's tests tell whether the direction is zero. *)
Lemma step_scaled q e extra ip st np : well_scaled q -> inv q e extra ip st -> is_row q np ->
  let z := update_z (e_n q) (q_J st) (compute_d (e_n q) (q_J st) np) (q_iq st) in
  ((forall i, z i = 0) /\ dot (e_n q) np z = 0 /\ dot (e_n q) z z = 0) \/
  (eps52 < dot (e_n q) z z /\ 0 < dot (e_n q) np z /\ (eps52 * q_Rn st) * (eps52 * q_Rn st) < dot (e_n q) np z /\ (q_iq st < e_n q)%nat).
Proof.
  intros WS I Hr z. destruct (WS np z Hr (step_direction _ _ _ _ _ np I)) as [Z|(Z1 & Z2 & Z3)].
  - left. assert (E0 : dot (e_n q) np z = 0) by (apply sumf_zero; intros i Hi; rewrite Z by exact Hi; ring).
    assert (Z' : forall i, z i = 0) by (intros i; apply (step_zero q (q_iq st) (q_J st) np i); exact E0).
    split; [exact Z'|]. split; [exact E0|]. apply sumf_zero. intros i Hi. rewrite Z' by exact Hi. ring.
  - right. pose proof eps_pos as P. split; [exact Z1|]. split; [nra|]. split.
    + destruct (i_Rn _ _ _ _ _ I) as [->|(v & w & Hv & Hw & B)]; [lra|]. specialize (Z3 v w Hv Hw).
      apply Rle_lt_trans with (eps52 * eps52 * dot (e_n q) v w); [|exact Z3].
      replace (eps52 * q_Rn st * (eps52 * q_Rn st)) with (eps52 * eps52 * (q_Rn st * q_Rn st)) by ring. apply Rmult_le_compat_l; [nra|exact B].
    + pose proof (i_n _ _ _ _ _ I). destruct (Nat.eq_dec (q_iq st) (e_n q)) as [E|]; [|lia]. exfalso.
      assert (E0 : dot (e_n q) z z = 0); [|pose proof eps_pos; lra]. apply sumf_zero. intros i Hi. unfold z, update_z. rewrite E, Nat.sub_diag. cbn [sumf]. ring.
Qed.
