(** QP solver: triangular solves, Cholesky, and the factorisation of H. *)
From Coq Require Import Lia Lra Psatz.
From Verif Require Import Vec SpecBezier ModelData ModelSolver ModelQp SpecQp ProofBezier ProofQp.
Open Scope R_scope.

(** * Triangular solves *)
Lemma backsub_ok U q : forall cnt r, (cnt <= q)%nat -> (forall k, (k < cnt)%nat -> U k k <> 0) ->
  (forall i, (cnt <= i)%nat -> backsub U q cnt r i = r i) /\
  (forall k, (k < cnt)%nat -> sumf (q - k) (fun i => U k (k + i)%nat * backsub U q cnt r (k + i)%nat) = r k).
Proof.
  induction cnt as [|cnt IH]; intros r Hq HU; cbn [backsub]; [split; [reflexivity|intros; lia]|].
  set (v := (_ / _)). destruct (IH (setv r cnt v) ltac:(lia)) as [I1 I2]; [intros; apply HU; lia|]. split.
  - intros i Hi. rewrite I1 by lia. apply setv_ne. lia.
  - intros k Hk. destruct (Nat.eq_dec k cnt) as [->|].
    + replace (q - cnt)%nat with (S (q - S cnt)) by lia. rewrite sumf_S_l, Nat.add_0_r, I1, setv_eq by lia.
      rewrite (sumf_ext _ _ (fun i => U cnt (S cnt + i)%nat * r (S cnt + i)%nat)).
      * unfold v. field. apply HU. lia.
      * intros i Hi. rewrite I1, setv_ne by lia. now replace (cnt + S i)%nat with (S cnt + i)%nat by lia.
    + rewrite I2 by lia. apply setv_ne. lia.
Qed.
Lemma backsub_solves U q r : (forall k, (k < q)%nat -> U k k <> 0) -> (forall k c, (c < k)%nat -> (k < q)%nat -> U k c = 0) ->
  forall k, (k < q)%nat -> sumf q (fun j => U k j * backsub U q q r j) = r k.
Proof.
  intros HU HL k Hk. destruct (backsub_ok U q q r (le_n q) HU) as [_ B]. specialize (B k Hk). set (x := backsub U q q r) in *. clearbody x. rewrite <- B.
  replace (sumf q) with (sumf (k + (q - k))) by (f_equal; lia). rewrite sumf_split. rewrite sumf_zero; [ring|]. intros i Hi. rewrite HL by lia. ring.
Qed.
Lemma fwdsub_ok L : forall cnt y, (forall k, (k < cnt)%nat -> L k k <> 0) ->
  (forall i, (cnt <= i)%nat -> fwdsub L cnt y i = y i) /\
  (forall k, (k < cnt)%nat -> sumf (S k) (fun j => L k j * fwdsub L cnt y j) = y k).
Proof.
  induction cnt as [|cnt IH]; intros y HL; cbn [fwdsub]; [split; [reflexivity|intros; lia]|].
  destruct (IH y) as [I1 I2]; [intros; apply HL; lia|]. set (v := (_ / _)). split.
  - intros i Hi. rewrite setv_ne by lia. apply I1. lia.
  - intros k Hk. destruct (Nat.eq_dec k cnt) as [->|].
    + cbn [sumf]. rewrite setv_eq. rewrite (sumf_ext _ _ (fun j => L cnt j * fwdsub L cnt y j)) by (intros; rewrite setv_ne by lia; reflexivity).
      unfold v. rewrite I1 by lia. field. apply HL. lia.
    + rewrite <- (I2 k) by lia. apply sumf_ext. intros j Hj. rewrite setv_ne by lia. reflexivity.
Qed.
(** a triangular system has one solution *)
Lemma upper_inj U q w : (forall k, (k < q)%nat -> U k k <> 0) -> (forall k c, (c < k)%nat -> (k < q)%nat -> U k c = 0) ->
  (forall k, (k < q)%nat -> sumf q (fun j => U k j * w j) = 0) -> forall k, (k < q)%nat -> w k = 0.
Proof.
  intros HU HL HW. assert (P : forall m k, (m <= q)%nat -> (q - m <= k < q)%nat -> w k = 0).
  { induction m as [|m IH]; intros k Hm Hk; [lia|]. destruct (Nat.eq_dec k (q - S m)) as [->|]; [|apply IH; lia].
    set (k := (q - S m)%nat) in *. specialize (HW k ltac:(lia)). rewrite (sumf_one q _ k) in HW.
    - apply Rmult_integral in HW. destruct HW as [HW|HW]; [exfalso; apply (HU k); [lia|exact HW]|exact HW].
    - lia.
    - intros j Hj Hne. destruct (Nat.lt_ge_cases j k); [rewrite HL by lia; ring|rewrite IH by lia; ring]. }
  intros k Hk. apply (P q); lia.
Qed.

(** * Cholesky *)
Definition qform (n : nat) (H : rmat) (v : rvec) : R := sumf n (fun i => v i * sumf n (fun j => H i j * v j)).
Definition schur (H : rmat) : rmat :=
  let h := sqrt (H 0%nat 0%nat) in fun i j => H (S i) (S j) - (H (S i) 0%nat / h) * (H (S j) 0%nat / h).
Lemma qform_schur n H v : (forall i j, (i < S n)%nat -> (j < S n)%nat -> H i j = H j i) -> 0 < H 0%nat 0%nat ->
  qform n (schur H) v =
  qform (S n) H (fun i => match i with O => - sumf n (fun j => H (S j) 0%nat * v j) / H 0%nat 0%nat | S i' => v i' end).
Proof.
  intros Hs Hp. unfold qform. set (b := sumf n (fun j => H (S j) 0%nat * v j)). set (v0 := - b / H 0%nat 0%nat).
  assert (Q : sqrt (H 0%nat 0%nat) * sqrt (H 0%nat 0%nat) = H 0%nat 0%nat) by (apply sqrt_def; lra).
  assert (Qn : sqrt (H 0%nat 0%nat) <> 0) by (intros E; rewrite E in Q; lra).
  rewrite sumf_S_l. rewrite sumf_S_l. cbn beta iota.
  rewrite (sumf_ext n (fun j => H 0%nat (S j) * v j) (fun j => H (S j) 0%nat * v j)) by (intros j Hj; rewrite (Hs 0%nat (S j)) by lia; reflexivity). fold b.
  rewrite (sumf_ext n (fun i => v i * sumf (S n) _) (fun i => v0 * (H (S i) 0%nat * v i) + v i * sumf n (fun j => H (S i) (S j) * v j))).
  2: { intros i Hi. rewrite sumf_S_l. cbn beta iota. ring. }
  rewrite sumf_plus, sumf_scal. fold b.
  rewrite (sumf_ext n (fun i => v i * sumf n (fun j => schur H i j * v j))
    (fun i => v i * sumf n (fun j => H (S i) (S j) * v j) - (b / H 0%nat 0%nat) * (H (S i) 0%nat * v i))).
  - rewrite sumf_minus, sumf_scal. fold b. unfold v0. field. lra.
  - intros i Hi. rewrite (sumf_ext n _ (fun j => H (S i) (S j) * v j - (H (S i) 0%nat / H 0%nat 0%nat) * (H (S j) 0%nat * v j))).
    + rewrite sumf_minus, sumf_scal. fold b. field. lra.
    + intros j Hj. unfold schur. rewrite <- Q at 3. field. exact Qn.
Qed.
Lemma chol_succeeds n : forall H, (forall i j, (i < n)%nat -> (j < n)%nat -> H i j = H j i) ->
  (forall v, (exists i, (i < n)%nat /\ v i <> 0) -> 0 < qform n H v) -> exists L, chol n H = Ok L.
Proof.
  induction n as [|n IH]; intros H Hs Hp; [eexists; reflexivity|]. cbn [chol].
  assert (P0 : 0 < H 0%nat 0%nat).
  { specialize (Hp (unit_vec 0)). assert (E : qform (S n) H (unit_vec 0) = H 0%nat 0%nat).
    { unfold qform. rewrite (sumf_one (S n) _ 0) by (try lia; intros j Hj Hne; unfold unit_vec; rewrite (proj2 (Nat.eqb_neq j 0)) by lia; ring).
      rewrite (sumf_one (S n) _ 0) by (try lia; intros j Hj Hne; unfold unit_vec; rewrite (proj2 (Nat.eqb_neq j 0)) by lia; ring). cbn. ring. }
    rewrite E in Hp. apply Hp. exists 0%nat. split; [lia|]. cbn. lra. }
  destruct (Rlt_dec _ _) as [_|]; [|contradiction]. destruct (IH (schur H)) as [L E].
  - intros i j Hi Hj. unfold schur. rewrite (Hs (S i) (S j)) by lia. ring.
  - intros v (i & Hi & Hv). rewrite qform_schur by (assumption || (intros; apply Hs; lia)). apply Hp. exists (S i). split; [lia|exact Hv].
  - unfold schur in E. rewrite E. eexists. reflexivity.
Qed.
Lemma chol_ok n : forall H L, (forall i j, (i < n)%nat -> (j < n)%nat -> H i j = H j i) -> chol n H = Ok L ->
  (forall i, (i < n)%nat -> 0 < L i i) /\ (forall i j, (i < j < n)%nat -> L i j = 0) /\
  (forall i j, (i < n)%nat -> (j < n)%nat -> H i j = sumf n (fun k => L i k * L j k)).
Proof.
  induction n as [|n IH]; intros H L Hs E; [repeat split; intros; lia|]. cbn [chol] in E.
  destruct (Rlt_dec _ _) as [P0|]; [|discriminate]. fold (schur H) in E.
  destruct (chol n _) as [L1| | ] eqn:E1; cbn [bind] in E; try discriminate. injection E as <-.
  destruct (IH (schur H) L1) as (D & T & M); [intros i j Hi Hj; unfold schur; rewrite (Hs (S i) (S j)) by lia; ring|exact E1|].
  assert (Q : sqrt (H 0%nat 0%nat) * sqrt (H 0%nat 0%nat) = H 0%nat 0%nat) by (apply sqrt_def; lra).
  assert (Qn : 0 < sqrt (H 0%nat 0%nat)) by (apply sqrt_lt_R0; exact P0).
  split; [|split].
  - intros [|i] Hi; [exact Qn|apply D; lia].
  - intros [|i] [|j] Hij; try lia; [reflexivity|apply T; lia].
  - intros i j Hi Hj. rewrite sumf_S_l. destruct i as [|i], j as [|j].
    + rewrite Q. rewrite sumf_zero; [ring|]. intros; ring.
    + rewrite sumf_zero by (intros; ring). rewrite (Hs 0%nat (S j)) by lia. field. lra.
    + rewrite sumf_zero by (intros; ring). field. lra.
    + rewrite <- M by lia. unfold schur. ring.
Qed.

Definition delta (i j : nat) : R := if Nat.eqb i j then 1 else 0.
Lemma delta_sum n i f : (i < n)%nat -> sumf n (fun j => delta i j * f j) = f i.
Proof.
  intros Hi. rewrite (sumf_one n _ i) by (try lia; intros j Hj Hne; unfold delta; rewrite (proj2 (Nat.eqb_neq i j)) by lia; ring).
  unfold delta. rewrite Nat.eqb_refl. ring.
Qed.
(** H J J' = 1 *)
Definition inverts (n : nat) (H J : rmat) : Prop :=
  forall i l, (i < n)%nat -> (l < n)%nat -> sumf n (fun j => H i j * gram n J j l) = delta i l.

Section Factor.
  Variables (n : nat) (H L : rmat).
  Hypothesis D : forall i, (i < n)%nat -> 0 < L i i.
  Hypothesis T : forall i j, (i < j < n)%nat -> L i j = 0.
  Hypothesis M : forall i j, (i < n)%nat -> (j < n)%nat -> H i j = sumf n (fun k => L i k * L j k).
  Let U := upper L.
  Let J := inv_upper n L.
  Let HU k : (k < n)%nat -> U k k <> 0.
  Proof. intros Hk. unfold U, upper. pose proof (D k Hk). lra. Qed.
  Let HL k c : (c < k)%nat -> (k < n)%nat -> U k c = 0.
  Proof. intros Hc Hk. unfold U, upper. apply T. lia. Qed.

  Lemma uj k c : (k < n)%nat -> sumf n (fun j => U k j * J j c) = delta k c.
  Proof. intros Hk. unfold J, inv_upper. fold U. rewrite (backsub_solves U n (unit_vec c) HU HL k Hk). reflexivity. Qed.
  Lemma ju i j : (i < n)%nat -> (j < n)%nat -> sumf n (fun k => J i k * U k j) = delta i j.
  Proof.
    intros Hi Hj. enough (Z : sumf n (fun k => J i k * U k j) - delta i j = 0) by lra.
    apply (upper_inj U n (fun i => sumf n (fun k => J i k * U k j) - delta i j) HU HL); [|exact Hi]. intros k Hk.
    rewrite (sumf_ext n _ (fun i => sumf n (fun c => U k i * J i c * U c j) - delta i j * U k i)).
    - rewrite sumf_minus, sumf_swap.
      rewrite (sumf_ext n _ (fun c => delta k c * U c j)).
      + rewrite delta_sum by exact Hk. rewrite (sumf_ext n _ (fun i => delta j i * U k i)).
        * rewrite delta_sum by exact Hj. ring.
        * intros c Hc. unfold delta. now rewrite Nat.eqb_sym.
      + intros c Hc. rewrite (sumf_scal_r n (U c j) (fun a => U k a * J a c)). rewrite uj by exact Hk. reflexivity.
    - intros a Ha. rewrite (sumf_ext n (fun c => U k a * J a c * U c j) (fun c => U k a * (J a c * U c j))) by (intros; ring). rewrite sumf_scal. ring.
  Qed.
  Lemma factor_inverts : inverts n H J.
  Proof.
    intros i l Hi Hl.
    rewrite (sumf_ext n _ (fun j => sumf n (fun k => U k i * U k j * gram n J j l))).
    2: { intros j Hj. rewrite M by assumption. rewrite <- sumf_scal_r. reflexivity. }
    rewrite sumf_swap.
    rewrite (sumf_ext n _ (fun k => U k i * J l k)).
    - rewrite (sumf_ext n _ (fun k => J l k * U k i)) by (intros; ring). rewrite ju by assumption. unfold delta. now rewrite Nat.eqb_sym.
    - intros k Hk. rewrite (sumf_ext n _ (fun j => U k i * sumf n (fun c => U k j * J j c * J l c))).
      + rewrite sumf_scal. f_equal. rewrite sumf_swap. rewrite (sumf_ext n _ (fun c => delta k c * J l c)).
        * apply delta_sum. exact Hk.
        * intros c Hc. rewrite (sumf_scal_r n (J l c) (fun j => U k j * J j c)). rewrite uj by exact Hk. reflexivity.
      + intros j Hj. unfold gram. rewrite <- !sumf_scal. apply sumf_ext. intros; ring.
  Qed.
  Lemma chol_solve_ok g : forall i, (i < n)%nat -> sumf n (fun j => H i j * chol_solve n L g j) = g i.
  Proof.
    intros i Hi. unfold chol_solve. fold U. set (y := fwdsub L n g).
    rewrite (sumf_ext n _ (fun j => sumf n (fun k => U k i * U k j * backsub U n n y j))).
    2: { intros j Hj. rewrite M by assumption. rewrite <- sumf_scal_r. reflexivity. }
    rewrite sumf_swap. rewrite (sumf_ext n _ (fun k => L i k * y k)).
    - destruct (fwdsub_ok L n g) as [_ F]; [intros k Hk; pose proof (D k Hk); lra|]. rewrite <- (F i Hi). fold y.
      replace n with (S i + (n - S i))%nat by lia. rewrite sumf_split. rewrite (sumf_zero (n - S i)); [ring|].
      intros k Hk. rewrite T by lia. ring.
    - intros k Hk. rewrite (sumf_ext n _ (fun j => U k i * (U k j * backsub U n n y j))) by (intros; ring).
      rewrite sumf_scal, (backsub_solves U n y HU HL k Hk). reflexivity.
  Qed.
  Lemma inv_diag i : (i < n)%nat -> J i i = / L i i.
  Proof.
    intros Hi. unfold J, inv_upper. fold U.
    (* the entries below the diagonal vanish *)
    assert (Z : forall k c, (c < k)%nat -> (k < n)%nat -> J k c = 0).
    { intros k c Hck Hk.
      assert (P : forall m k, (m <= n)%nat -> (n - m <= k < n)%nat -> (c < k)%nat -> J k c = 0).
      { induction m as [|m IH]; intros a Hm Ha Hca; [lia|]. destruct (Nat.eq_dec a (n - S m)) as [->|]; [|apply IH; lia].
        set (a := (n - S m)%nat) in *. pose proof (uj a c ltac:(lia)) as E. unfold delta in E. rewrite (proj2 (Nat.eqb_neq a c)) in E by lia.
        rewrite (sumf_one n _ a) in E.
        - apply Rmult_integral in E. destruct E as [E|E]; [exfalso; apply (HU a); [lia|exact E]|exact E].
        - lia.
        - intros j Hj Hne. destruct (Nat.lt_ge_cases j a); [rewrite HL by lia; ring|rewrite IH by lia; ring]. }
      apply (P n); lia. }
    pose proof (uj i i Hi) as E. unfold delta in E. rewrite Nat.eqb_refl in E. rewrite (sumf_one n _ i) in E.
    - change (backsub U n n (unit_vec i) i) with (J i i). pose proof (D i Hi) as Di. unfold U, upper in E. 
      apply Rmult_eq_reg_l with (L i i); [|lra]. rewrite E. field. lra.
    - exact Hi.
    - intros j Hj Hne. destruct (Nat.lt_ge_cases j i); [rewrite HL by lia; ring|rewrite Z by lia; ring].
  Qed.
End Factor.
