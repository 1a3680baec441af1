(** Concrete instances of the hypotheses of the theorems C72. *)
From Coq Require Import Lia Lra Psatz.
From Verif Require Import Vec SpecBezier ModelData ModelSolver ModelQp SpecQp SpecQp2 ProofBezier ProofQp ProofQp2 ProofQp3 ProofQp7 ProofQp8 ProofQp9 ProofQp10 ProofQp11 ProofQp18.
Import ListNotations.
Open Scope R_scope.

(** x0 + x1 = 1, x0 >= 1 and almost the same, x0 + 2^-60 x1 >= 1. *)
Definition budget := two [[1; 1]] [-1] [[1; 0]; [1; (/ 2) ^ 60]] [-1; -1].
Example ex_C72 : symmetric (eqp_of budget) /\ weighted (eqp_of budget) 1 /\
  (forall z, dot 2 (hmul (eqp_of budget) z) (hmul (eqp_of budget) z) <= 1 * 1 * dot 2 z z) /\ eqs_spread (eqp_of budget) 1 /\
  eps52 * (1 * 1) < 1 * 1 /\ eqs_apart (eqp_of budget) /\ e_E (eqp_of budget) = 1%nat /\ feasible (eqp_of budget) (vec_of [1; 0]).
Proof.
  pose proof eps_pos as EP. pose proof eps_small as ES. set (e := (/ 2) ^ 60). assert (E0 : 0 < e) by (apply pow_lt; lra).
  assert (E1 : e < 1).
  { unfold e. rewrite pow_inv. rewrite <- Rinv_1. apply Rinv_lt_contravar; [rewrite Rmult_1_l; apply pow_lt; lra|]. apply Rlt_pow_R1; [lra|lia]. }
  assert (HH : forall z i, (i < 2)%nat -> hmul (eqp_of budget) z i = z i).
  { intros z i Hi. unfold hmul, dot, budget, two, eqp_of. cbn [e_n e_H qp_H qp_g length sumf]. unfold mat_of. destruct i as [|[|i]]; [| |lia]; cbn [nth]; ring. }
  assert (HB : forall z, dot 2 (hmul (eqp_of budget) z) (hmul (eqp_of budget) z) <= 1 * 1 * dot 2 z z).
  { intros z. unfold dot. cbn [sumf]. rewrite !HH by lia. lra. }
  assert (HS : eqs_spread (eqp_of budget) 1).
  { intros a. unfold budget, two, eqp_of. cbn [e_n e_E e_CE qp_CE qp_ce0 qp_g length]. unfold dot, mat_of. cbn [sumf nth]. nra. }
  split; [intros i j Hi Hj; cbn in Hi, Hj; destruct i as [|[|i]]; [| |lia]; (destruct j as [|[|j]]; [| |lia]); reflexivity|].
  split; [split; [lra|split]|].
  - intros z. change (e_n (eqp_of budget)) with 2%nat. unfold dot. cbn [sumf]. rewrite !HH by lia. lra.
  - intros v w Hv Hw. change (e_n (eqp_of budget)) with 2%nat in *.
    assert (W0 : w 0%nat = v 0%nat) by (rewrite <- Hw, HH by lia; reflexivity). assert (W1 : w 1%nat = v 1%nat) by (rewrite <- Hw, HH by lia; reflexivity).
    unfold dot. cbn [sumf]. rewrite W0, W1.
    assert (B : (v 0%nat = 1) /\ 0 <= v 1%nat <= 1).
    { destruct Hv as [(i & Hi & ->)|(i & Hi & ->)]; cbn in Hi; unfold budget, two, eqp_of; cbn [e_CE e_CI qp_CE qp_CI]; unfold mat_of.
      - destruct i; [|lia]. cbn [nth]. lra.
      - destruct i as [|[|i]]; [| |lia]; cbn [nth]; fold e; lra. }
    destruct B as [-> [B1 B2]]. nra.
  - split; [exact HB|]. split; [exact HS|]. split; [lra|]. split; [apply (spread_apart (eqp_of budget) 1 1 HB HS); lra|]. split; [reflexivity|].
    split; intros i Hi; cbn in Hi; unfold eq_gap, slack, budget, two, eqp_of; cbn [e_n e_CE e_CI e_ce e_ci qp_g qp_CE qp_CI qp_ce0 qp_ci0 length]; unfold dot, mat_of, vec_of; cbn [sumf].
    + destruct i; [|lia]. cbn [nth]. ring.
    + destruct i as [|[|i]]; [| |lia]; cbn [nth]; lra.
Qed.
