(** Concrete inputs for the theorems of PropertiesQp.v. *)
From Coq Require Import Lia Lra List.
From Verif Require Import Vec SpecBezier ModelData ModelSolver ModelQp SpecQp ProofQp2 ProofQp3 ProofQp7 ProofQp8 ProofQp9 ProofQp10 ProofQp11 ProofQp12 PropertiesQp.
Import ListNotations.
Open Scope R_scope.

(** x0 = x1, x0 >= 1, x1 <= 3 (the problem [small] of ProofQp11.v): the hypotheses
    of C40 - C42 hold, the point (0, 0) that the solver starts from violates x0 >= 1. *)
Example ex_C40 : convex (eqp_of small) /\ well_scaled (eqp_of small) /\ (e_E (eqp_of small) <= e_n (eqp_of small))%nat /\
  ~ eqs_dependent (eqp_of small) /\ feasible (eqp_of small) (fun _ => 1) /\ ~ feasible (eqp_of small) (fun _ => 0) /\
  forall mem, exists st status, returns (eqp_of small) mem status st /\ (status = st_OPTIMAL \/ status = st_MAX_ITER) /\
    objective (eqp_of small) (q_x st) <= 1.
Proof.
  assert (HE : (e_E (eqp_of small) <= e_n (eqp_of small))%nat) by (cbn; lia).
  pose proof (two_convex [[1; -1]] [0] [[1; 0]; [0; -1]] [-1; 3] : convex (eqp_of small)) as HC.
  split; [exact HC|]. split; [apply small_well_scaled|]. split; [exact HE|]. split; [apply small_independent|].
  split; [apply small_feasible|]. split.
  - intros (_ & H). specialize (H 0%nat ltac:(cbn; lia)). revert H. unfold slack, dot, small, two. qp_cbn. cbn [sumf]. unfold mat_of, vec_of. cbn [nth]. lra.
  - intros mem. destruct (C41_terminates (eqp_of small) mem HC small_well_scaled HE) as (status & st & R1 & _).
    pose proof (C40_feasible_problem _ _ _ _ HC small_well_scaled HE R1 small_independent (ex_intro _ _ small_feasible)) as S1.
    exists st, status. split; [exact R1|]. split; [exact S1|].
    destruct (C40_lower_bound _ _ _ _ HC small_well_scaled HE R1 S1) as (_ & _ & B). specialize (B _ small_feasible).
    replace 1 with (objective (eqp_of small) (fun _ => 1)); [exact B|].
    unfold objective, hmul, dot, small, two. qp_cbn. cbn [sumf]. unfold mat_of, vec_of. cbn [nth]. lra.
Qed.

(** x0 >= 1 and almost the same, x0 + 2^-60 x1 >= 1: too close for [well_scaled], yet
    conditioned. *)
Definition almost := two [] [] [[1; 0]; [1; (/ 2) ^ 60]] [-1; -1].
Example ex_C41_conditioned : symmetric (eqp_of almost) /\ conditioned (eqp_of almost) 1 /\ e_E (eqp_of almost) = 0%nat /\
  ~ well_scaled (eqp_of almost).
Proof.
  pose proof eps_pos as EP. pose proof eps_small as ES. set (e := (/ 2) ^ 60). assert (E0 : 0 < e) by (apply pow_lt; lra).
  assert (E1 : e < eps52).
  { unfold e, eps52. replace ((/ 2) ^ 60) with (/ 2 ^ 52 * / 256) by (rewrite pow_inv; simpl; field). fold eps52. lra. }
  assert (HH : forall z i, (i < 2)%nat -> hmul (eqp_of almost) z i = z i).
  { intros z i Hi. unfold hmul, dot, almost, two. qp_cbn. cbn [sumf]. unfold mat_of. destruct i as [|[|i]]; [| |lia]; cbn [nth]; ring. }
  split; [|split; [split; [lra|split]|split; [reflexivity|]]].
  - intros i j Hi Hj. cbn in Hi, Hj. destruct i as [|[|i]]; [| |lia]; (destruct j as [|[|j]]; [| |lia]); reflexivity.
  - intros z. change (e_n (eqp_of almost)) with 2%nat. unfold dot. cbn [sumf]. rewrite !HH by lia. lra.
  - intros v [(i & Hi & _)|(i & Hi & ->)]; [cbn in Hi; lia|]. cbn in Hi. unfold almost, two. qp_cbn. unfold dot, mat_of. cbn [sumf].
    destruct i as [|[|i]]; [| |lia]; cbn [nth]; fold e; nra.
  - intros W. assert (R1 : is_row (eqp_of almost) (e_CI (eqp_of almost) 1%nat)) by (right; exists 1%nat; split; [cbn; lia|reflexivity]).
    assert (D : direction (eqp_of almost) (e_CI (eqp_of almost) 1%nat) (fun i => match i with 1%nat => e | _ => 0 end)).
    { exists (fun _ => 0), (fun k => match k with O => 1 | _ => 0 end). split; [|split].
      - intros i Hi. cbn in Hi. rewrite HH by exact Hi. unfold almost, two. qp_cbn. cbn [sumf]. unfold mat_of. destruct i as [|[|i]]; [| |lia]; cbn [nth]; fold e; ring.
      - intros k Hk. cbn in Hk. lia.
      - intros k Hk B. cbn in Hk. destruct k as [|[|k]]; [|congruence|lia]. unfold dot, almost, two. qp_cbn. cbn [sumf]. unfold mat_of. cbn [nth]. ring. }
    destruct (W _ _ R1 D) as [Z|(P & _)].
    + specialize (Z 1%nat ltac:(cbn; lia)). cbn in Z. lra.
    + change (e_n (eqp_of almost)) with 2%nat in P. unfold dot in P. cbn [sumf] in P. nra.
Qed.

(** Only the equality x0 = x1 + 2: the solver finds (1, -1). *)
Definition shifted := two [[1; -1]] [-2] [] [].
Lemma shifted_well_scaled : well_scaled (eqp_of shifted).
Proof.
  pose proof eps_pos as EP. pose proof eps_small as ES. assert (EE : eps52 * eps52 < / 10000) by nra.
  assert (HH : forall z i, (i < 2)%nat -> hmul (eqp_of shifted) z i = z i).
  { intros z i Hi. unfold hmul, dot, shifted, two. qp_cbn. cbn [sumf]. unfold mat_of. destruct i as [|[|i]]; [| |lia]; cbn [nth]; ring. }
  assert (Rows : forall v, is_row (eqp_of shifted) v -> v 0%nat = 1 /\ v 1%nat = -1).
  { intros v [(i & Hi & ->)|(i & Hi & ->)]; cbn in Hi; [|lia]. destruct i; [|lia]. unfold shifted, two. qp_cbn. unfold mat_of. split; reflexivity. }
  intros v z Hv (a & b & D1 & D2 & _). destruct (Rows v Hv) as [V0 V1].
  pose proof (D1 0%nat ltac:(cbn; lia)) as Z0. pose proof (D1 1%nat ltac:(cbn; lia)) as Z1. rewrite HH in Z0, Z1 by lia.
  pose proof (D2 0%nat ltac:(cbn; lia)) as C0. revert Z0 Z1 C0. unfold dot at 1. unfold shifted, two. qp_cbn. cbn [sumf]. unfold mat_of. cbn [nth]. intros Z0 Z1 C0.
  fold (two [[1; -1]] [-2] [] []). fold shifted.
  destruct (Req_dec (a 0%nat) 0) as [A0|N].
  - right. assert (E0 : z 0%nat = 1) by lra. assert (E1 : z 1%nat = -1) by lra. unfold dot. cbn [e_n eqp_of qp_g length sumf shifted two].
    rewrite E0, E1, V0, V1. split; [lra|]. split; [lra|]. intros v' w Hv' Hw. destruct (Rows v' Hv') as [V0' V1'].
    pose proof (Hw 0%nat ltac:(cbn; lia)) as W0. pose proof (Hw 1%nat ltac:(cbn; lia)) as W1. rewrite (HH w 0%nat ltac:(lia)) in W0. rewrite (HH w 1%nat ltac:(lia)) in W1.
    rewrite W0, W1, V0', V1'. nra.
  - left. specialize (C0 N). intros i Hi. cbn in Hi. destruct i as [|[|i]]; [lra|lra|lia].
Qed.
Example ex_C40_equalities : forall mem, exists st, returns (eqp_of shifted) mem st_OPTIMAL st /\ q_x st 0%nat = 1 /\ q_x st 1%nat = -1.
Proof.
  intros mem. assert (ND : ~ eqs_dependent (eqp_of shifted)).
  { intros (c & (k & Hk & Ck) & D). cbn in Hk. destruct k; [|lia]. specialize (D 0%nat ltac:(cbn; lia)). revert D.
    unfold shifted, two. qp_cbn. cbn [sumf]. unfold mat_of. cbn [nth]. lra. }
  destruct (C40_equalities (eqp_of shifted) mem (two_convex _ _ _ _) shifted_well_scaled ltac:(cbn; lia) (proj1 (Nat.ltb_lt 1 DEFAULT_MAX_ITER) eq_refl) eq_refl ND) as (st & R1 & H1 & _ & H2).
  exists st. split; [exact R1|].
  assert (Y : eqs_hold (eqp_of shifted) (vec_of [1; -1])).
  { intros i Hi. cbn in Hi. destruct i; [|lia]. unfold eq_gap, dot, shifted, two. qp_cbn. cbn [sumf]. unfold mat_of, vec_of. cbn [nth]. lra. }
  destruct (H2 _ Y) as [B U].
  assert (G : objective (eqp_of shifted) (vec_of [1; -1]) <= objective (eqp_of shifted) (q_x st)).
  { specialize (H1 0%nat ltac:(cbn; lia)). revert H1. unfold eq_gap, objective, hmul, dot, shifted, two. qp_cbn. cbn [sumf]. unfold mat_of, vec_of. cbn [nth]. intros H1.
    pose proof (Rle_0_sqr (q_x st 0%nat - 1)) as S0. unfold Rsqr in S0. nra. }
  split; [rewrite <- (U G 0%nat); [reflexivity|cbn; lia]|rewrite <- (U G 1%nat); [reflexivity|cbn; lia]].
Qed.

(** The refutations apply to the numbers 2^13 (Hessian 2^26) and 2^52. *)
Example ex_C40_refuted : 1 <= eps52 * (2 ^ 13 * 2 ^ 13 * (2 ^ 13 * 2 ^ 13)) /\ 100 * eps52 * 2 ^ 13 < 1 /\ 0 < 2 ^ 13.
Proof.
  assert (P : 2 ^ 13 * 2 ^ 13 * (2 ^ 13 * 2 ^ 13) = 2 ^ 52) by (rewrite <- !pow_add; reflexivity).
  assert (P1 : 2 ^ 52 = 2 ^ 13 * 2 ^ 39) by (rewrite <- pow_add; reflexivity).
  assert (P2 : 0 < 2 ^ 13) by (apply pow_lt; lra). assert (P3 : 0 < 2 ^ 52) by (apply pow_lt; lra). assert (P4 : 100 < 2 ^ 39) by (simpl; lra).
  unfold eps52. rewrite P, Rinv_l by lra. split; [lra|]. split; [|exact P2].
  rewrite P1. replace (100 * / (2 ^ 13 * 2 ^ 39) * 2 ^ 13) with (100 * / 2 ^ 39) by (field; lra).
  apply Rmult_lt_reg_r with (2 ^ 39); [lra|]. rewrite Rmult_assoc, Rinv_l by lra. lra.
Qed.
Example ex_C41_refuted : 1 <= eps52 * 2 ^ 52.
Proof. unfold eps52. rewrite Rinv_l; [lra|]. apply pow_nonzero. lra. Qed.
Example ex_C42_no_way_back : let q := eqp_of (two [[2 ^ 52; 0]] [- 2 ^ 52] [[0; 1]; [0; 0]] [-1; 1]) in
  (0 < e_E q)%nat /\ forall mem, exists st, execution q mem 2 = Ok (Next L2a st).
Proof. intros q. split; [cbn; lia|]. intros mem. apply (C42_restore_refuted (2 ^ 52) mem ex_C41_refuted). Qed.
Example ex_C42_many : let q := eqp_of (one 1 [[1]; [1]] [-1; -1] [] []) in (e_n q < e_E q)%nat.
Proof. cbn. lia. Qed.

(** [small] has 2 inequalities and one degree of freedom: three active sets. *)
Example ex_C59 : (subsets (e_I (eqp_of small)) (e_n (eqp_of small) - e_E (eqp_of small)) = 3)%nat /\
  forall mem, exists st, returns (eqp_of small) mem st_OPTIMAL st.
Proof.
  split; [reflexivity|]. intros mem. pose proof (two_convex [[1; -1]] [0] [[1; 0]; [0; -1]] [-1; 3] : convex (eqp_of small)) as HC.
  destruct (C59_decides (eqp_of small) mem HC small_well_scaled ltac:(cbn; lia) (proj1 (Nat.ltb_lt 3 DEFAULT_MAX_ITER) eq_refl) small_independent) as [H|(st & _ & H)]; [exact H|].
  exfalso. exact (H _ small_feasible).
Qed.
