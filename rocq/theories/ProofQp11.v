(** QP solver: problems with equalities only, and a well-scaled problem. *)
From Coq Require Import Lia Lra List.
From Verif Require Import Vec SpecBezier ModelData ModelSolver ModelQp SpecQp ProofBezier ProofQp ProofQp3 ProofQp4 ProofQp5 ProofQp6 ProofQp7 ProofQp8.
Import ListNotations.
Open Scope R_scope.

Section Equalities.
  Variables (q : eqp) (mem : qst).
  Hypotheses (HC : convex q) (HW : well_scaled q) (HE : (e_E q <= e_n q)%nat).
  Lemma c40_equalities : (1 < e_max q)%nat -> e_I q = 0%nat -> ~ eqs_dependent q ->
    exists st, returns q mem st_OPTIMAL st /\ eqs_hold q (q_x st) /\ q_f st = objective q (q_x st) /\
      forall y, eqs_hold q y -> objective q (q_x st) <= objective q y /\
        (objective q y <= objective q (q_x st) -> forall k, (k < e_n q)%nat -> y k = q_x st k).
  Proof.
    intros HM HI ND. destruct (init_ok q mem HC) as (L & st0 & _ & CL & EI & Hq & I0 & Hi & Ht).
    destruct (add_eq_ok q (proj1 HC) HW HE (e_E q) 0 st0 ltac:(lia) Hq I0) as [(st & _ & D)|(st & EA & I & Hi' & Ht')]; [contradiction|].
    assert (R1 : exists st', returns q mem st_OPTIMAL st').
    { destruct (step_L1_ok q st I) as [(st' & E & _)|[(st' & E & _)|(st' & E & _ & V & _)]].
      - exfalso. unfold step_L1 in E. cbv zeta in E. rewrite Hi', Hi in E. destruct (Nat.leb_spec (e_max q) 1) as [|_]; [lia|].
        destruct (mark _ _ _ _ _); cbn [bind] in E; try discriminate. destruct (Rle_dec _ _); discriminate.
      - exists st', 1%nat. unfold execution. rewrite EI, EA. exact E.
      - exfalso. assert (V0 : violation q (q_x st') = 0) by (unfold violation; rewrite HI; reflexivity).
        pose proof (tolerance_nonneg q L CL) as T0. rewrite V0, Ht', Ht in V. lra. }
    destruct R1 as (st' & R1). exists st'. destruct (c40_optimal q mem HC HW HE st' R1) as (P1 & P2 & _ & P3).
    split; [exact R1|]. split; [exact P1|]. split; [exact P2|]. intros y Y. apply P3; [exact Y|]. rewrite HI. intros j Hj. lia.
  Qed.
  Lemma c40_solves st status : returns q mem status st -> ~ eqs_dependent q -> (exists y, feasible q y) ->
    status = st_OPTIMAL \/ status = st_MAX_ITER.
  Proof.
    intros H ND (y & Y). destruct (c40_ends q mem HC HW HE) as (s' & st' & (k & R') & Hs).
    destruct (returns_unique _ _ _ _ _ _ _ H R') as [<- <-]. destruct Hs as [Hs|[Hs|[Hs|Hs]]]; [left; exact Hs|right; exact Hs|exfalso..]; subst status.
    - exact (c40_unbounded q mem HC HW HE st H y Y).
    - exact (ND (c40_redundant q mem HC HW HE st H)).
  Qed.
End Equalities.

(** * x0 = x1, x0 >= 1, x1 <= 3, nearest to the origin *)
Definition small := two [[1; -1]] [0] [[1; 0]; [0; -1]] [-1; 3].
Lemma small_hmul z i : (i < 2)%nat -> hmul (eqp_of small) z i = z i.
Proof.
  intros Hi. unfold hmul, dot, small, two. qp_cbn. cbn [sumf]. unfold mat_of. destruct i as [|[|i]]; [| |lia]; cbn [nth]; ring.
Qed.
Lemma small_well_scaled : well_scaled (eqp_of small).
Proof.
  pose proof eps_pos as EP. pose proof eps_small as ES.
  assert (EE : eps52 * eps52 < / 10000) by nra.
  assert (Rows : forall v, is_row (eqp_of small) v -> (v 0%nat = 1 /\ v 1%nat = -1) \/ (v 0%nat = 1 /\ v 1%nat = 0) \/ (v 0%nat = 0 /\ v 1%nat = -1)).
  { intros v [(i & Hi & ->)|(i & Hi & ->)]; cbn in Hi; unfold small, two; qp_cbn; unfold mat_of.
    - destruct i; [|lia]. cbn [nth]. left. split; reflexivity.
    - destruct i as [|[|i]]; [| |lia]; cbn [nth]; right; [left|right]; split; reflexivity. }
  intros v z Hv (a & b & D1 & D2 & D3).
  pose proof (D1 0%nat ltac:(cbn; lia)) as Z0. pose proof (D1 1%nat ltac:(cbn; lia)) as Z1.
  rewrite small_hmul in Z0, Z1 by lia.
  pose proof (D2 0%nat ltac:(cbn; lia)) as C0. pose proof (D3 0%nat ltac:(cbn; lia)) as C1. pose proof (D3 1%nat ltac:(cbn; lia)) as C2.
  unfold dot in C0, C1, C2. revert Z0 Z1 C0 C1 C2.
  unfold small, two. qp_cbn. cbn [sumf]. unfold mat_of. cbn [nth]. intros Z0 Z1 C0 C1 C2.
  fold (two [[1; -1]] [0] [[1; 0]; [0; -1]] [-1; 3]). fold small.
  assert (A0 : a 0%nat = 0 \/ z 0%nat = z 1%nat) by (destruct (Req_dec (a 0%nat) 0) as [|N]; [left; assumption|right; specialize (C0 N); lra]).
  assert (B0 : b 0%nat = 0 \/ z 0%nat = 0) by (destruct (Req_dec (b 0%nat) 0) as [|N]; [left; assumption|right; specialize (C1 N); lra]).
  assert (B1 : b 1%nat = 0 \/ z 1%nat = 0) by (destruct (Req_dec (b 1%nat) 0) as [|N]; [left; assumption|right; specialize (C2 N); lra]).
  assert (G : (z 0%nat = 0 /\ z 1%nat = 0) \/ (/ 2 <= z 0%nat * z 0%nat + z 1%nat * z 1%nat /\ / 2 <= v 0%nat * z 0%nat + v 1%nat * z 1%nat)).
  { clear C0 C1 C2 D1 D2 D3. destruct (Rows v Hv) as [[V0 V1]|[[V0 V1]|[V0 V1]]]; rewrite V0, V1 in *; destruct A0 as [A0|A0], B0 as [B0|B0], B1 as [B1|B1].
    all: first [left; lra
      |let g x y := (right; let H0 := fresh in let H1 := fresh in assert (H0 : z 0%nat = x) by lra; assert (H1 : z 1%nat = y) by lra; rewrite H0, H1; lra) in
       first [g 1 (-1)|g 1 0|g 0 (-1)|g (1/2) (1/2)|g (-(1/2)) (-(1/2))]]. }
  destruct G as [[G0 G1]|[G0 G1]]; [left; intros i Hi; cbn in Hi; destruct i as [|[|i]]; [exact G0|exact G1|lia]|right].
  unfold dot. cbn [e_n eqp_of qp_g length sumf]. split; [lra|]. split; [lra|].
  intros v' w Hv' Hw. pose proof (Hw 0%nat ltac:(cbn; lia)) as W0. pose proof (Hw 1%nat ltac:(cbn; lia)) as W1.
  rewrite (small_hmul w 0 ltac:(lia)) in W0. rewrite (small_hmul w 1 ltac:(lia)) in W1. rewrite W0, W1.
  destruct (Rows v' Hv') as [[V0 V1]|[[V0 V1]|[V0 V1]]]; rewrite V0, V1; nra.
Qed.
Lemma small_independent : ~ eqs_dependent (eqp_of small).
Proof.
  intros (c & (k & Hk & Ck) & D). cbn in Hk. destruct k; [|lia]. specialize (D 0%nat ltac:(cbn; lia)). revert D.
  unfold small, two. qp_cbn. cbn [sumf]. unfold mat_of. cbn [nth]. lra.
Qed.
Lemma small_feasible : feasible (eqp_of small) (fun _ => 1).
Proof.
  split; intros i Hi; cbn in Hi; unfold eq_gap, slack, dot, small, two; qp_cbn; cbn [sumf]; unfold mat_of, vec_of.
  - destruct i; [|lia]. cbn [nth]. lra.
  - destruct i as [|[|i]]; [| |lia]; cbn [nth]; lra.
Qed.
