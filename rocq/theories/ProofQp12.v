(** QP solver: more equalities than variables. *)
From Coq Require Import Lia Lra List.
From Verif Require Import Vec SpecBezier ModelData ModelSolver ModelQp SpecQp ProofBezier ProofQp ProofQp2 ProofQp3 ProofQp4 ProofQp5 ProofQp6 ProofQp8 ProofQp9 ProofQp10.
Import ListNotations.
Open Scope R_scope.

Lemma many_equalities q : (e_n q < e_E q)%nat -> forall todo i st, (i + todo = e_E q)%nat -> q_iq st = i -> (i <= e_n q)%nat ->
  add_equalities q todo i st = UB \/ exists st', add_equalities q todo i st = Ok (Done st_REDUNDANT st').
Proof.
  intros Hn. induction todo as [|todo IH]; intros i st Hi Hq Hl; [lia|]. cbn [add_equalities]. cbv zeta.
  destruct (Nat.ltb_spec (e_n q) (q_iq st)) as [|_]; [left; reflexivity|].
  destruct (add_constraint _ _ _ _ _ _) as [[[[[b R'] J'] iq'] Rn']| |] eqn:EA; cbn [bind].
  - pose proof (add_count _ _ _ _ _ _ _ _ _ _ _ EA) as ->. destruct b; [|right; eexists; reflexivity].
    apply IH; qst_cbn; [lia|lia|]. unfold add_constraint in EA. destruct (Nat.leb_spec (e_n q) (q_iq st)); [discriminate|lia].
  - unfold add_constraint in EA. destruct (_ <=? _)%nat; [discriminate|]. destruct (add_loop _ _ _ _). destruct (Rle_dec _ _); discriminate.
  - left. reflexivity.
Qed.
Lemma c42_many q mem k : (e_n q < e_E q)%nat -> execution q mem k = UB \/ exists st, execution q mem k = Ok (Done st_REDUNDANT st).
Proof.
  intros Hn. unfold execution. assert (S0 : solve_init q mem = UB \/ exists st, solve_init q mem = Ok (Done st_REDUNDANT st)).
  { unfold solve_init. destruct (chol (e_n q) (e_H q)) as [L| |] eqn:EC; cbn [bind].
    - apply many_equalities; [exact Hn|reflexivity|reflexivity|lia].
    - exfalso. revert EC. generalize (e_n q), (e_H q). intros n. induction n as [|n IH]; intros H; cbn [chol]; [discriminate|].
      destruct (Rlt_dec _ _); [|discriminate]. match goal with |- context [chol n ?h] => specialize (IH h); destruct (chol n h) end; cbn [bind]; congruence.
    - left. reflexivity. }
  destruct S0 as [E|(st & E)]; rewrite E; [left|right; exists st]; destruct k; reflexivity.
Qed.
(** the same equality twice, one variable: x = 1 and x = 1 *)
Lemma twice_ub mem : execution (eqp_of (one (1 * 1) [[1]; [1]] [-1; -1] [] [])) mem 0 = UB.
Proof.
  set (q := eqp_of _). pose proof eps_pos as EP. pose proof eps_small as ES.
  destruct (one_init 1 [[1]; [1]] [-1; -1] [] [] ltac:(lra) mem) as (x & J & f & HJ & X0 & EI). fold q in EI.
  unfold execution. cbn [steps]. rewrite EI. clear EI. change (length [-1; -1]) with 2%nat. cbn [add_equalities]. qst_cbn. cbv zeta. change (e_n q) with 1%nat. change (1 <? 0)%nat with false. cbv iota.
  assert (D0 : compute_d 1 J (e_CE q 0%nat) 0%nat = 1) by (unfold compute_d; cbn [sumf]; rewrite HJ; change (e_CE q 0%nat 0%nat) with 1; field).
  set (t := if Rlt_dec eps52 _ then _ else _). unfold add_constraint at 1. cbn [Nat.leb Nat.sub add_loop]. rewrite D0, Rabs_R1.
  destruct (Rle_dec 1 (eps52 * 1)) as [|_]; [lra|]. cbn [bind]. reflexivity.
Qed.

(** * The refutations *)
Lemma one_feasible h CE CI ce ci : (forall i, (i < length ce)%nat -> nth 0 (nth i CE []) 0 + nth i ce 0 = 0) ->
  (forall i, (i < length ci)%nat -> 0 <= nth 0 (nth i CI []) 0 + nth i ci 0) -> feasible (eqp_of (one h CE ce CI ci)) (fun _ => 1).
Proof.
  intros H1 H2. split; intros i Hi; unfold eq_gap, slack, dot, one; qp_cbn; cbn [sumf]; unfold mat_of, vec_of.
  - specialize (H1 i Hi). lra.
  - specialize (H2 i Hi). lra.
Qed.
Lemma c40_equality_refuted k mem : 1 <= eps52 * (k * k * (k * k)) -> 100 * eps52 * k < 1 -> 0 < k ->
  let q := eqp_of (one (k * k) [[1]] [-1] [] []) in
  convex q /\ feasible q (fun _ => 1) /\ exists st, returns q mem st_OPTIMAL st /\ ~ eqs_hold q (q_x st).
Proof.
  intros K1 K2 K0 q. split; [apply one_convex; exact K0|]. split.
  { apply one_feasible; intros i Hi; cbn in Hi; [|lia]. destruct i; [|lia]. cbn [nth]. lra. }
  destruct (large_eq k K1 K2 K0 mem) as (st & E & X). exists st. split; [exists 1%nat; exact E|].
  intros H. specialize (H 0%nat ltac:(cbn; lia)). revert H. unfold eq_gap, dot, q, one. qp_cbn. cbn [sumf]. unfold mat_of, vec_of. cbn [nth]. rewrite X. lra.
Qed.
Lemma c40_infeasible_refuted k mem : 1 <= eps52 * (k * k * (k * k)) -> 100 * eps52 * k < 1 -> 0 < k ->
  let q := eqp_of (one (k * k) [] [] [[1]] [-1]) in
  convex q /\ feasible q (fun _ => 1) /\ exists st, returns q mem st_UNBOUNDED st.
Proof.
  intros K1 K2 K0 q. split; [apply one_convex; exact K0|]. split.
  { apply one_feasible; intros i Hi; cbn in Hi; [lia|]. destruct i; [|lia]. cbn [nth]. lra. }
  destruct (large_ineq k K1 K2 K0 mem) as (st & E). exists st, 3%nat. exact E.
Qed.
Lemma c41_loop_refuted c mem : 1 <= eps52 * c ->
  let q := eqp_of (two [] [] [[c; 0]; [0; 1]; [0; 0]] [- c; -1; 1]) in
  convex q /\ feasible q (fun _ => 1) /\
  (forall k, exists p st, execution q mem k = Ok (Next p st)) /\ ~ exists status st, returns q mem status st.
Proof.
  intros Hc q. split; [apply two_convex|]. split; [apply loop_feasible|]. split; [intros k; apply (loop_forever c Hc mem k)|].
  intros (s & st & k & E). destruct (loop_forever c Hc mem k) as (p & st' & E'). fold q in E'. congruence.
Qed.
Lemma c42_restore_refuted c mem : 1 <= eps52 * c ->
  let q := eqp_of (two [[c; 0]] [- c] [[0; 1]; [0; 0]] [-1; 1]) in
  convex q /\ feasible q (fun _ => 1) /\ (exists st, execution q mem 2 = Ok (Next L2a st)) /\ execution q mem 3 = UB.
Proof.
  intros Hc q. split; [apply two_convex|]. split; [apply out_feasible|]. split; [|apply (out_ub c Hc mem)].
  apply (out_reach c Hc mem).
Qed.
Lemma c42_repeated_refuted mem : let q := eqp_of (one 1 [[1]; [1]] [-1; -1] [] []) in
  convex q /\ feasible q (fun _ => 1) /\ undefined q mem.
Proof.
  intros q. replace q with (eqp_of (one (1 * 1) [[1]; [1]] [-1; -1] [] [])) by (unfold q; rewrite Rmult_1_l; reflexivity).
  split; [apply one_convex; lra|]. split.
  - apply one_feasible; intros i Hi; cbn in Hi; [|lia]. destruct i as [|[|i]]; [| |lia]; cbn [nth]; lra.
  - exists 0%nat. apply twice_ub.
Qed.
