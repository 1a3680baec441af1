(** QP solver: executions on particular problems. *)
From Coq Require Import Lia Lra Psatz List FunctionalExtensionality.
From Verif Require Import Vec SpecBezier ModelData ModelSolver ModelQp SpecQp ProofBezier ProofQp ProofQp2 ProofQp3 ProofQp4 ProofQp5 ProofQp6 ProofQp7.
Import ListNotations.
Open Scope R_scope.

Ltac qp_cbn := cbn [eqp_of qp_H qp_g qp_CE qp_ce0 qp_CI qp_ci0 e_n e_E e_I e_H e_g e_CE e_ce e_CI e_ci length mat_of vec_of nth].
Lemma eps_small : 10000 * eps52 < 1.
Proof.
  unfold eps52. assert (P : 10000 < 2 ^ 52) by (simpl; lra). apply Rmult_lt_reg_r with (2 ^ 52); [lra|].
  rewrite Rmult_assoc, Rinv_l by lra. lra.
Qed.

(** * Two variables, the identity as Hessian, no linear cost *)
Section Two.
  Variables (CE : list (list R)) (ce : list R) (CI : list (list R)) (ci : list R).
  Let q := eqp_of (two CE ce CI ci).
  Lemma two_convex : convex q.
  Proof.
    split.
    - intros i j Hi Hj. unfold q, two in *. qp_cbn. cbn in Hi, Hj. destruct i as [|[|i]], j as [|[|j]]; try lia; reflexivity.
    - intros v (i & Hi & Hv). unfold hmul, dot, q, two. qp_cbn. cbn [sumf]. unfold mat_of. cbn [nth].
      cbn in Hi. assert (v 0%nat <> 0 \/ v 1%nat <> 0) by (destruct i as [|[|i]]; [left|right|lia]; exact Hv).
      pose proof (Rle_0_sqr (v 0%nat)) as S0. pose proof (Rle_0_sqr (v 1%nat)) as S1. unfold Rsqr in *.
      destruct H as [H|H]; pose proof (Rsqr_pos_lt _ H) as P; unfold Rsqr in P; lra.
  Qed.
  Definition unit2 (J : rmat) : Prop := J 0%nat 0%nat = 1 /\ J 0%nat 1%nat = 0 /\ J 1%nat 0%nat = 0 /\ J 1%nat 1%nat = 1.
  Lemma two_init mem : exists x J f,
    unit2 J /\ x 0%nat = 0 /\ x 1%nat = 0 /\
    solve_init q mem = add_equalities q (length ce) 0
      (Qst x (q_u mem) (q_A mem) 0 (fun _ _ => 0) J 1 f 0 (q_s mem) (q_ss mem) (q_ip mem)
         (fun i => Z.of_nat i) (q_ex mem) (q_xo mem) (q_uo mem) (q_Ao mem) (INR (length ci) * eps52 * 2 * 2 * 100)).
  Proof.
    destruct (chol_succeeds (e_n q) (e_H q) (proj1 two_convex)) as (L & EL).
    { intros v Hv. apply (proj2 two_convex v Hv). }
    destruct (chol_ok _ _ _ (proj1 two_convex) EL) as (D & T & M).
    change (e_n q) with 2%nat in *.
    pose proof (M 0%nat 0%nat ltac:(lia) ltac:(lia)) as M00. pose proof (M 0%nat 1%nat ltac:(lia) ltac:(lia)) as M01.
    pose proof (M 1%nat 1%nat ltac:(lia) ltac:(lia)) as M11.
    change (e_H q 0%nat 0%nat) with 1 in M00. change (e_H q 0%nat 1%nat) with 0 in M01. change (e_H q 1%nat 1%nat) with 1 in M11.
    cbn [sumf] in M00, M01, M11. rewrite (T 0%nat 1%nat) in * by lia.
    pose proof (D 0%nat ltac:(lia)) as D0. pose proof (D 1%nat ltac:(lia)) as D1.
    assert (L00 : L 0%nat 0%nat = 1) by nra. rewrite L00 in *. assert (L10 : L 1%nat 0%nat = 0) by lra. rewrite L10 in *.
    assert (L11 : L 1%nat 1%nat = 1) by nra.
    set (J := inv_upper 2 L).
    assert (UJ : forall k c, (k < 2)%nat -> sumf 2 (fun j => upper L k j * J j c) = delta k c) by (intros; apply uj; assumption).
    assert (HJ : unit2 J).
    { pose proof (UJ 0%nat 0%nat ltac:(lia)) as A. pose proof (UJ 0%nat 1%nat ltac:(lia)) as B. pose proof (UJ 1%nat 0%nat ltac:(lia)) as C.
      pose proof (UJ 1%nat 1%nat ltac:(lia)) as E. cbn [sumf] in A, B, C, E. unfold upper, delta in A, B, C, E. cbn [Nat.eqb] in A, B, C, E.
      rewrite L00, L10, L11, ?(T 0%nat 1%nat) in * by lia. unfold unit2. lra. }
    assert (HX : forall i, (i < 2)%nat -> sumf 2 (fun j => e_H q i j * chol_solve 2 L (e_g q) j) = e_g q i) by (intros; apply chol_solve_ok; assumption).
    pose proof (HX 0%nat ltac:(lia)) as X0. pose proof (HX 1%nat ltac:(lia)) as X1. cbn [sumf] in X0, X1.
    change (e_H q 0%nat 0%nat) with 1 in X0. change (e_H q 0%nat 1%nat) with 0 in X0. change (e_H q 1%nat 0%nat) with 0 in X1. change (e_H q 1%nat 1%nat) with 1 in X1.
    change (e_g q 0%nat) with 0 in X0. change (e_g q 1%nat) with 0 in X1.
    exists (fun i => - chol_solve 2 L (e_g q) i), J, (1 / 2 * dot 2 (e_g q) (fun i => - chol_solve 2 L (e_g q) i)).
    split; [exact HJ|]. split; [lra|]. split; [lra|]. unfold solve_init. change (e_n q) with 2%nat. rewrite EL. cbn [bind]. change (e_E q) with (length ce). do 2 f_equal.
    change (e_I q) with (length ci). f_equal. f_equal; [f_equal|].
    - unfold trace. cbn [sumf]. change (e_H q 0%nat 0%nat) with 1. change (e_H q 1%nat 1%nat) with 1. lra.
    - unfold trace. cbn [sumf]. fold J. destruct HJ as (-> & _ & _ & ->). lra.
  Qed.
End Two.

(** adding the row (c, 0) *)
Definition mirror (J : rmat) : Prop := J 0%nat 0%nat = 1 /\ J 0%nat 1%nat = 0 /\ J 1%nat 0%nat = 0 /\ J 1%nat 1%nat = -1.
Lemma dist0 c : 0 < c -> distance c 0 = c.
Proof.
  intros H. unfold distance. rewrite Rabs_R0, Rabs_pos_eq by lra. destruct (Rlt_dec 0 c) as [_|]; [|contradiction].
  replace (1 + 0 / c * (0 / c)) with 1 by (field; lra). rewrite sqrt_1. ring.
Qed.
Lemma add_first c np J Rm : 1 <= eps52 * c -> unit2 J -> np 0%nat = c -> np 1%nat = 0 ->
  exists R' J', add_constraint 2 Rm J (compute_d 2 J np) 0 1 = Ok (true, R', J', 1%nat, c) /\ mirror J' /\ R' 0%nat 0%nat = c.
Proof.
  intros Hc (J1 & J2 & J3 & J4) N0 N1. pose proof eps_pos as EP. pose proof eps_small as ES.
  assert (C1 : 1 < c) by nra.
  assert (D0 : compute_d 2 J np 0%nat = c) by (unfold compute_d; cbn [sumf]; rewrite J1, J3, N0, N1; ring).
  assert (D1 : compute_d 2 J np 1%nat = 0) by (unfold compute_d; cbn [sumf]; rewrite J2, J4, N0, N1; ring).
  unfold add_constraint. cbn [Nat.leb]. cbn [Nat.sub add_loop Nat.add]. rewrite D0, D1, dist0 by lra.
  destruct (Req_EM_T c 0) as [|_]; [lra|]. unfold givens. rewrite dist0 by lra. replace (c / c) with 1 by (field; lra). replace (0 / c) with 0 by (field; lra).
  destruct (Rlt_dec 1 0) as [|_]; [lra|]. rewrite setv_eq. rewrite (Rabs_pos_eq c) by lra.
  destruct (Rle_dec c (eps52 * 1)) as [|_]; [lra|]. eexists _, _. split; [|split].
  - replace (Rmax 1 c) with c by (symmetry; apply Rmax_right; lra). reflexivity.
  - unfold mirror, rot_cols, rot1, rot2, rot1. cbn [Nat.eqb]. rewrite J1, J2, J3, J4. repeat split; lra.
  - cbn [Nat.eqb Nat.leb]. apply setv_eq.
Qed.
(** the row (0, 1) is then rejected *)
Lemma add_second c np J Rm : 1 <= eps52 * c -> mirror J -> np 0%nat = 0 -> np 1%nat = 1 ->
  exists R', add_constraint 2 Rm J (compute_d 2 J np) 1 c = Ok (false, R', J, 2%nat, c) /\ forall i, R' i 0%nat = Rm i 0%nat.
Proof.
  intros Hc (J1 & J2 & J3 & J4) N0 N1. pose proof eps_pos as EP.
  assert (D1 : compute_d 2 J np 1%nat = -1) by (unfold compute_d; cbn [sumf]; rewrite J2, J4, N0, N1; ring).
  unfold add_constraint. cbn [Nat.leb]. cbn [Nat.sub add_loop]. rewrite D1.
  destruct (Rle_dec (Rabs (-1)) (eps52 * c)) as [_|H].
  - eexists. split; [reflexivity|]. reflexivity.
  - exfalso. apply H. rewrite Rabs_left by lra. lra.
Qed.

(** the whole step: the constraint [ip] with row (0,1), violated by 1, is rejected *)
Lemma reject q c st : e_n q = 2%nat -> (e_E q <= 1)%nat -> (3 <= e_I q + e_E q)%nat -> 1 <= eps52 * c -> mirror (q_J st) -> q_iq st = 1%nat -> q_R st 0%nat 0%nat = c ->
  q_Rn st = c -> e_CI q (q_ip st) 0%nat = 0 -> e_CI q (q_ip st) 1%nat = 1 -> q_s st (q_ip st) = -1 -> q_A st 1%nat = Z.of_nat (q_ip st) ->
  (e_E q = 0%nat -> q_A st 0%nat <> Z.of_nat (q_ip st)) ->
  exists R' f u A,
  R' 0%nat 0%nat = c /\
  step_L2a q st = (iai <- restore q (q_Ao st) 0 1 (fun i => Z.of_nat i) ;;
    Ok (Next L2 (Qst (q_xo st) u (fun i => if (i <? 1)%nat then q_Ao st i else A i) 1 R' (q_J st) c f (q_iter st) (q_s st) (q_ss st) (q_ip st) iai
                 (setv (q_ex st) (q_ip st) false) (q_xo st) (q_uo st) (q_Ao st) (q_tol st)))).
Proof.
  intros En HE Hm Hc HJ Hq HR HRn N0 N1 Hs HA HA0. pose proof HJ as (J1 & J2 & J3 & J4). pose proof eps_pos as EP. pose proof eps_small as ES.
  unfold step_L2a. cbv zeta. rewrite En, Hq, HRn, Hs. set (np := e_CI q (q_ip st)) in *. set (d := compute_d 2 (q_J st) np).
  assert (D0 : d 0%nat = 0) by (unfold d, compute_d; cbn [sumf]; rewrite J1, J3, N0, N1; ring).
  assert (D1 : d 1%nat = -1) by (unfold d, compute_d; cbn [sumf]; rewrite J2, J4, N0, N1; ring).
  cbn [Nat.leb]. set (z := update_z 2 (q_J st) d 1).
  assert (Z0 : z 0%nat = 0) by (unfold z, update_z; cbn [Nat.sub sumf Nat.add]; rewrite D1, J2; ring).
  assert (Z1 : z 1%nat = 1) by (unfold z, update_z; cbn [Nat.sub sumf Nat.add]; rewrite D1, J4; ring).
  assert (ZZ : dot 2 z z = 1) by (unfold dot; cbn [sumf]; rewrite Z0, Z1; ring).
  assert (ZN : dot 2 z np = 1) by (unfold dot; cbn [sumf]; rewrite Z0, Z1, N0, N1; ring).
  set (r := update_r (q_R st) d 1).
  assert (R0 : r 0%nat = 0) by (unfold r, update_r; cbn [backsub]; rewrite setv_eq, D0; cbn [Nat.sub sumf]; unfold Rdiv; ring).
  assert (DS : dual_step (1 - e_E q) (e_E q) r (q_u st) (q_A st) None 0%Z = (None, 0%Z)).
  { destruct (e_E q) as [|[|e]]; [|reflexivity|lia]. cbn [Nat.sub dual_step]. rewrite R0. destruct (Rlt_dec 0 0); [lra|reflexivity]. }
  rewrite DS, ZZ, ZN, Rabs_R1. destruct (Rlt_dec eps52 1) as [_|]; [|lra]. destruct (Req_EM_T _ _) as [_|]; [|contradiction].
  destruct (add_second c np (q_J st) (q_R st) Hc HJ N0 N1) as (R' & EA & ER). fold d in EA. rewrite EA. cbn [bind].
  unfold delete_constraint. destruct (Nat.leb_spec (e_I q + e_E q) 2) as [|_]; [lia|]. cbn [Nat.eqb orb].
  assert (FA : find_active (q_A st) (Z.of_nat (q_ip st)) (e_E q) (2 - e_E q) = 1%nat).
  { destruct (e_E q) as [|[|e]]; [| |lia]; cbn [Nat.sub find_active].
    - rewrite (proj2 (Z.eqb_neq _ _)) by (apply HA0; reflexivity). now rewrite HA, Z.eqb_refl.
    - now rewrite HA, Z.eqb_refl. }
  rewrite FA. cbn [Nat.sub del_loop bind]. eexists _, _, _, _. split; [|reflexivity].
  cbn [Nat.eqb Nat.leb Nat.ltb andb]. rewrite ER. exact HR.
Qed.
