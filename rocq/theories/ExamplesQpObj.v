(** Concrete inputs for the theorems of PropertiesQpObj.v. *)
From Coq Require Import Lia Lra List.
From Verif Require Import Vec SpecBezier ModelData ModelSolver ModelQp ModelQpObj SpecQp SpecQpObj ProofQp2 ProofQp3 ProofQp7 ProofQp8 ProofQp11 ProofQpObj4 ProofQpObj6 ProofQpObj7 PropertiesQp PropertiesQpObj.
Import ListNotations.
Open Scope R_scope.

Definition SMALL : eqp := eqp_of small.
Lemma small_convex k : convex (limited k SMALL).
Proof. exact (two_convex [[1; -1]] [0] [[1; 0]; [0; -1]] [-1; 3]). Qed.
Lemma small_solved mem s : used s -> getMaxIter s = 1000%nat -> exists x s', gives (solve_quadprog_dense mem s SMALL) st_OPTIMAL x s'.
Proof.
  intros U HM. destruct (C59_decides (limited (v_max s) SMALL) (v_st (fit mem SMALL s)) (small_convex _) small_well_scaled ltac:(cbn; lia)) as [(st & R1)|(st & _ & H)].
  - unfold getMaxIter in HM. change (e_max (limited (v_max s) SMALL)) with (v_max s). rewrite HM. exact (proj1 (Nat.ltb_lt 3 1000) eq_refl).
  - exact small_independent.
  - eexists _, _. apply dense_gives; [|exact R1]. apply (ProofQpObj2.used_given s U).
  - exfalso. exact (H _ small_feasible).
Qed.

(** A solver that has solved x0 = x1, 1 <= x0, x1 <= 3 solves 1/2 x^2 + x (another size)
    as a new one does, and solves the first problem again. *)
Example ex_C55 : forall mem, exists x s, gives (solve_quadprog_dense mem (new_solver mem) SMALL) st_OPTIMAL x s /\ used s /\ (1 <= getActiveSetSize s)%nat /\
  (forall k, same_report (solve_quadprog_dense mem (new_solver mem) (eqp_of line) k) (solve_quadprog_dense mem s (eqp_of line) k)) /\
  exists y s', gives (solve_quadprog_dense mem s SMALL) st_OPTIMAL y s'.
Proof.
  intros mem. destruct (small_solved mem (new_solver mem) (used_new mem) eq_refl) as (x & s & G).
  assert (U : used s) by (eapply used_dense; [apply used_new|exact G]).
  assert (HM : getMaxIter s = 1000%nat). { destruct (C55_limit mem (new_solver mem)) as (_ & _ & L & _). rewrite (L _ _ _ _ G). reflexivity. }
  exists x, s. split; [exact G|]. split; [exact U|]. split; [|split].
  - destruct (C56_certificate mem (new_solver mem) SMALL _ _ _ (used_new mem) (small_convex 0) small_well_scaled ltac:(cbn; lia) G (or_introl eq_refl)) as (_ & _ & (C1 & _) & _).
    change (e_E SMALL) with 1%nat in C1. lia.
  - intros k. apply C55_dense; [apply used_new|exact U|]. rewrite HM. reflexivity.
  - exact (small_solved mem s U HM).
Qed.

(** The certificate for the answer (1, 1): two active constraints. *)
Example ex_C56 : certificate SMALL (fun _ => 1) 2 (fun k => match k with O => (-1)%Z | _ => 0%Z end) (vec_of [-1; 2]) /\ eqs_hold SMALL (fun _ => 1).
Proof.
  split.
  - split; [cbn; lia|]. split; [intros k Hk; cbn in Hk; assert (k = 0%nat) by lia; subst k; reflexivity|]. split; [|split].
    + intros k Hk. cbn in Hk. assert (k = 1%nat) by lia. subst k. split; [cbn; lia|]. unfold slack, dot, SMALL, small, two. qp_cbn. cbn [sumf]. unfold mat_of, vec_of. cbn [nth Z.to_nat]. split; lra.
    + intros k k' Hk Hk'. cbn in Hk, Hk'. lia.
    + intros i Hi. unfold SMALL in *. cbn in Hi. rewrite small_hmul by exact Hi. unfold small, two. qp_cbn. cbn [Nat.sub Nat.add sumf]. unfold mat_of, vec_of. cbn [nth Z.to_nat].
      destruct i as [|[|i]]; [| |lia]; cbn [nth]; ring.
  - apply (proj1 small_feasible).
Qed.

(** The hypotheses of C57_opposite, with constraints; C57_refuted has a linear cost. *)
Example ex_C57 : forall mem, let s := reset mem 2 1 2 (new_solver mem) in
  fits s SMALL /\ inverse_factor SMALL eye /\ convex SMALL /\ well_scaled SMALL /\ (e_E SMALL <= e_n SMALL)%nat /\
  ~ fits (new_solver mem) SMALL.
Proof.
  intros mem s. split; [repeat split|]. split.
  - intros i j Hi Hj. cbn in Hi, Hj. unfold SMALL, small, two. qp_cbn. cbn [sumf]. unfold mat_of, eye.
    destruct i as [|[|i]], j as [|[|j]]; try lia; cbn [nth Nat.eqb]; ring.
  - split; [exact (small_convex 0)|]. split; [exact small_well_scaled|]. split; [cbn; lia|]. intros (F & _). cbn in F. lia.
Qed.

(** The hypotheses of C58: [skew] in general, [small] for the identity. *)
Example ex_C58 : convex (eqp_of skew) /\ well_scaled (nearest (eqp_of skew) (fun _ => 0)) /\ (e_E (eqp_of skew) <= e_n (eqp_of skew))%nat /\
  (forall i, (i < e_n (eqp_of skew))%nat -> hmul (eqp_of skew) (fun _ => 0) i + e_g (eqp_of skew) i = 0).
Proof.
  split; [exact skew_convex|]. split; [exact (skew_scaled _)|]. split; [cbn; lia|].
  intros i Hi. cbn in Hi. unfold hmul, dot, skew. qp_cbn. cbn [sumf]. unfold vec_of. destruct i as [|[|i]]; [| |lia]; cbn [nth]; ring.
Qed.
Example ex_C58_scalar : (forall i j, (i < e_n SMALL)%nat -> (j < e_n SMALL)%nat -> e_H SMALL i j = 1 * eye i j) /\
  convex SMALL /\ well_scaled (nearest SMALL (fun _ => 0)) /\ (forall i, (i < e_n SMALL)%nat -> hmul SMALL (fun _ => 0) i + e_g SMALL i = 0).
Proof.
  assert (HH : forall i j, (i < 2)%nat -> (j < 2)%nat -> e_H SMALL i j = eye i j).
  { intros i j Hi Hj. unfold SMALL, small, two. qp_cbn. unfold mat_of, eye. destruct i as [|[|i]], j as [|[|j]]; try lia; reflexivity. }
  split; [intros i j Hi Hj; rewrite Rmult_1_l; apply HH; assumption|]. split; [exact (small_convex 0)|]. split.
  - assert (HM : forall z i, (i < 2)%nat -> hmul (nearest SMALL (fun _ => 0)) z i = hmul SMALL z i).
    { intros z i Hi. rewrite (eye_mul SMALL (fun _ => 0) z i Hi). symmetry. apply small_hmul. exact Hi. }
    intros v z Hv (a & b & D1 & D2). destruct (small_well_scaled v z Hv) as [Z|(P1 & P2 & P3)].
    + exists a, b. split; [|exact D2]. intros i Hi. fold SMALL. rewrite <- HM by exact Hi. apply D1. exact Hi.
    + left. exact Z.
    + right. split; [exact P1|]. split; [exact P2|]. intros v' w Hv' Hw. apply P3; [exact Hv'|]. intros i Hi. fold SMALL. rewrite <- HM by exact Hi. apply Hw. exact Hi.
  - intros i Hi. cbn in Hi. unfold SMALL. rewrite small_hmul by exact Hi. unfold small, two. qp_cbn. unfold vec_of. destruct i as [|[|i]]; [| |lia]; cbn [nth]; ring.
Qed.
