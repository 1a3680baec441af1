(** The solver object: two wrong reports. *)
From Coq Require Import Lia Lra Psatz List FunctionalExtensionality.
From Verif Require Import Vec SpecBezier ModelData ModelSolver ModelQp ModelQpObj SpecQp SpecQpObj ProofBezier ProofQp ProofQp2 ProofQp3 ProofQp4 ProofQp5 ProofQp6 ProofQp7 ProofQp8 ProofQp11 ProofQp15 ProofQpObj ProofQpObj2 ProofQpObj3 ProofQpObj4 ProofQpObj5 ProofQpObj6.
Import ListNotations.
Open Scope R_scope.

Lemma dense_gives mem s p status st : v_given s = false -> returns (limited (v_max s) p) (v_st (fit mem p s)) status st ->
  gives (solve_quadprog_dense mem s p) status (q_x st) (after s p status st).
Proof. intros G (k & E). exists k. rewrite dense_execution, E by exact G. reflexivity. Qed.
Lemma c57_limit mem s p J status x s' : fits s p -> inverse_factor p J -> convex p -> well_scaled p -> (e_E p <= e_n p)%nat ->
  (subsets (e_I p) (e_n p - e_E p) < getMaxIter s)%nat -> gives (solve_quadprog_dense mem (give_inverse J s) p) status x s' -> status <> st_MAX_ITER.
Proof.
  intros F HJ C W E HN (k & E0). rewrite given_call in E0 by exact F. apply answer_done in E0. destruct E0 as (st1 & E1 & _ & _).
  exact (given_limit p J (v_max s) HJ (v_st (give_inverse J s)) k status st1 C W E eq_refl HN E1).
Qed.

(** * The size of the active set after EIQUADPROG_FAST_REDUNDANT_EQUALITIES *)
(** x0 = 0 *)
Definition plane : qp := two [[1; 0]] [0] [] [].
Lemma two_mul CE ce CI ci z i : (i < 2)%nat -> hmul (eqp_of (two CE ce CI ci)) z i = z i.
Proof. intros Hi. unfold hmul, dot, two. qp_cbn. cbn [sumf]. unfold mat_of. destruct i as [|[|i]]; [| |lia]; cbn [nth]; ring. Qed.
Lemma void_scaled : well_scaled (eqp_of void).
Proof.
  intros v z Hv (a & b & D1 & _). left. intros i Hi. rewrite <- (two_mul [[0; 0]] [0] [] [] z i Hi). fold void. rewrite (D1 i Hi).
  assert (V : v i = 0).
  { destruct Hv as [(k & Hk & ->)|(k & Hk & _)]; [|cbn in Hk; lia]. cbn in Hk, Hi. assert (k = 0%nat) by lia. subst k.
    unfold void, two. qp_cbn. unfold mat_of. cbn [nth]. destruct i as [|[|i]]; [reflexivity|reflexivity|lia]. }
  rewrite V. unfold void, two. qp_cbn. cbn [sumf]. unfold mat_of. cbn [nth]. cbn in Hi. destruct i as [|[|i]]; [| |lia]; cbn [nth]; ring.
Qed.
Lemma void_dependent : eqs_dependent (eqp_of void).
Proof.
  exists (fun _ => 1). split; [exists 0%nat; split; [cbn; lia|lra]|]. intros i Hi. unfold void, two. qp_cbn. cbn [sumf]. unfold mat_of. cbn [nth].
  cbn in Hi. destruct i as [|[|i]]; [| |lia]; cbn [nth]; ring.
Qed.
Lemma void_redundant mem s : v_given s = false -> exists x s', gives (solve_quadprog_dense mem s (eqp_of void)) st_REDUNDANT x s'.
Proof.
  intros G. destruct (c59_dependent (limited (v_max s) (eqp_of void)) (v_st (fit mem (eqp_of void) s)) (two_convex _ _ _ _) void_scaled ltac:(cbn; lia) void_dependent) as (st & R1).
  exists (q_x st). eexists. apply dense_gives; [exact G|exact R1].
Qed.
Lemma plane_scaled : well_scaled (eqp_of plane).
Proof.
  pose proof eps_pos as EP. pose proof eps_small as ES. assert (EE : eps52 * eps52 < / 10000) by nra.
  assert (Rows : forall v, is_row (eqp_of plane) v -> v 0%nat = 1 /\ v 1%nat = 0).
  { intros v [(i & Hi & ->)|(i & Hi & ->)]; cbn in Hi; [|lia]. destruct i; [|lia]. unfold plane, two. qp_cbn. unfold mat_of. split; reflexivity. }
  assert (HH : forall z i, (i < 2)%nat -> hmul (eqp_of plane) z i = z i) by (intros; apply two_mul; assumption).
  intros v z Hv (a & b & D1 & D2 & D3). destruct (Rows v Hv) as [V0 V1].
  assert (Z0 : z 0%nat = 1 - a 0%nat).
  { rewrite <- (HH z 0%nat) by lia. rewrite D1 by (cbn; lia). rewrite V0. unfold plane, two. qp_cbn. cbn [sumf]. unfold mat_of. cbn [nth]. ring. }
  assert (Z1 : z 1%nat = 0).
  { rewrite <- (HH z 1%nat) by lia. rewrite D1 by (cbn; lia). rewrite V1. unfold plane, two. qp_cbn. cbn [sumf]. unfold mat_of. cbn [nth]. ring. }
  destruct (Req_dec (a 0%nat) 0) as [A0|N].
  - right. unfold dot. change (e_n (eqp_of plane)) with 2%nat. cbn [sumf]. rewrite Z0, Z1, A0, V0, V1. split; [lra|]. split; [lra|]. intros v' w Hv' Hw.
    destruct (Rows v' Hv') as [V0' V1']. assert (W0 : w 0%nat = v' 0%nat) by (rewrite <- (HH w 0%nat) by lia; apply Hw; cbn; lia).
    assert (W1 : w 1%nat = v' 1%nat) by (rewrite <- (HH w 1%nat) by lia; apply Hw; cbn; lia). rewrite W0, W1, V0', V1'. nra.
  - left. specialize (D2 0%nat ltac:(cbn; lia) N). unfold dot, plane, two in D2. revert D2. qp_cbn. cbn [sumf]. unfold mat_of. cbn [nth]. intros D2.
    intros i Hi. cbn in Hi. destruct i as [|[|i]]; [lra|lra|lia].
Qed.
Lemma c55_stale_refuted mem : exists s s' x x' r r',
  used s /\ used s' /\ getMaxIter s = getMaxIter s' /\
  gives (solve_quadprog_dense mem s (eqp_of void)) st_REDUNDANT x r /\ gives (solve_quadprog_dense mem s' (eqp_of void)) st_REDUNDANT x' r' /\
  getActiveSetSize r <> getActiveSetSize r'.
Proof.
  assert (ND : ~ eqs_dependent (eqp_of plane)).
  { intros (c & (k & Hk & Ck) & D). cbn in Hk. assert (k = 0%nat) by lia. subst k. specialize (D 0%nat ltac:(cbn; lia)). revert D.
    unfold plane, two. qp_cbn. cbn [sumf]. unfold mat_of. cbn [nth]. lra. }
  set (s := new_solver mem). set (p := eqp_of plane).
  destruct (c40_equalities (limited (v_max s) p) (v_st (fit mem p s)) (two_convex _ _ _ _) plane_scaled ltac:(cbn; lia) (proj1 (Nat.ltb_lt 1 DEFAULT_MAX_ITER) eq_refl) eq_refl ND) as (st & R1 & _).
  pose proof (dense_gives mem s p st_OPTIMAL st eq_refl R1) as G1. set (s' := after s p st_OPTIMAL st) in *.
  destruct (c56_certificate mem s p _ _ _ eq_refl (two_convex _ _ _ _) plane_scaled ltac:(cbn; lia) G1 (or_introl eq_refl)) as (_ & _ & ((C1 & _) & _)).
  assert (U : used s) by apply used_new. assert (U' : used s') by (eapply used_dense; [exact U|exact G1]).
  destruct (void_redundant mem s eq_refl) as (x & r & G). destruct (void_redundant mem s' (used_given s' U')) as (x' & r' & G').
  exists s, s', x, x', r, r'. split; [exact U|]. split; [exact U'|]. split; [reflexivity|]. split; [exact G|]. split; [exact G'|].
  rewrite (c55_stale _ _ _ _ _ _ G), (c55_stale _ _ _ _ _ _ G'). change (getActiveSetSize s) with 0%nat. change (e_E p) with 1%nat in C1. lia.
Qed.

(** * A given inverse *)
Lemma c57_refuted mem : let p := eqp_of line in
  convex p /\ inverse_factor p eye /\
  (let s := reset mem 1 0 0 (new_solver mem) in
   fits s p /\ exists x s', gives (solve_quadprog_dense mem (give_inverse eye s) p) st_OPTIMAL x s' /\ x 0%nat = 1 /\ getObjValue s' <> objective p x /\
     exists y, feasible p y /\ objective p y < objective p x) /\
  (exists x s', gives (solve_quadprog_dense mem (give_inverse eye (new_solver mem)) p) st_OPTIMAL x s' /\ x 0%nat = 0).
Proof.
  intros p. assert (HO : forall y, objective p y = 1 / 2 * (y 0%nat * y 0%nat) + y 0%nat).
  { intros y. unfold objective, hmul, dot, p, line. qp_cbn. cbn [sumf]. unfold mat_of, vec_of. cbn [nth]. field. }
  assert (HF : inverse_factor p eye).
  { intros i j Hi Hj. cbn in Hi, Hj. assert (i = 0%nat) by lia. assert (j = 0%nat) by lia. subst. unfold p, line. qp_cbn. cbn [sumf]. unfold mat_of, eye. cbn. ring. }
  split; [|split; [exact HF|split]].
  - split.
    + intros i j Hi Hj. cbn in Hi, Hj. assert (i = 0%nat) by lia. assert (j = 0%nat) by lia. subst. reflexivity.
    + intros v (i & Hi & Hv). cbn in Hi. assert (i = 0%nat) by lia. subst i. pose proof (Rsqr_pos_lt _ Hv) as P. unfold Rsqr in P.
      unfold hmul, dot, p, line. qp_cbn. cbn [sumf]. unfold mat_of. cbn [nth]. lra.
  - intros s. assert (F : fits s p) by (repeat split). split; [exact F|].
    exists (q_x (start_given p (v_st (give_inverse eye s)))). eexists. split.
    + exists 1%nat. rewrite given_call by exact F. cbn [add_equalities]. change (e_E (limited (v_max s) p)) with 0%nat. cbn [add_equalities steps step].
      unfold step_L1. cbv zeta. change (e_E (limited (v_max s) p)) with 0%nat. change (e_I (limited (v_max s) p)) with 0%nat.
      change (e_max (limited (v_max s) p)) with DEFAULT_MAX_ITER. change (q_iter (start_given p (v_st (give_inverse eye s)))) with 0%nat.
      rewrite (proj2 (Nat.leb_gt DEFAULT_MAX_ITER 1) (proj1 (Nat.ltb_lt 1 DEFAULT_MAX_ITER) eq_refl)).
      cbn [start_given start q_iq Nat.sub mark bind sumf q_tol]. rewrite Rabs_R0. change (e_I p) with 0%nat. cbn [INR].
      destruct (Rle_dec 0 _) as [_|N]; [reflexivity|exfalso; apply N; lra].
    + assert (X : q_x (start_given p (v_st (give_inverse eye s))) 0%nat = 1).
      { cbn [start_given start q_x]. change (e_n p) with 1%nat. cbn [sumf]. unfold give_inverse, set_J, eye, p, line. cbn [v_st q_J Nat.eqb]. qp_cbn. unfold vec_of. cbn [nth]. ring. }
      split; [exact X|]. rewrite HO, X. split.
      * unfold getObjValue, after. cbn [v_st q_f start_given start]. change (e_n p) with 1%nat. unfold dot. cbn [sumf].
        unfold give_inverse, set_J, eye, p, line. cbn [v_st q_J Nat.eqb]. qp_cbn. unfold vec_of. cbn [nth]. lra.
      * exists (fun _ => -1). split; [split; intros i Hi; cbn in Hi; lia|]. rewrite HO. lra.
  - destruct (zero_ineqs mem (new_solver mem) p eye) as (x & s' & G & X); [intros (F & _); cbn in F; lia|exact (proj1 (Nat.ltb_lt 1 DEFAULT_MAX_ITER) eq_refl)|reflexivity|].
    exists x, s'. split; [|apply X]. destruct (Rle_dec _ 0) as [_|N]; [exact G|exfalso; apply N; right; reflexivity].
Qed.

(** * Summaries *)
Lemma c55_limit mem s :
  getMaxIter (new_solver mem) = 1000%nat /\
  (forall n E I, getMaxIter (reset mem n E I s) = getMaxIter s) /\
  (forall p status x s', gives (solve_quadprog_dense mem s p) status x s' -> getMaxIter s' = getMaxIter s) /\
  (forall p status x s', gives (solve_quadprog_sparse mem s p) status x s' -> getMaxIter s' = getMaxIter s) /\
  (forall k, (0 <= k)%Z -> fst (setMaxIter k s) = true /\ getMaxIter (snd (setMaxIter k s)) = Z.to_nat k) /\
  (forall k, (k < 0)%Z -> setMaxIter k s = (false, s)).
Proof.
  split; [reflexivity|]. split; [reflexivity|]. split; [|split; [|split]].
  - intros p status x s'. apply c55_limit_keeps.
  - intros p status x s'. apply c55_limit_keeps.
  - intros k Hk. unfold setMaxIter. rewrite (proj2 (Z.ltb_ge _ _)) by exact Hk. split; reflexivity.
  - intros k Hk. unfold setMaxIter. rewrite (proj2 (Z.ltb_lt _ _)) by exact Hk. reflexivity.
Qed.
Lemma c57_forgotten mem s p J : ~ fits s p -> (1 < getMaxIter s)%nat ->
  (e_E p = 0%nat ->
   exists x s', gives (solve_quadprog_dense mem (give_inverse J s) p) (if Rle_dec (violation p (fun _ => 0)) 0 then st_OPTIMAL else st_UNBOUNDED) x s' /\
     forall i, x i = 0) /\
  ((0 < e_E p)%nat -> (0 < e_n p)%nat ->
   exists x s', gives (solve_quadprog_dense mem (give_inverse J s) p) st_REDUNDANT x s' /\ forall i, x i = 0).
Proof. intros F M. split; [apply zero_ineqs; assumption|apply zero_eqs; assumption]. Qed.
Lemma c58_decides mem s p x0 : used s -> convex p -> well_scaled (nearest p x0) -> (e_E p <= e_n p)%nat ->
  (forall i, (i < e_n p)%nat -> hmul p x0 i + e_g p i = 0) ->
  exists status x s', gives (solve_quadprog_sparse mem s p) status x s' /\
    (status = st_OPTIMAL \/ (status = st_MAX_ITER /\ (getMaxIter s <= subsets (e_I p) (e_n p - e_E p))%nat) \/
     (status = st_UNBOUNDED /\ forall y, ~ feasible p y) \/ (status = st_REDUNDANT /\ eqs_dependent p)).
Proof.
  intros U C W E HX. pose proof (used_given s U) as G. destruct (c58_terminates mem s p x0 G C W E HX) as (status & x & s' & GV & HS).
  exists status, x, s'. split; [exact GV|]. destruct HS as [-> |[-> |[-> | -> ]]]; [auto|right; left|right; right; left|right; right; right]; (split; [reflexivity|]).
  - destruct (Nat.le_gt_cases (getMaxIter s) (subsets (e_I p) (e_n p - e_E p))) as [|L]; [assumption|].
    exfalso. exact (c58_limit mem s p x0 G C W E HX st_MAX_ITER x s' L GV eq_refl).
  - exact (c58_infeasible mem s p x0 G C W E HX x s' GV).
  - exact (c58_redundant mem s p x0 G C W E HX x s' GV).
Qed.
