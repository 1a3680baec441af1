(** The solver object: what the sparse variant returns. *)
From Coq Require Import Lia Lra Psatz List FunctionalExtensionality.
From Verif Require Import Vec SpecBezier ModelData ModelSolver ModelQp ModelQpObj SpecQp SpecQpObj ProofBezier ProofQp ProofQp2 ProofQp3 ProofQp4 ProofQp5 ProofQp6 ProofQp7 ProofQp8 ProofQp14 ProofQp15 ProofQpObj ProofQpObj2 ProofQpObj3 ProofQpObj4 ProofQpObj5.
Import ListNotations.
Open Scope R_scope.

Lemma dist2_ext n x x' y y' : (forall i, (i < n)%nat -> x i = x' i) -> (forall i, (i < n)%nat -> y i = y' i) -> dist2 n x y = dist2 n x' y'.
Proof. intros H H'. apply sumf_ext. intros i Hi. rewrite H, H' by exact Hi. reflexivity. Qed.
(** H (x - y) = 0 implies x = y *)
Lemma hmul_inj p x y : positive_definite p -> (forall i, (i < e_n p)%nat -> hmul p x i = hmul p y i) -> forall i, (i < e_n p)%nat -> x i = y i.
Proof.
  intros PD H i Hi. destruct (Req_dec (x i - y i) 0) as [Z|Z]; [lra|]. exfalso.
  pose proof (PD (fun i => x i - y i) (ex_intro _ i (conj Hi Z))) as P. unfold dot in P. rewrite sumf_zero in P; [lra|].
  intros k Hk. replace (hmul p (fun i => x i - y i) k) with 0; [ring|]. specialize (H k Hk).
  enough (hmul p (fun i => x i - y i) k + hmul p y k = hmul p x k) by lra. unfold hmul, dot. rewrite <- sumf_plus. apply sumf_ext. intros; ring.
Qed.

Section Sparse.
  Variables (mem : qst) (s : solver) (p : eqp) (x0 : rvec).
  Hypotheses (G : v_given s = false) (C : convex p) (W : well_scaled (nearest p x0)) (E : (e_E p <= e_n p)%nat)
    (HX : forall i, (i < e_n p)%nat -> hmul p x0 i + e_g p i = 0).
  Let n := e_n p.
  Let q := limited (v_max s) p.
  Let tol := INR (e_I p) * eps52 * trace n (e_H p) * INR n * 100.

  Lemma sparse_facts : exists c, (forall i, (i < n)%nat -> c i = x0 i) /\
    (forall k, solve_quadprog_sparse mem s p k = answer s p (steps q k (add_equalities q (e_E q) 0 (start p (v_st (fit mem p s)) c eye)))) /\
    (exists k status st, steps q k (add_equalities q (e_E q) 0 (start p (v_st (fit mem p s)) c eye)) =
        Ok (Done status (addf (1 / 2 * dot n (e_g p) c + 1 / 2 * dot n c c) st)) /\
      ends (limited (v_max s) (nearest p c)) tol status st).
  Proof.
    destruct C as [Sy PD]. destruct (chol_succeeds (e_n p) (e_H p) Sy) as (L & EL); [intros v Hv; rewrite qform_dot; apply PD; exact Hv|].
    destruct (chol_ok _ _ _ Sy EL) as (D & T & M). set (c := fun i => - chol_solve n L (e_g p) i). exists c. split; [|split].
    - apply (hmul_inj p); [exact PD|]. intros i Hi. specialize (HX i Hi).
      assert (Z : hmul p c i = - e_g p i).
      { unfold hmul, dot, c. rewrite (sumf_ext (e_n p) _ (fun j => - (e_H p i j * chol_solve (e_n p) L (e_g p) j))) by (intros; unfold n; ring).
        rewrite sumf_opp, chol_solve_ok by assumption. reflexivity. }
      lra.
    - intros k. unfold solve_quadprog_sparse, call, start_sparse. rewrite G, EL. reflexivity.
    - exact (sparse_run p c (v_max s) (v_st (fit mem p s)) L W E eq_refl).
  Qed.
  Lemma sparse_ends status x s' : gives (solve_quadprog_sparse mem s p) status x s' -> exists c st, (forall i, (i < n)%nat -> c i = x0 i) /\
    x = q_x st /\ s' = after s p status (addf (1 / 2 * dot n (e_g p) c + 1 / 2 * dot n c c) st) /\ ends (limited (v_max s) (nearest p c)) tol status st.
  Proof.
    intros (k & E0). destruct sparse_facts as (c & Hc & EC & k2 & status2 & st & E2 & F2). rewrite EC in E0. apply answer_done in E0.
    destruct E0 as (st1 & E1 & -> & ->). destruct (steps_unique _ _ _ _ _ _ _ _ E1 E2) as [-> ->]. exists c, st. repeat split; assumption.
  Qed.
  Lemma c58_terminates : exists status x s', gives (solve_quadprog_sparse mem s p) status x s' /\
    (status = st_OPTIMAL \/ status = st_MAX_ITER \/ status = st_UNBOUNDED \/ status = st_REDUNDANT).
  Proof.
    destruct sparse_facts as (c & Hc & EC & k & status & st & E1 & F1). eexists status, _, _. split; [exists k; rewrite EC, E1; reflexivity|].
    destruct F1; auto.
  Qed.
  Lemma c58_infeasible x s' : gives (solve_quadprog_sparse mem s p) st_UNBOUNDED x s' -> forall y, ~ feasible p y.
  Proof.
    intros H. destruct (sparse_ends _ _ _ H) as (c & st & _ & _ & _ & EN). remember st_UNBOUNDED as u eqn:EU. destruct EN; try discriminate.
    exact H0.
  Qed.
  Lemma c58_redundant x s' : gives (solve_quadprog_sparse mem s p) st_REDUNDANT x s' -> eqs_dependent p.
  Proof.
    intros H. destruct (sparse_ends _ _ _ H) as (c & st & _ & _ & _ & EN). remember st_REDUNDANT as u eqn:EU. destruct EN; try discriminate.
    exact H0.
  Qed.
  Lemma c58_projection status x s' : gives (solve_quadprog_sparse mem s p) status x s' -> status = st_OPTIMAL \/ status = st_MAX_ITER ->
    eqs_hold p x /\ getObjValue s' = 1 / 2 * dot n (e_g p) x0 + 1 / 2 * dist2 n x x0 /\
    (status = st_OPTIMAL -> violation p x <= tol) /\
    forall y, eqs_hold p y -> (forall j, (j < e_I p)%nat -> slack p x j = 0 -> 0 <= slack p y j) -> dist2 n x x0 + dist2 n y x <= dist2 n y x0.
  Proof.
    intros H HS. destruct (sparse_ends _ _ _ H) as (c & st & Hc & -> & -> & EN). set (q' := limited (v_max s) (nearest p c)) in *.
    assert (I : inv q' (e_E q') 0 0 st) by (destruct EN; try assumption; destruct HS; discriminate).
    assert (DC : forall y, dist2 n y c = dist2 n y x0) by (intros y; apply dist2_ext; [reflexivity|exact Hc]).
    split; [exact (inv_eqs _ _ I)|]. split; [|split].
    - unfold getObjValue, after, addf. cbn [v_st q_f]. rewrite (i_f _ _ _ _ _ I). change (objective q' (q_x st)) with (objective (nearest p c) (q_x st)).
      rewrite nearest_obj. fold n. rewrite DC. rewrite (dot_ext n (e_g p) (e_g p) c x0) by (auto; exact Hc). ring.
    - intros HO. subst status. remember st_OPTIMAL as so eqn:ES. destruct EN as [st2 I2 V| | |]; try discriminate. change (violation q' (q_x st2) <= tol).
      destruct V as [V|V]; [exact V|]. rewrite V. unfold tol. pose proof eps_pos. repeat apply Rmult_le_pos; try lra; try apply pos_INR.
      apply sumf_nonneg. intros i Hi. destruct C as [_ PD].
      assert (DI : delta i i <> 0) by (unfold delta; rewrite Nat.eqb_refl; lra). pose proof (PD (delta i) (ex_intro _ i (conj Hi DI))) as P.
      unfold dot in P. fold n in P. rewrite delta_sum in P by exact Hi. unfold hmul, dot in P. fold n in P.
      rewrite (sumf_ext n _ (fun j => delta i j * e_H p i j)) in P by (intros; ring). rewrite delta_sum in P by exact Hi. lra.
    - intros y Y YA. pose proof (inv_opt q' st y (nearest_sym p c) I Y YA) as O. change (objective q' ?a) with (objective (nearest p c) a) in O.
      rewrite !nearest_obj in O. fold n in O. rewrite !DC in O.
      assert (Z : dot (e_n q') (fun k => y k - q_x st k) (hmul q' (fun k => y k - q_x st k)) = dist2 n y (q_x st)).
      { apply sumf_ext. intros i Hi. change (hmul q' ?v i) with (hmul (nearest p c) v i). rewrite eye_mul by exact Hi. reflexivity. }
      rewrite Z in O. lra.
  Qed.
  Lemma c58_limit status x s' : (subsets (e_I p) (e_n p - e_E p) < getMaxIter s)%nat -> gives (solve_quadprog_sparse mem s p) status x s' -> status <> st_MAX_ITER.
  Proof.
    intros HN (k & E0). destruct sparse_facts as (c & Hc & EC & _). rewrite EC in E0. apply answer_done in E0. destruct E0 as (st & E1 & _ & _).
    refine (sparse_limit p c (v_max s) (v_st (fit mem p s)) k status st _ E HN E1).
    intros v z Hv (a & b & D1 & D2 & D3). apply (W v z Hv). exists a, b. split; [|split]; assumption.
  Qed.
  (** with a multiple of the identity as Hessian, the nearest point is the minimiser *)
  Lemma scalar_objective h y : (forall i j, (i < n)%nat -> (j < n)%nat -> e_H p i j = h * eye i j) ->
    objective p y = h / 2 * dist2 n y x0 + 1 / 2 * dot n (e_g p) x0.
  Proof.
    intros HH. assert (HM : forall v i, (i < n)%nat -> hmul p v i = h * v i).
    { intros v i Hi. unfold hmul, dot. fold n. rewrite (sumf_ext n _ (fun j => h * (delta i j * v j))).
      - rewrite sumf_scal, delta_sum by exact Hi. reflexivity.
      - intros j Hj. rewrite HH by assumption. unfold eye, delta. ring. }
    assert (HG : forall i, (i < n)%nat -> e_g p i = - (h * x0 i)).
    { intros i Hi. specialize (HX i Hi). rewrite HM in HX by exact Hi. lra. }
    unfold objective, dist2. fold n. rewrite (dot_ext n y y (hmul p y) (fun i => h * y i)) by (auto; intros; apply HM; assumption).
    rewrite (dot_ext n (e_g p) (fun i => - (h * x0 i)) y y), (dot_ext n (e_g p) (fun i => - (h * x0 i)) x0 x0) by (auto; exact HG). unfold dot.
    rewrite <- !sumf_scal, <- !sumf_plus. apply sumf_ext. intros i Hi. field.
  Qed.
  Lemma c58_scalar h x s' : 0 < h -> (forall i j, (i < n)%nat -> (j < n)%nat -> e_H p i j = h * eye i j) ->
    gives (solve_quadprog_sparse mem s p) st_OPTIMAL x s' -> forall y, feasible p y -> objective p x <= objective p y.
  Proof.
    intros Hh HH H y (Y1 & Y2). destruct (c58_projection _ _ _ H (or_introl eq_refl)) as (_ & _ & _ & P).
    specialize (P y Y1 (fun j Hj _ => Y2 j Hj)). rewrite !(scalar_objective h) by exact HH.
    assert (D0 : 0 <= dist2 n y x) by (apply sumf_nonneg; intros i _; apply Rle_0_sqr).
    apply Rplus_le_compat_r, Rmult_le_compat_l; lra.
  Qed.
End Sparse.

(** * A wrong answer *)
Lemma skew_convex : convex (eqp_of skew).
Proof.
  split.
  - intros i j Hi Hj. cbn in Hi, Hj. destruct i as [|[|i]], j as [|[|j]]; try lia; reflexivity.
  - intros v (i & Hi & Hv). unfold hmul, dot, skew. qp_cbn. cbn [sumf]. unfold mat_of. cbn [nth]. cbn in Hi.
    assert (v 0%nat <> 0 \/ v 1%nat <> 0) as HV by (destruct i as [|[|i]]; [left|right|lia]; exact Hv).
    destruct (Req_dec (v 0%nat) 0) as [Z|Z].
    + destruct HV as [HV|HV]; [contradiction|]. rewrite Z. pose proof (Rsqr_pos_lt _ HV) as P. unfold Rsqr in P. nra.
    + pose proof (Rsqr_pos_lt _ Z) as P. unfold Rsqr in P. nra.
Qed.
Lemma skew_hmul c z i : (i < 2)%nat -> hmul (nearest (eqp_of skew) c) z i = z i.
Proof. intros Hi. apply eye_mul. exact Hi. Qed.
Lemma skew_scaled c : well_scaled (nearest (eqp_of skew) c).
Proof.
  pose proof eps_pos as EP. pose proof eps_small as ES. assert (EE : eps52 * eps52 < / 10000) by nra.
  assert (Rows : forall v, is_row (nearest (eqp_of skew) c) v -> v 0%nat = 1 /\ v 1%nat = 0).
  { intros v [(i & Hi & ->)|(i & Hi & ->)]; cbn in Hi; [lia|]. destruct i; [|lia]. unfold nearest, recost, skew. qp_cbn. unfold mat_of. split; reflexivity. }
  intros v z Hv (a & b & D1 & D2 & D3). destruct (Rows v Hv) as [V0 V1].
  pose proof (D1 0%nat ltac:(cbn; lia)) as Z0. pose proof (D1 1%nat ltac:(cbn; lia)) as Z1. rewrite skew_hmul in Z0, Z1 by lia.
  pose proof (D3 0%nat ltac:(cbn; lia)) as C0. revert Z0 Z1 C0. unfold dot at 1. unfold nearest, recost, skew. qp_cbn. cbn [sumf]. unfold mat_of. cbn [nth]. intros Z0 Z1 C0.
  fold skew. fold (recost (eqp_of skew) eye (fun i => - c i)). fold (nearest (eqp_of skew) c).
  destruct (Req_dec (b 0%nat) 0) as [A0|N].
  - right. assert (E0 : z 0%nat = 1) by lra. assert (E1 : z 1%nat = 0) by lra. unfold dot. change (e_n (nearest (eqp_of skew) c)) with 2%nat. cbn [sumf].
    rewrite E0, E1, V0, V1. split; [lra|]. split; [lra|]. intros v' w Hv' Hw. destruct (Rows v' Hv') as [V0' V1'].
    assert (W0 : w 0%nat = v' 0%nat) by (rewrite <- (skew_hmul c w 0%nat) by lia; apply Hw; cbn; lia).
    assert (W1 : w 1%nat = v' 1%nat) by (rewrite <- (skew_hmul c w 1%nat) by lia; apply Hw; cbn; lia).
    rewrite W0, W1, V0', V1'. nra.
  - left. specialize (C0 N). intros i Hi. cbn in Hi. destruct i as [|[|i]]; [lra|lra|lia].
Qed.
Lemma skew_objective y : objective (eqp_of skew) y = y 0%nat * y 0%nat + y 0%nat * y 1%nat + 1 / 2 * (y 1%nat * y 1%nat).
Proof. unfold objective, hmul, dot, skew. qp_cbn. cbn [sumf]. unfold mat_of, vec_of. cbn [nth]. field. Qed.
Lemma skew_slack y : slack (eqp_of skew) y 0%nat = y 0%nat - 1.
Proof. unfold slack, dot, skew. qp_cbn. cbn [sumf]. unfold mat_of, vec_of. cbn [nth]. ring. Qed.
Lemma skew_feasible y : 1 <= y 0%nat -> feasible (eqp_of skew) y.
Proof. intros H. split; intros i Hi; cbn in Hi; [lia|]. assert (i = 0%nat) by lia. subst i. rewrite skew_slack. lra. Qed.
Definition vec2 (a b : R) : rvec := fun i => match i with O => a | _ => b end.
Lemma skew_wrong mem : let p := eqp_of skew in
  convex p /\ exists x s', gives (solve_quadprog_sparse mem (new_solver mem) p) st_OPTIMAL x s' /\ feasible p x /\ getObjValue s' <> objective p x /\
    exists y, feasible p y /\ objective p y < objective p x.
Proof.
  intros p. split; [exact skew_convex|]. pose proof eps_pos as EP. pose proof eps_small as ES.
  assert (HX : forall i, (i < e_n p)%nat -> hmul p (fun _ => 0) i + e_g p i = 0).
  { intros i Hi. cbn in Hi. unfold hmul, dot, p, skew. qp_cbn. cbn [sumf]. unfold vec_of. destruct i as [|[|i]]; [| |lia]; cbn [nth]; ring. }
  assert (HE : (e_E p <= e_n p)%nat) by (cbn; lia). pose proof (skew_scaled (fun _ => 0)) as W.
  destruct (c58_terminates mem (new_solver mem) p (fun _ => 0) eq_refl skew_convex W HE HX) as (status & x & s' & G & HS).
  assert (HO : status = st_OPTIMAL).
  { destruct HS as [HS|[HS|[HS|HS]]]; [exact HS|exfalso..].
    - refine (c58_limit mem (new_solver mem) p (fun _ => 0) eq_refl skew_convex W HE HX status x s' _ G HS). exact (proj1 (Nat.ltb_lt 2 DEFAULT_MAX_ITER) eq_refl).
    - subst status. refine (c58_infeasible mem (new_solver mem) p (fun _ => 0) eq_refl skew_convex W HE HX x s' G (fun _ => 1) _). apply skew_feasible. lra.
    - subst status. destruct (c58_redundant mem (new_solver mem) p (fun _ => 0) eq_refl skew_convex W HE HX x s' G) as (c & (k & Hk & _) & _). cbn in Hk. lia. }
  subst status. destruct (c58_projection mem (new_solver mem) p (fun _ => 0) eq_refl skew_convex W HE HX st_OPTIMAL x s' G (or_introl eq_refl)) as (_ & OV & VI & PR).
  specialize (VI eq_refl). change (e_n p) with 2%nat in *.
  assert (VI' : 1 - x 0%nat <= 600 * eps52).
  { pose proof (slack_violation p x 0%nat ltac:(cbn; lia)) as SV. assert (SL : slack p x 0%nat = x 0%nat - 1) by apply skew_slack. rewrite SL in SV. change (e_I p) with 1%nat in VI.
    assert (TR : trace 2 (e_H p) = 3) by (unfold trace, p, skew; qp_cbn; cbn [sumf]; unfold mat_of; cbn [nth]; ring). rewrite TR in VI. cbn [INR] in VI. lra. }
  assert (X : x 0%nat = 1 /\ x 1%nat = 0).
  { destruct (Req_dec (x 0%nat) 1) as [X0|X0].
    - split; [exact X0|]. specialize (PR (vec2 1 0) ltac:(intros i Hi; cbn in Hi; lia)).
      assert (Z : dist2 2 x (fun _ => 0) + dist2 2 (vec2 1 0) x <= dist2 2 (vec2 1 0) (fun _ => 0)).
      { apply PR. intros j Hj _. cbn in Hj. assert (j = 0%nat) by lia. subst j. unfold p. rewrite skew_slack. cbn. lra. }
      unfold dist2 in Z. cbn [sumf vec2] in Z. rewrite X0 in Z. nra.
    - exfalso. specialize (PR (fun _ => 0) ltac:(intros i Hi; cbn in Hi; lia)).
      assert (Z : dist2 2 x (fun _ => 0) + dist2 2 (fun _ => 0) x <= dist2 2 (fun _ => 0) (fun _ => 0)).
      { apply PR. intros j Hj SZ. cbn in Hj. assert (j = 0%nat) by lia. subst j. unfold p in SZ. rewrite skew_slack in SZ. lra. }
      unfold dist2 in Z. cbn [sumf] in Z. nra. }
  destruct X as [X0 X1]. exists x, s'. split; [exact G|]. split; [apply skew_feasible; lra|]. unfold p. rewrite skew_objective, X0, X1. split.
  - rewrite OV. unfold dot, dist2, p, skew. qp_cbn. cbn [sumf]. unfold vec_of. cbn [nth]. rewrite X0, X1. lra.
  - exists (vec2 1 (-1)). split; [apply skew_feasible; cbn; lra|]. rewrite skew_objective. cbn [vec2]. lra.
Qed.
