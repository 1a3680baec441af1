(** QP solver: what the invariant says about the point. *)
From Coq Require Import Lia Lra Psatz List FunctionalExtensionality.
From Verif Require Import Vec SpecBezier ModelData ModelSolver ModelQp SpecQp ProofBezier ProofQp ProofQp2 ProofQp3 ProofQp4 ProofQp5 ProofQp6.
Open Scope R_scope.

Lemma inv_eqs q st : inv q (e_E q) 0 0 st -> eqs_hold q (q_x st).
Proof.
  intros I i Hi. pose proof (i_e _ _ _ _ _ I). pose proof (i_act _ _ _ _ _ I i ltac:(lia)) as A.
  rewrite (i_eq _ _ _ _ _ I i Hi), normal_eq, offset_eq in A. exact A.
Qed.
Lemma inv_opt q st y : symmetric q -> inv q (e_E q) 0 0 st -> eqs_hold q y ->
  (forall j, (j < e_I q)%nat -> slack q (q_x st) j = 0 -> 0 <= slack q y j) ->
  objective q (q_x st) + 1 / 2 * dot (e_n q) (fun k => y k - q_x st k) (hmul q (fun k => y k - q_x st k)) <= objective q y.
Proof.
  intros Sy I Ye Ya. set (z := fun k => y k - q_x st k).
  replace y with (fun k => q_x st k + 1 * z k) by (apply functional_extensionality; intros k; unfold z; ring).
  rewrite obj_move by exact Sy. enough (P : 0 <= dot (e_n q) z (fun i => hmul q (q_x st) i + e_g q i)) by lra.
  rewrite (dot_ext _ z z _ (fun i => sumf (q_iq st) (fun k => q_u st k * normal q (q_A st k) i))).
  2: reflexivity.
  2: { intros i Hi. rewrite (i_st _ _ _ _ _ I i Hi). ring. }
  rewrite dot_sum. apply sumf_nonneg. intros k Hk. rewrite (dot_sym _ z). change (0 <= q_u st k * dot (e_n q) (normal q (q_A st k)) z).
  assert (E : dot (e_n q) (normal q (q_A st k)) z = dot (e_n q) (normal q (q_A st k)) y - dot (e_n q) (normal q (q_A st k)) (q_x st)).
  { unfold dot, z. rewrite <- sumf_minus. apply sumf_ext. intros; ring. }
  rewrite E. pose proof (i_act _ _ _ _ _ I k Hk) as A. destruct (Nat.lt_ge_cases k (e_E q)) as [H|H].
  - rewrite (i_eq _ _ _ _ _ I k H), normal_eq, offset_eq in *. specialize (Ye k H). unfold eq_gap in Ye.
    replace (dot (e_n q) (e_CE q k) y - dot (e_n q) (e_CE q k) (q_x st)) with 0 by lra. lra.
  - destruct (i_in _ _ _ _ _ I k ltac:(lia)) as (j & Hj & EA). pose proof (i_u _ _ _ _ _ I k ltac:(lia)) as U.
    rewrite EA, normal_in, offset_in in *. specialize (Ya j Hj A). unfold slack in Ya.
    apply Rmult_le_pos; [exact U|lra].
Qed.
Lemma pd_nonneg q v : positive_definite q -> 0 <= dot (e_n q) v (hmul q v).
Proof.
  intros PD. destruct (Rlt_dec 0 (dot (e_n q) v (hmul q v))) as [|H]; [lra|].
  assert (Z : forall i, (i < e_n q)%nat -> v i = 0).
  { intros i Hi. destruct (Req_dec (v i) 0) as [|E]; [assumption|]. exfalso. apply H, PD. exists i. auto. }
  right. symmetry. apply sumf_zero. intros i Hi. rewrite Z by exact Hi. ring.
Qed.
Lemma inv_min q st y : convex q -> inv q (e_E q) 0 0 st -> eqs_hold q y ->
  (forall j, (j < e_I q)%nat -> slack q (q_x st) j = 0 -> 0 <= slack q y j) ->
  objective q (q_x st) <= objective q y /\
  (objective q y <= objective q (q_x st) -> forall k, (k < e_n q)%nat -> y k = q_x st k).
Proof.
  intros [Sy PD] I Ye Ya. pose proof (inv_opt q st y Sy I Ye Ya) as O. set (z := fun k => y k - q_x st k) in *.
  pose proof (pd_nonneg q z PD). split; [lra|]. intros H' k Hk. destruct (Req_dec (z k) 0) as [E|E]; [unfold z in E; lra|].
  exfalso. pose proof (PD z (ex_intro _ k (conj Hk E))). lra.
Qed.
Lemma violation_zero q x : violation q x <= 0 -> ineqs_hold q x.
Proof.
  intros H i Hi. unfold violation in H. destruct (Rle_dec 0 (slack q x i)) as [|N]; [assumption|]. exfalso.
  assert (P : 0 < sumf (e_I q) (fun i => Rmax 0 (- slack q x i))); [|lra].
  apply Rlt_le_trans with (Rmax 0 (- slack q x i)); [pose proof (Rmax_r 0 (- slack q x i)); lra|].
  assert (S1 : sumf (e_I q) (fun j => if Nat.eqb j i then Rmax 0 (- slack q x i) else 0) = Rmax 0 (- slack q x i)).
  2: { rewrite <- S1. apply sumf_le. intros j _. cbv beta. destruct (Nat.eqb_spec j i) as [->|]; [lra|apply Rmax_l]. }
  rewrite (sumf_one (e_I q) _ i Hi); [now rewrite Nat.eqb_refl|]. intros j _ Hne. now rewrite (proj2 (Nat.eqb_neq _ _) Hne).
Qed.
Lemma steps_done q s st : forall k, steps q k (Ok (Done s st)) = Ok (Done s st).
Proof. destruct k; reflexivity. Qed.
Lemma returns_unique q mem s st k s' st' : returns q mem s st -> execution q mem k = Ok (Done s' st') -> s = s' /\ st = st'.
Proof.
  intros (k0 & E0) E. unfold execution in *. assert (P : steps q (k0 + k) (solve_init q mem) = steps q (k + k0) (solve_init q mem)) by (f_equal; lia).
  rewrite !steps_add, E0, E, !steps_done in P. injection P. auto.
Qed.
Lemma returns_ends q mem s st : convex q -> well_scaled q -> (e_E q <= e_n q)%nat -> returns q mem s st ->
  exists L, is_cholesky q L /\ ends q (tolerance q L) s st.
Proof.
  intros C W E H. destruct (solve_ends q mem C W E) as (L & k & s' & st' & HL & EX & EN).
  destruct (returns_unique _ _ _ _ _ _ _ H EX) as [-> ->]. exists L. auto.
Qed.

Section C40.
  Variables (q : eqp) (mem : qst).
  Hypothesis HC : convex q.
  Hypothesis HW : well_scaled q.
  Hypothesis HE : (e_E q <= e_n q)%nat.

  Lemma c40_ends : exists status st, returns q mem status st /\
    (status = st_OPTIMAL \/ status = st_MAX_ITER \/ status = st_UNBOUNDED \/ status = st_REDUNDANT).
  Proof.
    destruct (solve_ends q mem HC HW HE) as (L & k & s & st & _ & EX & EN). exists s, st. split; [exists k; exact EX|].
    destruct EN; auto.
  Qed.
  Lemma c40_safe : ~ undefined q mem.
  Proof.
    intros (k & E). destruct (solve_ends q mem HC HW HE) as (L & k0 & s & st & _ & EX & _). unfold execution in *.
    assert (P : steps q (k0 + k) (solve_init q mem) = steps q (k + k0) (solve_init q mem)) by (f_equal; lia).
    rewrite !steps_add, E, EX, steps_done in P. destruct k0; discriminate.
  Qed.
  Lemma c40_optimal st : returns q mem st_OPTIMAL st ->
    eqs_hold q (q_x st) /\ q_f st = objective q (q_x st) /\
    (exists L, is_cholesky q L /\ violation q (q_x st) <= tolerance q L) /\
    forall y, eqs_hold q y -> (forall j, (j < e_I q)%nat -> slack q (q_x st) j = 0 -> 0 <= slack q y j) ->
      objective q (q_x st) <= objective q y /\
      (objective q y <= objective q (q_x st) -> forall k, (k < e_n q)%nat -> y k = q_x st k).
  Proof.
    intros H. destruct (returns_ends _ _ _ _ HC HW HE H) as (L & HL & EN). remember st_OPTIMAL as s eqn:ES. destruct EN as [st I V| | |]; try discriminate.
    split; [apply inv_eqs; exact I|]. split; [apply I|]. split; [|intros; apply inv_min; assumption].
    exists L. split; [exact HL|]. pose proof (tolerance_nonneg q L HL). destruct V; lra.
  Qed.
  Lemma c40_bound st status : returns q mem status st -> status = st_OPTIMAL \/ status = st_MAX_ITER ->
    eqs_hold q (q_x st) /\ q_f st = objective q (q_x st) /\ forall y, feasible q y -> objective q (q_x st) <= objective q y.
  Proof.
    intros H HS. destruct (returns_ends _ _ _ _ HC HW HE H) as (L & HL & EN).
    assert (I : inv q (e_E q) 0 0 st). { destruct EN; try assumption; destruct HS; discriminate. }
    split; [apply inv_eqs; exact I|]. split; [apply I|]. intros y (Y1 & Y2). apply (inv_min q st y HC I Y1). auto.
  Qed.
  Lemma c40_minimiser st : returns q mem st_OPTIMAL st -> violation q (q_x st) = 0 ->
    feasible q (q_x st) /\ forall y, feasible q y -> objective q (q_x st) <= objective q y /\
      (objective q y <= objective q (q_x st) -> forall k, (k < e_n q)%nat -> y k = q_x st k).
  Proof.
    intros H V. destruct (c40_optimal st H) as (P1 & _ & _ & P2). split; [split; [exact P1|apply violation_zero; lra]|].
    intros y (Y1 & Y2). apply P2; [exact Y1|]. auto.
  Qed.
  Lemma c40_unbounded st : returns q mem st_UNBOUNDED st -> forall y, ~ feasible q y.
  Proof.
    intros H. destruct (returns_ends _ _ _ _ HC HW HE H) as (L & HL & EN). remember st_UNBOUNDED as s eqn:ES. destruct EN; try discriminate. assumption.
  Qed.
  Lemma c40_redundant st : returns q mem st_REDUNDANT st -> eqs_dependent q.
  Proof.
    intros H. destruct (returns_ends _ _ _ _ HC HW HE H) as (L & HL & EN). remember st_REDUNDANT as s eqn:ES. destruct EN; try discriminate. assumption.
  Qed.
End C40.
