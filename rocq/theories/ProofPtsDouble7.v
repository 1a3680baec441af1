(** What the errors of the control points do to the curve and to its derivatives at the two ends. *)
From Coq Require Import List Lia Lra Psatz.
From Flocq Require Import Core BinarySingleNaN.
From Verif Require Import Vec SpecBezier ModelData ModelWaypoints ModelWaypointsJerk ModelDispatch ModelEff SpecCom SpecEff Double ModelPtsDouble SpecDouble SpecPtsDouble
  ProofPtsDouble6 ProofBezier ProofCurve ProofWaypoints ProofWaypoints2 ProofEff ProofEff5 ProofEff8 ProofEff13.
Import ListNotations.
Open Scope R_scope.

Definition linear (ax : vec3 -> R) : Prop := (forall a b, ax (vsub a b) = ax a - ax b) /\ (forall k a, ax (vscal k a) = k * ax a) /\ ax vzero = 0.
Lemma axis_linear ax : axis ax -> linear ax.
Proof. intros [->|[->| ->]]; repeat split. Qed.
Lemma coord_nth ax P i : ax vzero = 0 -> coord ax P i = ax (nth i P vzero).
Proof. intros H. unfold coord. rewrite <- H at 1. apply map_nth. Qed.
Lemma curve_ax ax P T t : axis ax -> ax (curve P T t) = bezl (map ax P) (t / T).
Proof. intros [->|[->| ->]]; reflexivity. Qed.

Section D.
  Variables (ax : vec3 -> R) (Hax : axis ax) (T : R) (m : nat).
  Let H := axis_linear ax Hax.
  Lemma d1 P i : length P = S (S (S (S m))) -> (i < S (S (S m)))%nat ->
    coord ax (hodo T P) i = INR (S (S (S m))) / T * (coord ax P (S i) - coord ax P i).
  Proof. intros L Hi. destruct H as (H1 & H2 & _). rewrite coord_hodo by (auto; lia). rewrite L. reflexivity. Qed.
  Lemma d2 P i : length P = S (S (S (S m))) -> (i < S (S m))%nat ->
    coord ax (hodo T (hodo T P)) i = INR (S (S m)) / T * (INR (S (S (S m))) / T * (coord ax P (S (S i)) - 2 * coord ax P (S i) + coord ax P i)).
  Proof.
    intros L Hi. destruct H as (H1 & H2 & _). rewrite coord_hodo by (auto; rewrite length_hodo; lia). rewrite length_hodo, L. cbn [Nat.pred].
    rewrite !d1 by (auto; lia). ring.
  Qed.
  Lemma d3 P i : length P = S (S (S (S m))) -> (i < S m)%nat ->
    coord ax (hodo T (hodo T (hodo T P))) i = INR (S m) / T * (INR (S (S m)) / T * (INR (S (S (S m))) / T *
      (coord ax P (S (S (S i))) - 3 * coord ax P (S (S i)) + 3 * coord ax P (S i) - coord ax P i))).
  Proof.
    intros L Hi. destruct H as (H1 & H2 & _). rewrite coord_hodo by (auto; rewrite !length_hodo; lia). rewrite !length_hodo, L. cbn [Nat.pred].
    rewrite !d2 by (auto; lia). ring.
  Qed.
End D.

Lemma hd_nth (l : list vec3) : hd vzero l = nth 0 l vzero.
Proof. destruct l; reflexivity. Qed.
Lemma last_nth (l : list vec3) : last l vzero = nth (length l - 1) l vzero.
Proof.
  induction l as [|a l IH]; [reflexivity|]. destruct l as [|b l]; [reflexivity|].
  change (last (a :: b :: l) vzero) with (last (b :: l) vzero). rewrite IH. cbn [length]. replace (S (S (length l)) - 1)%nat with (S (S (length l) - 1)) by lia. reflexivity.
Qed.
Lemma quot_pos n T : 0 <= n -> 0 < T -> 0 <= n / T.
Proof. intros H1 H2. apply Rmult_le_pos; [exact H1|left; apply Rinv_0_lt_compat, H2]. Qed.

Section E.
  Variables (T : R) (m : nat) (P Q : list vec3).
  Hypotheses (HT : 0 < T) (LP : length P = S (S (S (S m)))) (LQ : length Q = S (S (S (S m)))).
  Let n := INR (S (S (S m))).
  Let N1 : INR (S (S m)) = n - 1. Proof. unfold n. rewrite (S_INR (S (S m))). ring. Qed.
  Let N2 : INR (S m) = n - 2. Proof. unfold n. rewrite !S_INR. ring. Qed.
  Let n0 : 0 <= n. Proof. apply pos_INR. Qed.
  Let n1 : 0 <= n - 1. Proof. rewrite <- N1. apply pos_INR. Qed.
  Let n2 : 0 <= n - 2. Proof. rewrite <- N2. apply pos_INR. Qed.

  (** one axis: [a], [b], [c], [d] are the deviations of consecutive points *)
  Lemma k1 a b A : 0 <= A -> b = 0 -> Rabs a <= A -> Rabs (n / T * (a - b)) <= n / T * A /\ Rabs (n / T * (b - a)) <= n / T * A.
  Proof.
    intros HA -> Ha. rewrite !Rabs_mult, (Rabs_right (n / T)) by (apply Rle_ge, quot_pos; assumption).
    pose proof (quot_pos n T n0 HT). replace (0 - a) with (- a) by ring. replace (a - 0) with a by ring. rewrite Rabs_Ropp. split; apply Rmult_le_compat_l; assumption.
  Qed.
  Lemma k2 c a b C A : b = 0 -> Rabs c <= C -> Rabs a <= A ->
    Rabs ((n - 1) / T * (n / T * (c - 2 * a + b))) <= n * (n - 1) / T ^ 2 * (C + 2 * A).
  Proof.
    intros -> Hc Ha. replace ((n - 1) / T * (n / T * (c - 2 * a + 0))) with (n * (n - 1) / T ^ 2 * (c - 2 * a)) by (field; lra).
    assert (K : 0 <= n * (n - 1) / T ^ 2) by (apply quot_pos; [apply Rmult_le_pos; assumption|apply pow_lt, HT]).
    rewrite Rabs_mult, (Rabs_right (n * (n - 1) / T ^ 2)) by (apply Rle_ge, K). apply Rmult_le_compat_l; [exact K|].
    revert Hc Ha. unfold Rabs. repeat destruct (Rcase_abs _); lra.
  Qed.
  Lemma k3 d c a b D C A : b = 0 -> Rabs d <= D -> Rabs c <= C -> Rabs a <= A ->
    Rabs ((n - 2) / T * ((n - 1) / T * (n / T * (d - 3 * c + 3 * a - b)))) <= n * (n - 1) * (n - 2) / T ^ 3 * (D + 3 * C + 3 * A).
  Proof.
    intros -> Hd Hc Ha. replace ((n - 2) / T * ((n - 1) / T * (n / T * (d - 3 * c + 3 * a - 0)))) with (n * (n - 1) * (n - 2) / T ^ 3 * (d - 3 * c + 3 * a)) by (field; lra).
    assert (K : 0 <= n * (n - 1) * (n - 2) / T ^ 3) by (apply quot_pos; [repeat apply Rmult_le_pos; assumption|apply pow_lt, HT]).
    rewrite Rabs_mult, (Rabs_right (n * (n - 1) * (n - 2) / T ^ 3)) by (apply Rle_ge, K). apply Rmult_le_compat_l; [exact K|].
    revert Hd Hc Ha. unfold Rabs. repeat destruct (Rcase_abs _); lra.
  Qed.
  Lemma k3' d c a b D C A : b = 0 -> Rabs d <= D -> Rabs c <= C -> Rabs a <= A ->
    Rabs ((n - 2) / T * ((n - 1) / T * (n / T * (b - 3 * a + 3 * c - d)))) <= n * (n - 1) * (n - 2) / T ^ 3 * (D + 3 * C + 3 * A).
  Proof.
    intros Hb Hd Hc Ha. rewrite <- Rabs_Ropp.
    replace (- ((n - 2) / T * ((n - 1) / T * (n / T * (b - 3 * a + 3 * c - d))))) with ((n - 2) / T * ((n - 1) / T * (n / T * (d - 3 * c + 3 * a - b)))) by ring.
    now apply k3.
  Qed.

  Lemma at_0 k w (e : (vec3 -> R) -> R) : is_deriv_n k (curve Q T) 0 w ->
    (forall ax, axis ax -> Rabs (coord ax (hodo_n k T P) 0 - coord ax (hodo_n k T Q) 0) <= e ax) ->
    exists v, is_deriv_n k (curve P T) 0 v /\ apart e v w.
  Proof.
    intros Hw H. exists (hd vzero (hodo_n k T P)). split; [apply is_deriv_n_at_0; reflexivity|].
    apply curve_deriv_n_eq in Hw. rewrite curve_at_0 in Hw. subst w. intros ax Hax. specialize (H ax Hax).
    rewrite !coord_nth in H by apply (axis_linear ax Hax). rewrite !hd_nth. exact H.
  Qed.
  Lemma at_T k w (e : (vec3 -> R) -> R) j : is_deriv_n k (curve Q T) T w -> length (hodo_n k T P) = S j -> length (hodo_n k T Q) = S j ->
    (forall ax, axis ax -> Rabs (coord ax (hodo_n k T P) j - coord ax (hodo_n k T Q) j) <= e ax) ->
    exists v, is_deriv_n k (curve P T) T v /\ apart e v w.
  Proof.
    intros Hw K1 K2 H. exists (last (hodo_n k T P) vzero). split; [apply is_deriv_n_at_T; [lra|reflexivity]|].
    apply curve_deriv_n_eq in Hw. rewrite curve_at_T in Hw by lra. subst w. intros ax Hax. specialize (H ax Hax).
    rewrite !coord_nth in H by apply (axis_linear ax Hax). rewrite !last_nth, K1, K2. cbn [Nat.sub]. rewrite Nat.sub_0_r. exact H.
  Qed.

  (** deviations at the start *)
  Variables (s : nat -> (vec3 -> R) -> R).
  Let dev ax i := coord ax P i - coord ax Q i.
  Lemma start1 w : (forall ax, axis ax -> dev ax 0 = 0 /\ Rabs (dev ax 1) <= s 1%nat ax) -> is_deriv_n 1 (curve Q T) 0 w ->
    exists v, is_deriv_n 1 (curve P T) 0 v /\ apart (fun ax => n / T * s 1%nat ax) v w.
  Proof.
    intros H Hw. apply at_0; [exact Hw|]. intros ax Hax. destruct (H ax Hax) as (H0 & H1). cbn [hodo_n].
    rewrite !(d1 ax Hax T m) by (auto; lia). fold n.
    replace (n / T * (coord ax P 1 - coord ax P 0) - n / T * (coord ax Q 1 - coord ax Q 0)) with (n / T * (dev ax 1 - dev ax 0)) by (unfold dev; ring).
    refine (proj1 (k1 (dev ax 1) (dev ax 0) _ _ H0 H1)). pose proof (Rabs_pos (dev ax 1)). lra.
  Qed.
  Lemma start2 w : (forall ax, axis ax -> dev ax 0 = 0 /\ Rabs (dev ax 1) <= s 1%nat ax /\ Rabs (dev ax 2) <= s 2%nat ax) -> is_deriv_n 2 (curve Q T) 0 w ->
    exists v, is_deriv_n 2 (curve P T) 0 v /\ apart (fun ax => n * (n - 1) / T ^ 2 * (s 2%nat ax + 2 * s 1%nat ax)) v w.
  Proof.
    intros H Hw. apply at_0; [exact Hw|]. intros ax Hax. destruct (H ax Hax) as (H0 & H1 & H2). cbn [hodo_n].
    rewrite !(d2 ax Hax T m) by (auto; lia). rewrite N1. fold n.
    match goal with |- Rabs ?x <= _ => replace x with ((n - 1) / T * (n / T * (dev ax 2 - 2 * dev ax 1 + dev ax 0))) by (unfold dev; ring) end.
    now apply k2.
  Qed.
  Lemma start3 w : (forall ax, axis ax -> dev ax 0 = 0 /\ Rabs (dev ax 1) <= s 1%nat ax /\ Rabs (dev ax 2) <= s 2%nat ax /\ Rabs (dev ax 3) <= s 3%nat ax) ->
    is_deriv_n 3 (curve Q T) 0 w ->
    exists v, is_deriv_n 3 (curve P T) 0 v /\ apart (fun ax => n * (n - 1) * (n - 2) / T ^ 3 * (s 3%nat ax + 3 * s 2%nat ax + 3 * s 1%nat ax)) v w.
  Proof.
    intros H Hw. apply at_0; [exact Hw|]. intros ax Hax. destruct (H ax Hax) as (H0 & H1 & H2 & H3). cbn [hodo_n].
    rewrite !(d3 ax Hax T m) by (auto; lia). rewrite N1, N2. fold n.
    match goal with |- Rabs ?x <= _ => replace x with ((n - 2) / T * ((n - 1) / T * (n / T * (dev ax 3 - 3 * dev ax 2 + 3 * dev ax 1 - dev ax 0)))) by (unfold dev; ring) end.
    now apply k3.
  Qed.
  (** deviations at the end *)
  Let L := S (S (S m)).
  Lemma end1 w : (forall ax, axis ax -> dev ax L = 0 /\ Rabs (dev ax (L - 1)) <= s 1%nat ax) -> is_deriv_n 1 (curve Q T) T w ->
    exists v, is_deriv_n 1 (curve P T) T v /\ apart (fun ax => n / T * s 1%nat ax) v w.
  Proof.
    intros H Hw. apply (at_T 1 w _ (S (S m))); [exact Hw|cbn [hodo_n]; rewrite length_hodo; lia..|]. intros ax Hax. destruct (H ax Hax) as (H0 & H1). cbn [hodo_n].
    rewrite !(d1 ax Hax T m) by (auto; lia). fold n. replace (L - 1)%nat with (S (S m)) in H1 by (unfold L; lia).
    match goal with |- Rabs ?x <= _ => replace x with (n / T * (dev ax L - dev ax (S (S m)))) by (unfold dev, L; ring) end.
    refine (proj2 (k1 (dev ax (S (S m))) (dev ax L) _ _ H0 H1)). pose proof (Rabs_pos (dev ax (S (S m)))). lra.
  Qed.
  Lemma end2 w : (forall ax, axis ax -> dev ax L = 0 /\ Rabs (dev ax (L - 1)) <= s 1%nat ax /\ Rabs (dev ax (L - 2)) <= s 2%nat ax) -> is_deriv_n 2 (curve Q T) T w ->
    exists v, is_deriv_n 2 (curve P T) T v /\ apart (fun ax => n * (n - 1) / T ^ 2 * (s 2%nat ax + 2 * s 1%nat ax)) v w.
  Proof.
    intros H Hw. apply (at_T 2 w _ (S m)); [exact Hw|cbn [hodo_n]; rewrite !length_hodo; lia..|]. intros ax Hax. destruct (H ax Hax) as (H0 & H1 & H2). cbn [hodo_n].
    rewrite !(d2 ax Hax T m) by (auto; lia). rewrite N1. fold n.
    replace (L - 1)%nat with (S (S m)) in H1 by (unfold L; lia). replace (L - 2)%nat with (S m) in H2 by (unfold L; lia).
    match goal with |- Rabs ?x <= _ => replace x with ((n - 1) / T * (n / T * (dev ax (S m) - 2 * dev ax (S (S m)) + dev ax L))) by (unfold dev, L; ring) end.
    now apply k2.
  Qed.
  Lemma end3 w : (forall ax, axis ax -> dev ax L = 0 /\ Rabs (dev ax (L - 1)) <= s 1%nat ax /\ Rabs (dev ax (L - 2)) <= s 2%nat ax /\ Rabs (dev ax (L - 3)) <= s 3%nat ax) ->
    is_deriv_n 3 (curve Q T) T w ->
    exists v, is_deriv_n 3 (curve P T) T v /\ apart (fun ax => n * (n - 1) * (n - 2) / T ^ 3 * (s 3%nat ax + 3 * s 2%nat ax + 3 * s 1%nat ax)) v w.
  Proof.
    intros H Hw. apply (at_T 3 w _ m); [exact Hw|cbn [hodo_n]; rewrite !length_hodo; lia..|]. intros ax Hax. destruct (H ax Hax) as (H0 & H1 & H2 & H3). cbn [hodo_n].
    rewrite !(d3 ax Hax T m) by (auto; lia). rewrite N1, N2. fold n.
    replace (L - 1)%nat with (S (S m)) in H1 by (unfold L; lia). replace (L - 2)%nat with (S m) in H2 by (unfold L; lia). replace (L - 3)%nat with m in H3 by (unfold L; lia).
    match goal with |- Rabs ?x <= _ => replace x with ((n - 2) / T * ((n - 1) / T * (n / T * (dev ax L - 3 * dev ax (S (S m)) + 3 * dev ax (S m) - dev ax m)))) by (unfold dev, L; ring) end.
    now apply k3'.
  Qed.
End E.

(** the curves, at every instant *)
Lemma reach_firstn T k : forall l, 0 <= T -> reach T (firstn k l) <= reach T l.
Proof.
  induction k as [|k IH]; intros l HT; [apply reach_pos, HT|]. destruct l as [|a l]; [apply Rle_refl|].
  cbn [firstn reach]. specialize (IH l HT). nra.
Qed.
Lemma end_err_le T s i ax : 0 <= T -> end_err T s i ax <= pt_err T (map ax s).
Proof.
  intros HT. unfold end_err, pt_err. rewrite <- firstn_map. pose proof (reach_firstn T (S i) (map ax s) HT).
  assert (0 < u53) by (unfold u53; apply Rinv_0_lt_compat; apply IZR_lt; reflexivity). nra.
Qed.
Lemma points_dev T s e P Q ax i : 0 <= T -> points_near T s e P Q -> axis ax -> (i < length P)%nat ->
  Rabs (coord ax P i - coord ax Q i) <= curve_err T s e ax.
Proof.
  intros HT (HL & H0 & Hs & Hz & He & Hm) Hax Hi. rewrite !coord_nth by apply (axis_linear ax Hax). unfold curve_err.
  destruct (Nat.lt_ge_cases i (length s)) as [K|K].
  { eapply Rle_trans; [apply (Hs i K ax Hax)|]. eapply Rle_trans; [apply end_err_le, HT|apply Rmax_l]. }
  destruct (Nat.lt_ge_cases i (length P - length e)) as [K'|K'].
  { rewrite (Hm i (conj K K')). rewrite Rminus_diag_eq by reflexivity. rewrite Rabs_R0. eapply Rle_trans; [apply (pt_err_pos T (map ax s) HT)|apply Rmax_l]. }
  specialize (He (length P - 1 - i)%nat ltac:(lia) ax Hax). replace (length P - 1 - (length P - 1 - i))%nat with i in He by lia.
  eapply Rle_trans; [exact He|]. eapply Rle_trans; [apply end_err_le, HT|apply Rmax_r].
Qed.
Lemma curve_dev T s e P Q : 0 < T -> P <> [] -> points_near T s e P Q -> forall u, 0 <= u <= T -> apart (curve_err T s e) (curve P T u) (curve Q T u).
Proof.
  intros HT Hne HP u Hu ax Hax. rewrite !curve_ax by exact Hax. pose proof (time_range u T HT Hu) as Hs. unfold bezl.
  assert (HL : length P = length Q) by apply HP. rewrite !map_length, <- HL.
  replace (bez (Nat.pred (length P)) (fun i => nth i (map ax P) 0) (u / T) - bez (Nat.pred (length P)) (fun i => nth i (map ax Q) 0) (u / T))
    with (bez (Nat.pred (length P)) (fun i => 1 * nth i (map ax P) 0 + (-1) * nth i (map ax Q) 0) (u / T)) by (rewrite (bez_lin _ 1 (-1) (fun i => nth i (map ax P) 0) (fun i => nth i (map ax Q) 0)); ring).
  assert (K : forall i, (i <= Nat.pred (length P))%nat -> Rabs (1 * nth i (map ax P) 0 + (-1) * nth i (map ax Q) 0) <= curve_err T s e ax).
  { intros i Hi. replace (1 * nth i (map ax P) 0 + (-1) * nth i (map ax Q) 0) with (coord ax P i - coord ax Q i) by (unfold coord; ring).
    apply points_dev; try assumption; [lra|]. destruct P; [congruence|cbn [length Nat.pred] in *; lia]. }
  apply Rabs_le. split; [apply bez_ge|apply bez_le]; try exact Hs; intros i Hi; specialize (K i Hi); apply Rabs_le_inv in K; lra.
Qed.
