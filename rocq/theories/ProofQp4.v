(** QP solver: moving along a direction, dropping a constraint, the dual step. *)
From Coq Require Import Lia Lra Psatz FunctionalExtensionality.
From Verif Require Import Vec SpecBezier ModelData ModelSolver ModelQp SpecQp ProofBezier ProofQp ProofQp2 ProofQp3.
Open Scope R_scope.

(** * Moving *)
Lemma hmul_lin q x z t i : hmul q (fun k => x k + t * z k) i = hmul q x i + t * hmul q z i.
Proof. unfold hmul. apply dot_lin. Qed.
Lemma hmul_sym q x y : symmetric q -> dot (e_n q) x (hmul q y) = dot (e_n q) y (hmul q x).
Proof.
  intros S. unfold hmul, dot. set (n := e_n q).
  rewrite (sumf_ext n _ (fun i => sumf n (fun j => x i * (e_H q i j * y j)))) by (intros; now rewrite sumf_scal).
  rewrite sumf_swap. apply sumf_ext. intros j Hj. rewrite <- sumf_scal. apply sumf_ext. intros i Hi. rewrite (S i j) by assumption. ring.
Qed.
Lemma obj_move q x z t : symmetric q ->
  objective q (fun k => x k + t * z k) =
  objective q x + t * dot (e_n q) z (fun i => hmul q x i + e_g q i) + 1 / 2 * (t * t) * dot (e_n q) z (hmul q z).
Proof.
  intros S. unfold objective. set (n := e_n q).
  rewrite (dot_ext n _ (fun k => x k + t * z k) (hmul q (fun k => x k + t * z k)) (fun i => hmul q x i + t * hmul q z i)) by (auto; intros; apply hmul_lin).
  rewrite dot_lin, dot_lin. rewrite (dot_sym n _ (hmul q x)), (dot_sym n _ (hmul q z)), !dot_lin.
  rewrite (dot_sym n (hmul q x) x), (dot_sym n (hmul q x) z), (dot_sym n (hmul q z) x), (dot_sym n (hmul q z) z).
  unfold n. rewrite (hmul_sym q x z S). fold n.
  assert (E : dot n z (fun i => hmul q x i + e_g q i) = dot n z (hmul q x) + dot n (e_g q) z).
  { unfold dot. rewrite <- sumf_plus. apply sumf_ext. intros; ring. }
  rewrite E. field.
Qed.

Lemma move q e extra ip st np t : symmetric q -> inv q e extra ip st ->
  let d := compute_d (e_n q) (q_J st) np in
  let z := update_z (e_n q) (q_J st) d (q_iq st) in
  let r := update_r (q_R st) d (q_iq st) in
  let x' := fun k => q_x st k + t * z k in
  (forall i, (i < e_n q)%nat -> hmul q x' i + e_g q i =
     sumf (q_iq st) (fun k => (q_u st k - t * r k) * normal q (q_A st k) i) + extra * e_CI q ip i + t * np i) /\
  (forall k, (k < q_iq st)%nat -> dot (e_n q) (normal q (q_A st k)) x' + offset q (q_A st k) = 0) /\
  objective q x' = objective q (q_x st) + t * extra * dot (e_n q) (e_CI q ip) z + 1 / 2 * (t * t) * dot (e_n q) np z.
Proof.
  intros S I d z r x'. set (n := e_n q). set (iq := q_iq st).
  pose proof (step_Hz q _ _ _ _ np (i_inv _ _ _ _ _ I) (i_fac _ _ _ _ _ I) (i_n _ _ _ _ _ I)) as Hz. cbv beta in Hz. fold d in Hz. fold z r in Hz.
  pose proof (step_orth q _ _ _ _ np (i_fac _ _ _ _ _ I) (i_n _ _ _ _ _ I)) as Ho. cbv beta in Ho. fold d in Ho. fold z in Ho.
  pose proof (step_zHz q _ _ _ _ np (i_inv _ _ _ _ _ I) (i_fac _ _ _ _ _ I) (i_n _ _ _ _ _ I)) as Hq. fold d in Hq. fold z in Hq.
  split; [|split].
  - intros i Hi. unfold x'. rewrite hmul_lin, Hz by exact Hi. pose proof (i_st _ _ _ _ _ I i Hi) as St.
    rewrite (sumf_ext iq (fun k => (q_u st k - t * r k) * normal q (q_A st k) i)
      (fun k => q_u st k * normal q (q_A st k) i - t * (r k * normal q (q_A st k) i))) by (intros; ring).
    rewrite sumf_minus, sumf_scal. unfold iq. lra.
  - intros k Hk. unfold x'. rewrite dot_lin. rewrite Ho by exact Hk. pose proof (i_act _ _ _ _ _ I k Hk) as HA. fold n in HA |- *. lra.
  - unfold x'. rewrite obj_move by exact S. rewrite Hq. fold n.
    enough (E : dot n z (fun i => hmul q (q_x st) i + e_g q i) = extra * dot n (e_CI q ip) z) by (rewrite E; ring).
    rewrite (dot_ext n z z _ (fun i => sumf iq (fun k => q_u st k * normal q (q_A st k) i) + extra * e_CI q ip i)) by (auto; intros i Hi; apply (i_st _ _ _ _ _ I i Hi)).
    rewrite dot_lin, dot_sum. rewrite (dot_sym n z). rewrite sumf_zero; [ring|]. intros k Hk. rewrite dot_sym. fold n in Ho. rewrite Ho by exact Hk. ring.
Qed.

(** * Dropping a constraint *)
Lemma find_active_ok A l : forall cnt i, (exists k, (i <= k < i + cnt)%nat /\ A k = l) ->
  (i <= find_active A l i cnt < i + cnt)%nat /\ A (find_active A l i cnt) = l.
Proof.
  induction cnt as [|cnt IH]; intros i (k & Hk & E); [lia|]. cbn [find_active].
  destruct (Z.eqb_spec (A i) l) as [Hi|Hi]; [split; [lia|exact Hi]|].
  destruct (IH (S i)) as [P Q]; [exists k; split; [|exact E]; assert (k <> i) by congruence; lia|]. split; [lia|exact Q].
Qed.
Lemma sumf_drop qq f : forall n, (qq <= n)%nat -> sumf (S n) f = sumf n (drop_at qq f) + f qq.
Proof.
  induction n as [|n IH]; intros Hq.
  - assert (qq = 0)%nat as -> by lia. reflexivity.
  - destruct (Nat.eq_dec qq (S n)) as [->|].
    + change (sumf (S (S n)) f) with (sumf (S n) f + f (S n)). f_equal. apply sumf_ext. intros i Hi. unfold drop_at. now rewrite (proj2 (Nat.ltb_lt _ _)) by lia.
    + change (sumf (S (S n)) f) with (sumf (S n) f + f (S n)). rewrite IH by lia. cbn [sumf].
      assert (E : drop_at qq f n = f (S n)) by (unfold drop_at; now rewrite (proj2 (Nat.ltb_ge _ _)) by lia). rewrite E. ring.
Qed.

(** The state at the label l2a: [ip] is being added. *)
Record inv2 (q : eqp) (st : qst) : Prop := Inv2 {
  j_inv : inv q (e_E q) (q_u st (q_iq st)) (q_ip st) st;
  j_ip : (q_ip st < e_I q)%nat;
  j_A : q_A st (q_iq st) = Z.of_nat (q_ip st);
  j_u : 0 <= q_u st (q_iq st);
  j_new : forall k, (e_E q <= k < q_iq st)%nat -> q_A st k <> Z.of_nat (q_ip st);
  j_s : q_s st (q_ip st) = slack q (q_x st) (q_ip st);
  j_neg : q_s st (q_ip st) < 0;
  j_m : (q_iq st < e_I q + e_E q)%nat
}.

Lemma drop_ok q st k0 : inv2 q st -> (e_E q <= k0 < q_iq st)%nat -> q_u st k0 = 0 ->
  exists R' J' A' u' iai',
    delete_constraint (e_I q + e_E q) (e_E q) (q_R st) (q_J st) (q_A st) (q_u st) (q_iq st) (q_A st k0) = Ok (R', J', A', u', (q_iq st - 1)%nat) /\
    unmark q (q_A st k0) (q_iai st) = Ok iai' /\
    inv2 q (Qst (q_x st) u' A' (q_iq st - 1) R' J' (q_Rn st) (q_f st) (q_iter st) (q_s st) (q_ss st) (q_ip st) iai' (q_ex st)
              (q_xo st) (q_uo st) (q_Ao st) (q_tol st)).
Proof.
  intros V Hk Hu. pose proof (j_inv _ _ V) as I. set (iq := q_iq st) in *. set (A := q_A st) in *. set (u := q_u st) in *.
  assert (Hf : find_active A (A k0) (e_E q) (iq - e_E q) = k0).
  { destruct (find_active_ok A (A k0) (iq - e_E q) (e_E q)) as [P Q]; [exists k0; split; [lia|reflexivity]|].
    apply (i_inj _ _ _ _ _ I); [fold iq; lia|fold iq; lia|exact Q]. }
  destruct (delete_ok (e_I q + e_E q) (e_E q) (e_n q) (fun k => normal q (A k)) iq (q_R st) (q_J st) A u (A k0))
    as (R' & J' & A' & u' & ED & G & F & EA & EU).
  - exact (i_fac _ _ _ _ _ I).
  - lia.
  - exact (i_n _ _ _ _ _ I).
  - exact (j_m _ _ V).
  - rewrite Hf. lia.
  - rewrite Hf in *.
    destruct (i_in _ _ _ _ _ I k0 Hk) as (l & Hl & El). fold A in El.
    exists R', J', A', u', (setv (q_iai st) l (Z.of_nat l)). split; [exact ED|]. split.
    { unfold unmark. rewrite El. rewrite (proj2 (Z.leb_le _ _)), (proj2 (Z.ltb_lt _ _)) by lia. cbn [andb]. rewrite Nat2Z.id. reflexivity. }
    assert (A1 : forall k, (k < iq - 1)%nat -> A' k = drop_at k0 A k) by (intros; apply EA; lia).
    assert (A2 : A' (iq - 1)%nat = A iq). { rewrite EA by lia. unfold drop_at. rewrite (proj2 (Nat.ltb_ge _ _)) by lia. f_equal. lia. }
    assert (U2 : u' (iq - 1)%nat = u iq). { rewrite EU by lia. unfold drop_at. rewrite (proj2 (Nat.ltb_ge _ _)) by lia. f_equal. lia. }
    (* an index after the drop comes from an index before it *)
    assert (Back : forall k, (e_E q <= k < iq - 1)%nat -> exists k', (e_E q <= k' < iq)%nat /\ k' <> k0 /\ A' k = A k' /\ u' k = u k' /\
                     k' = (if (k <? k0)%nat then k else S k)).
    { intros k Hkk. rewrite EA, EU by lia. unfold drop_at. destruct (Nat.ltb_spec k k0); [exists k|exists (S k)]; repeat split; lia. }
    constructor; cbn [q_x q_u q_A q_iq q_R q_J q_Rn q_f q_iter q_s q_ss q_ip q_iai q_ex q_xo q_uo q_Ao q_tol]; rewrite ?A2, ?U2.
    + constructor; cbn [q_x q_u q_A q_iq q_R q_J q_Rn q_f q_iter q_s q_ss q_ip q_iai q_ex q_xo q_uo q_Ao q_tol].
      * lia.
      * lia.
      * pose proof (i_n _ _ _ _ _ I). fold iq in H. lia.
      * intros i l' Hi Hl'. rewrite (sumf_ext (e_n q) _ (fun j => e_H q i j * gram (e_n q) (q_J st) j l')) by (intros; now rewrite G).
        apply (i_inv _ _ _ _ _ I); assumption.
      * refine (factored_ext _ _ _ _ _ _ _ F). intros k Hkk. rewrite A1 by exact Hkk. unfold drop_at. destruct (Nat.ltb_spec k k0); reflexivity.
      * intros k Hkk. rewrite EA by lia. unfold drop_at. rewrite (proj2 (Nat.ltb_lt _ _)) by lia. apply (i_eq _ _ _ _ _ I). exact Hkk.
      * intros k Hkk. destruct (Back k Hkk) as (k' & B1 & B2 & B3 & _). rewrite B3. apply (i_in _ _ _ _ _ I). exact B1.
      * intros k k' Hkk Hkk' E. destruct (Back k Hkk) as (a & B1 & B2 & B3 & _ & B5), (Back k' Hkk') as (a' & B1' & B2' & B3' & _ & B5').
        rewrite B3, B3' in E. apply (i_inj _ _ _ _ _ I) in E; [|exact B1|exact B1'].
        destruct (Nat.ltb_spec k k0), (Nat.ltb_spec k' k0); lia.
      * exact (i_Rn1 _ _ _ _ _ I).
      * exact (i_Rn _ _ _ _ _ I).
      * intros i Hi. rewrite (i_st _ _ _ _ _ I i Hi). fold iq u A. f_equal.
        replace (sumf iq) with (sumf (S (iq - 1))) by (f_equal; lia). rewrite (sumf_drop k0) by lia. rewrite Hu, Rmult_0_l, Rplus_0_r.
        apply sumf_ext. intros k Hkk. rewrite EA, EU by lia. unfold drop_at. destruct (Nat.ltb_spec k k0); reflexivity.
      * intros k Hkk. destruct (Back k Hkk) as (k' & B1 & B2 & _ & B4 & _). rewrite B4. apply (i_u _ _ _ _ _ I). exact B1.
      * intros k Hkk. rewrite EA by lia. unfold drop_at. destruct (Nat.ltb_spec k k0); apply (i_act _ _ _ _ _ I); fold iq; lia.
      * exact (i_f _ _ _ _ _ I).
      * intros i Hi. unfold setv. destruct (Nat.eqb_spec i l) as [->|Hne]; [lia|]. intros Hm. destruct (i_iai _ _ _ _ _ I i Hi Hm) as (k & Hkk & E).
        fold iq A in Hkk, E. assert (k <> k0) by (intros ->; apply Hne; lia).
        exists (if (k <? k0)%nat then k else (k - 1)%nat). destruct (Nat.ltb_spec k k0).
        -- split; [lia|]. rewrite EA by lia. unfold drop_at. rewrite (proj2 (Nat.ltb_lt _ _)) by lia. exact E.
        -- split; [lia|]. rewrite EA by lia. unfold drop_at. rewrite (proj2 (Nat.ltb_ge _ _)) by lia. rewrite <- E. f_equal. lia.
    + exact (j_ip _ _ V).
    + exact (j_A _ _ V).
    + exact (j_u _ _ V).
    + intros k Hkk. destruct (Back k Hkk) as (k' & B1 & B2 & B3 & _). rewrite B3. apply (j_new _ _ V). exact B1.
    + exact (j_s _ _ V).
    + exact (j_neg _ _ V).
    + pose proof (j_m _ _ V). fold iq in H. lia.
Qed.

(** * The dual step *)
Lemma dual_step_ok r u A : forall cnt k t1 l t l', dual_step cnt k r u A t1 l = (t, l') ->
  ((t = t1 /\ l' = l) \/ exists j, (k <= j < k + cnt)%nat /\ 0 < r j /\ t = Some (u j / r j) /\ l' = A j) /\
  (forall j, (k <= j < k + cnt)%nat -> 0 < r j -> exists t0, t = Some t0 /\ t0 <= u j / r j) /\
  (forall a, t1 = Some a -> exists t0, t = Some t0 /\ t0 <= a).
Proof.
  induction cnt as [|cnt IH]; intros k t1 l t l' E; cbn [dual_step] in E.
  - injection E as <- <-. split; [left; auto|]. split; [intros; lia|]. intros a ->. exists a. split; [reflexivity|lra].
  - destruct (Rlt_dec 0 (r k)) as [Hr|Hr].
    + destruct (match t1 with None => true | Some t => _ end) eqn:EC.
      * apply IH in E. destruct E as (E1 & E2 & E3). destruct (E3 _ eq_refl) as (t0 & Et & Ht). split; [|split].
        -- destruct E1 as [[-> ->]|(j & Hj & E1)]; right; [exists k; repeat split; try lia; assumption|exists j; split; [lia|exact E1]].
        -- intros j Hj Hrj. destruct (Nat.eq_dec j k) as [->|]; [exists t0; auto|]. apply E2; [lia|exact Hrj].
        -- intros a ->. destruct (Rlt_dec _ _); [|discriminate]. exists t0. split; [exact Et|lra].
      * destruct t1 as [a|]; [|discriminate]. destruct (Rlt_dec _ _); [discriminate|].
        apply IH in E. destruct E as (E1 & E2 & E3). destruct (E3 _ eq_refl) as (t0 & Et & Ht). split; [|split].
        -- destruct E1 as [[-> ->]|(j & Hj & E1)]; [left; auto|right; exists j; split; [lia|exact E1]].
        -- intros j Hj Hrj. destruct (Nat.eq_dec j k) as [->|]; [exists t0; split; [exact Et|lra]|]. apply E2; [lia|exact Hrj].
        -- intros b [= <-]. exists t0. auto.
    + apply IH in E. destruct E as (E1 & E2 & E3). split; [|split; [|exact E3]].
      * destruct E1 as [E1|(j & Hj & E1)]; [left; exact E1|right; exists j; split; [lia|exact E1]].
      * intros j Hj Hrj. destruct (Nat.eq_dec j k) as [->|]; [contradiction|]. apply E2; [lia|exact Hrj].
Qed.
