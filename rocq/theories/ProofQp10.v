(** QP solver: with an equality, restoring the active set is out of range. *)
From Coq Require Import Lia Lra.
From Verif Require Import Vec SpecBezier ModelData ModelSolver ModelQp SpecQp ProofBezier ProofQp ProofQp4 ProofQp5 ProofQp6.
Open Scope R_scope.

Section Numbers.
  Variable q : eqp.
  Definition eq_numbers (e : nat) (A : nat -> Z) : Prop := forall k, (k < e)%nat -> A k = (- Z.of_nat k - 1)%Z.
  Definition numbered (p : label) (st : qst) : Prop :=
    (e_E q <= q_iq st)%nat /\ eq_numbers (e_E q) (q_A st) /\ match p with L1 => True | _ => eq_numbers (e_E q) (q_Ao st) end.

  Lemma add_count n Rm J d iq Rn b R' J' iq' Rn' : add_constraint n Rm J d iq Rn = Ok (b, R', J', iq', Rn') -> iq' = S iq.
  Proof.
    unfold add_constraint. destruct (n <=? iq)%nat; [discriminate|]. destruct (add_loop iq (n - S iq) d J) as [d' J2].
    destruct (Rle_dec _ _); intros [= <- <- <- <- <-]; reflexivity.
  Qed.
  Lemma delete_numbers m Rm J A u iq l R' J' A' u' iq' j : (e_E q <= j < iq)%nat -> A j = l ->
    delete_constraint m (e_E q) Rm J A u iq l = Ok (R', J', A', u', iq') ->
    iq' = (iq - 1)%nat /\ forall k, (k < e_E q)%nat -> A' k = A k.
  Proof.
    intros Hj El. unfold delete_constraint. destruct (_ || _)%bool; [discriminate|].
    destruct (find_active_ok A l (iq - e_E q) (e_E q)) as [P _]; [exists j; split; [lia|exact El]|].
    destruct (del_loop _ _ _ _ _) as [R2 J2]. intros [= <- <- <- <- <-]. split; [reflexivity|].
    intros k Hk. rewrite (proj2 (Nat.leb_gt _ _)) by lia. cbn [andb]. rewrite (proj2 (Nat.eqb_neq _ _)) by lia. reflexivity.
  Qed.

  Lemma equalities_numbers : forall todo i st p st', (i + todo = e_E q)%nat -> q_iq st = i -> eq_numbers i (q_A st) ->
    add_equalities q todo i st = Ok (Next p st') -> p = L1 /\ numbered L1 st'.
  Proof.
    induction todo as [|todo IH]; intros i st p st' Hi Hq HA E; cbn [add_equalities] in E.
    - injection E as <- <-. split; [reflexivity|]. replace (e_E q) with i by lia. unfold numbered. replace (e_E q) with i by lia. split; [lia|]. auto.
    - cbv zeta in E. destruct (e_n q <? q_iq st)%nat; [discriminate|].
      destruct (add_constraint _ _ _ _ _ _) as [[[[[b R'] J'] iq'] Rn']| |] eqn:EA; cbn [bind] in E; try discriminate.
      apply add_count in EA. subst iq'. destruct b; [|discriminate]. apply IH in E; qst_cbn; [exact E|lia|lia|].
      intros k Hk. destruct (Nat.eq_dec k i) as [->|]; [apply setv_eq|]. rewrite setv_ne by assumption. apply HA. lia.
  Qed.
  Lemma L1_numbers st p st' : numbered L1 st -> step_L1 q st = Ok (Next p st') -> p = L2 /\ numbered L2 st'.
  Proof.
    intros (N1 & N2 & _) E. unfold step_L1 in E. cbv zeta in E. destruct (e_max q <=? _)%nat; [discriminate|].
    destruct (mark _ _ _ _ _) as [iai| |]; cbn [bind] in E; try discriminate.
    destruct (Rle_dec _ _); [discriminate|]. injection E as <- <-. split; [reflexivity|]. unfold numbered. qst_cbn. split; [exact N1|]. split; [exact N2|].
    intros k Hk. rewrite (proj2 (Nat.ltb_lt _ _)) by lia. apply N2. exact Hk.
  Qed.
  Lemma L2_numbers st p st' : numbered L2 st -> step_L2 q st = Ok (Next p st') -> p = L2a /\ numbered L2a st'.
  Proof.
    intros (N1 & N2 & N3) E. unfold step_L2 in E. destruct (worst _ _ _ _ _) as [ss ip]. destruct (Rle_dec 0 ss); [discriminate|].
    destruct (_ <=? _)%nat; [discriminate|]. injection E as <- <-. split; [reflexivity|]. unfold numbered. qst_cbn. split; [exact N1|]. split; [|exact N3].
    intros k Hk. rewrite setv_ne by lia. apply N2. exact Hk.
  Qed.
  Lemma restore_out Ao cnt iai : (0 < e_E q)%nat -> (0 < cnt)%nat -> eq_numbers (e_E q) Ao -> restore q Ao 0 cnt iai = UB.
  Proof. intros HE Hc N. destruct cnt; [lia|]. cbn [restore]. rewrite (N 0%nat HE). reflexivity. Qed.
  Lemma L2a_numbers st p st' : (0 < e_E q)%nat -> numbered L2a st -> step_L2a q st = Ok (Next p st') -> p <> L2 /\ numbered p st'.
  Proof.
    intros HE (N1 & N2 & N3). unfold step_L2a. cbv zeta.
    match goal with |- context [dual_step ?a ?b ?c ?d ?e ?f ?g] => destruct (dual_step a b c d e f g) as [t1 l] eqn:ED end.
    apply dual_step_ok in ED. destruct ED as (D1 & _ & _).
    assert (Hdel : forall Rm J u R' J' A' u' iq', t1 <> None ->
      delete_constraint (e_I q + e_E q) (e_E q) Rm J (q_A st) u (q_iq st) l = Ok (R', J', A', u', iq') -> (e_E q <= iq')%nat /\ eq_numbers (e_E q) A').
    { intros Rm J u R' J' A' u' iq' Ht E. destruct D1 as [[D1 _]|(j & Hj & _ & _ & D1)]; [contradiction|].
      assert (Hj' : (e_E q <= j < q_iq st)%nat) by lia. destruct (delete_numbers _ _ _ _ _ _ _ _ _ _ _ _ j Hj' (eq_sym D1) E) as [-> EA]. split; [lia|]. intros k Hk. rewrite EA by exact Hk. apply N2. exact Hk. }
    set (d := compute_d _ _ _). set (z := if (e_n q <=? q_iq st)%nat then _ else _). set (r := update_r _ _ _).
    destruct (Rlt_dec eps52 _) as [_|_].
    - intros E. destruct t1 as [t1|].
      all: destruct (Req_EM_T _ _) as [_|Ht]; [|try (exfalso; apply Ht; reflexivity)].
      1, 3: destruct (add_constraint _ _ _ _ _ _) as [[[[[b R'] J'] iq'] Rn']| |] eqn:EA; cbn [bind] in E; try discriminate;
        apply add_count in EA; subst iq'; destruct b;
        [injection E as <- <-; split; [discriminate|]; unfold numbered; qst_cbn; split; [lia|]; auto
        |exfalso; unfold delete_constraint in E; destruct (_ || _)%bool; cbn [bind] in E; [discriminate|];
         destruct (del_loop _ _ _ _ _) as [R2 J2]; cbn [bind] in E; replace (S (q_iq st) - 1)%nat with (q_iq st) in E by lia;
         rewrite restore_out in E; [discriminate|exact HE|lia|exact N3]].
      destruct (unmark _ _ _) as [iai| |]; cbn [bind] in E; try discriminate.
      destruct (delete_constraint _ _ _ _ _ _ _ _) as [[[[[R' J'] A'] u'] iq']| |] eqn:EA; cbn [bind] in E; try discriminate.
      apply Hdel in EA; [|discriminate]. injection E as <- <-. split; [discriminate|]. unfold numbered. qst_cbn. destruct EA. auto.
    - destruct t1 as [t1|]; [|discriminate]. intros E. destruct (unmark _ _ _) as [iai| |]; cbn [bind] in E; try discriminate.
      destruct (delete_constraint _ _ _ _ _ _ _ _) as [[[[[R' J'] A'] u'] iq']| |] eqn:EA; cbn [bind] in E; try discriminate.
      apply Hdel in EA; [|discriminate]. injection E as <- <-. split; [discriminate|]. unfold numbered. qst_cbn. destruct EA. auto.
  Qed.

  Lemma execution_numbers mem : (0 < e_E q)%nat -> forall k p st, execution q mem k = Ok (Next p st) -> numbered p st.
  Proof.
    intros HE. induction k as [|k IH]; intros p st E; unfold execution in *.
    - cbn [steps] in E. unfold solve_init in E. destruct (chol _ _) as [L| |]; cbn [bind] in E; try discriminate.
      apply equalities_numbers in E; [destruct E as [-> E]; exact E|lia|reflexivity|intros i Hi; lia].
    - replace (S k) with (k + 1)%nat in E by lia. rewrite steps_add in E. destruct (steps q k (solve_init q mem)) as [[p0 st0|s0 st0]| |] eqn:E0; try discriminate.
      specialize (IH _ _ eq_refl). rewrite steps_one in E. destruct p0; cbn [step] in E.
      + apply L1_numbers in E; [destruct E as [-> E]; exact E|exact IH].
      + apply L2_numbers in E; [destruct E as [-> E]; exact E|exact IH].
      + apply L2a_numbers in E; [destruct E as [_ E]; exact E|exact HE|exact IH].
  Qed.
  Lemma c42_no_return mem k st st' : (0 < e_E q)%nat -> execution q mem k = Ok (Next L2a st) -> execution q mem (S k) <> Ok (Next L2 st').
  Proof.
    intros HE E E'. pose proof (execution_numbers mem HE k _ _ E) as N. unfold execution in *.
    replace (S k) with (k + 1)%nat in E' by lia. rewrite steps_add, E, steps_one in E'. cbn [step] in E'.
    apply L2a_numbers in E'; [|exact HE|exact N]. destruct E' as [E' _]. apply E'. reflexivity.
  Qed.
End Numbers.
