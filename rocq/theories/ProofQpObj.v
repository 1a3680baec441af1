(** The solver object: what an execution does not depend on. *)
From Coq Require Import Lia Lra List FunctionalExtensionality.
From Verif Require Import Vec SpecBezier ModelData ModelSolver ModelQp ModelQpObj SpecQp ProofQp5.
Open Scope R_scope.

Definition same {X} (b : nat) (f g : nat -> X) : Prop := forall k, (k < b)%nat -> f k = g k.
Lemma same_le {X} b b' (f g : nat -> X) : (b' <= b)%nat -> same b f g -> same b' f g.
Proof. intros H S k Hk. apply S. lia. Qed.

(** States that differ only in what is not read any more.  The bound [b] is the
    number of meaningful entries of u and A. *)
Record alike (b : nat) (st st' : qst) : Prop := Alike {
  a_x : q_x st = q_x st'; a_iq : q_iq st = q_iq st'; a_R : q_R st = q_R st'; a_J : q_J st = q_J st'; a_Rn : q_Rn st = q_Rn st';
  a_f : q_f st = q_f st'; a_iter : q_iter st = q_iter st'; a_tol : q_tol st = q_tol st'; a_iai : q_iai st = q_iai st';
  a_u : same b (q_u st) (q_u st'); a_A : same b (q_A st) (q_A st') }.
(** ... and, after l1, agree on what l1 sets *)
Record alike2 (b : nat) (st st' : qst) : Prop := Alike2 {
  a_b : alike b st st'; a_s : q_s st = q_s st'; a_ss : q_ss st = q_ss st'; a_ip : q_ip st = q_ip st'; a_ex : q_ex st = q_ex st';
  a_xo : q_xo st = q_xo st'; a_uo : same (q_iq st) (q_uo st) (q_uo st'); a_Ao : same (q_iq st) (q_Ao st) (q_Ao st') }.
Definition alike_at (p : label) (st st' : qst) : Prop :=
  match p with
  | L1 => alike (q_iq st) st st'
  | L2 => alike2 (q_iq st) st st'
  | L2a => alike2 (S (q_iq st)) st st'
  end.
Definition alike_out (o o' : outcome progress) : Prop :=
  match o, o' with
  | Ok (Next p st), Ok (Next p' st') => p = p' /\ alike_at p st st'
  | Ok (Done s st), Ok (Done s' st') => s = s' /\ alike (q_iq st) st st'
  | UB, UB => True
  | Throw, Throw => True
  | _, _ => False
  end.

Lemma find_active_same A A' l : forall cnt i, (forall k, (i <= k < i + cnt)%nat -> A k = A' k) -> find_active A l i cnt = find_active A' l i cnt.
Proof.
  induction cnt as [|cnt IH]; intros i H; [reflexivity|]. cbn [find_active]. rewrite (H i) by lia. rewrite IH; [reflexivity|]. intros; apply H; lia.
Qed.
Lemma dual_step_same r u u' A A' : forall cnt k t1 l, (forall j, (k <= j < k + cnt)%nat -> A j = A' j /\ u j = u' j) ->
  dual_step cnt k r u A t1 l = dual_step cnt k r u' A' t1 l.
Proof.
  induction cnt as [|cnt IH]; intros k t1 l H; [reflexivity|]. cbn [dual_step]. destruct (H k ltac:(lia)) as [-> ->].
  rewrite !IH by (intros; apply H; lia). reflexivity.
Qed.
Lemma mark_same q A A' : forall cnt i iai, (forall k, (i <= k < i + cnt)%nat -> A k = A' k) -> mark q A i cnt iai = mark q A' i cnt iai.
Proof.
  induction cnt as [|cnt IH]; intros i iai H; [reflexivity|]. cbn [mark]. rewrite (H i) by lia. rewrite IH by (intros; apply H; lia). reflexivity.
Qed.
Lemma restore_same q A A' : forall cnt i iai, (forall k, (i <= k < i + cnt)%nat -> A k = A' k) -> restore q A i cnt iai = restore q A' i cnt iai.
Proof.
  induction cnt as [|cnt IH]; intros i iai H; [reflexivity|]. cbn [restore]. rewrite (H i) by lia. rewrite IH by (intros; apply H; lia). reflexivity.
Qed.
Lemma worst_same st st' : q_s st = q_s st' -> q_iai st = q_iai st' -> q_ex st = q_ex st' ->
  forall cnt i ss ip, worst cnt i st ss ip = worst cnt i st' ss ip.
Proof.
  intros H1 H2 H3. induction cnt as [|cnt IH]; intros i ss ip; [reflexivity|]. cbn [worst]. rewrite H1, H2, H3, !IH. reflexivity.
Qed.
(** delete_constraint reads A and u below iq + 1, find_active below iq *)
Lemma delete_same m nEq Rm J A A' u u' iq l b : (iq <= b <= S iq)%nat -> same b A A' -> same b u u' ->
  match delete_constraint m nEq Rm J A u iq l, delete_constraint m nEq Rm J A' u' iq l with
  | Ok (R1, J1, A1, u1, q1), Ok (R2, J2, A2, u2, q2) => R1 = R2 /\ J1 = J2 /\ same (b - 1) A1 A2 /\ same (b - 1) u1 u2 /\ q1 = q2 /\ q1 = (iq - 1)%nat /\ (0 < iq)%nat
  | UB, UB => True
  | _, _ => False
  end.
Proof.
  intros Hb HA Hu. unfold delete_constraint. destruct ((m <=? iq) || (iq =? 0))%nat%bool eqn:E; [exact I|].
  apply Bool.orb_false_iff in E. destruct E as [_ E]. apply Nat.eqb_neq in E.
  rewrite (find_active_same A A' l (iq - nEq) nEq) by (intros; apply HA; lia). set (qq := find_active A' l nEq (iq - nEq)).
  set (R0 := fun _ _ => _). destruct (del_loop _ _ _ R0 J) as [R'' J'']. split; [reflexivity|]. split; [reflexivity|].
  split; [|split; [|split; [reflexivity|split; [reflexivity|lia]]]].
  - intros k Hk. cbv beta. destruct (_ && _)%bool; [apply HA; lia|]. destruct (Nat.eqb k iq); [reflexivity|]. apply HA. lia.
  - intros k Hk. cbv beta. destruct (_ && _)%bool; [apply Hu; lia|]. destruct (Nat.eqb k iq); [reflexivity|]. apply Hu. lia.
Qed.
Lemma add_iq n Rm J d iq Rn ok R' J' iq' Rn' : add_constraint n Rm J d iq Rn = Ok (ok, R', J', iq', Rn') -> iq' = S iq.
Proof.
  unfold add_constraint. destruct (n <=? iq)%nat; [discriminate|]. destruct (add_loop _ _ _ _) as [d' J1].
  destruct (Rle_dec _ _); intros E; injection E; auto.
Qed.

Lemma dual_same (u u' r : rvec) t iq : same (S iq) u u' ->
  same (S iq) (setv (fun k => if (k <? iq)%nat then u k - t * r k else u k) iq (u iq + t))
              (setv (fun k => if (k <? iq)%nat then u' k - t * r k else u' k) iq (u' iq + t)).
Proof.
  intros H k Hk. unfold setv. rewrite (H iq) by lia. destruct (Nat.eqb k iq); [reflexivity|]. rewrite (H k) by lia. reflexivity.
Qed.

Lemma step_same q p st st' : alike_at p st st' -> alike_out (step q p st) (step q p st').
Proof.
  destruct p; cbn [alike_at step].
  - (* l1 *)
    intros [X Q Rr Jj Rn F It T Ia U A]. unfold step_L1. cbv zeta. rewrite <- X, <- Q, <- Rr, <- Jj, <- Rn, <- F, <- It, <- T, <- Ia.
    destruct (_ <=? _)%nat; [split; [reflexivity|]; constructor; qst_cbn; assumption || reflexivity|].
    rewrite <- (mark_same q (q_A st) (q_A st')) by (intros; apply A; lia). destruct (mark _ _ _ _ _) as [iai| |]; cbn [bind]; [|exact I|exact I].
    destruct (Rle_dec _ _); (split; [reflexivity|]); [constructor; qst_cbn; assumption || reflexivity|].
    constructor; qst_cbn; try reflexivity.
    + constructor; qst_cbn; assumption || reflexivity.
    + intros k Hk. cbv beta. rewrite (proj2 (Nat.ltb_lt _ _) Hk). apply U. exact Hk.
    + intros k Hk. cbv beta. rewrite (proj2 (Nat.ltb_lt _ _) Hk). apply A. exact Hk.
  - (* l2 *)
    intros [[X Q Rr Jj Rn F It T Ia U A] S SS Ip Ex Xo Uo Ao]. unfold step_L2. rewrite <- (worst_same st st') by assumption.
    rewrite <- X, <- Q, <- Rr, <- Jj, <- Rn, <- F, <- It, <- T, <- Ia, <- S, <- SS, <- Ip, <- Ex, <- Xo.
    destruct (worst _ _ _ _ _) as [ss ip]. destruct (Rle_dec 0 ss); [split; [reflexivity|]; constructor; qst_cbn; assumption || reflexivity|].
    destruct (_ <=? _)%nat; [exact I|]. split; [reflexivity|]. constructor; qst_cbn; try assumption || reflexivity. constructor; qst_cbn; try assumption || reflexivity.
    + intros k Hk. unfold setv. destruct (Nat.eqb_spec k (q_iq st)); [reflexivity|]. apply U. lia.
    + intros k Hk. unfold setv. destruct (Nat.eqb_spec k (q_iq st)); [reflexivity|]. apply A. lia.
  - (* l2a *)
    intros [[X Q Rr Jj Rn F It T Ia U A] S SS Ip Ex Xo Uo Ao]. unfold step_L2a. cbv zeta.
    rewrite <- X, <- Q, <- Rr, <- Jj, <- Rn, <- F, <- It, <- T, <- Ia, <- S, <- SS, <- Ip, <- Ex, <- Xo.
    set (np := e_CI q (q_ip st)). set (iq := q_iq st) in *. set (d := compute_d _ _ np). set (z := if (_ <=? _)%nat then _ else _). set (r := update_r _ _ iq).
    rewrite <- (dual_step_same r (q_u st) (q_u st') (q_A st) (q_A st')) by (intros; split; [apply A|apply U]; lia).
    destruct (dual_step _ _ _ _ _ _ _) as [t1 l].
    assert (DD : forall t,
      match delete_constraint (e_I q + e_E q) (e_E q) (q_R st) (q_J st) (q_A st) (setv (fun k => if (k <? iq)%nat then q_u st k - t * r k else q_u st k) iq (q_u st iq + t)) iq l,
            delete_constraint (e_I q + e_E q) (e_E q) (q_R st) (q_J st) (q_A st') (setv (fun k => if (k <? iq)%nat then q_u st' k - t * r k else q_u st' k) iq (q_u st' iq + t)) iq l with
      | Ok (R1, J1, A1, u1, q1), Ok (R2, J2, A2, u2, q2) => R1 = R2 /\ J1 = J2 /\ same iq A1 A2 /\ same iq u1 u2 /\ q1 = q2 /\ q1 = (iq - 1)%nat /\ (0 < iq)%nat
      | UB, UB => True
      | _, _ => False
      end).
    { intros t. pose proof (delete_same (e_I q + e_E q) (e_E q) (q_R st) (q_J st) (q_A st) (q_A st') _ _ iq l (Datatypes.S iq) ltac:(lia) A (dual_same _ _ r t iq U)) as D.
      replace (Datatypes.S iq - 1)%nat with iq in D by lia. exact D. }
    destruct (Rlt_dec eps52 _) as [Hz|Hz].
    + set (tt2 := - q_s st (q_ip st) / dot (e_n q) z np).
      assert (G : forall t, alike_out
        (if Req_EM_T t tt2 then
          a <- add_constraint (e_n q) (q_R st) (q_J st) d iq (q_Rn st) ;;
          (let '(ok, R', J', iq', Rn') := a in
          if ok then
            Ok (Next L1 (Qst (fun k => q_x st k + t * z k) (setv (fun k => if (k <? iq)%nat then q_u st k - t * r k else q_u st k) iq (q_u st iq + t)) (q_A st) iq' R' J' Rn' (q_f st + t * dot (e_n q) z np * (1 / 2 * t + q_u st iq)) (q_iter st) (q_s st) (q_ss st) (q_ip st) (setv (q_iai st) (q_ip st) (-1)%Z) (q_ex st)
                 (q_xo st) (q_uo st) (q_Ao st) (q_tol st)))
          else
            b <- delete_constraint (e_I q + e_E q) (e_E q) R' J' (q_A st) (setv (fun k => if (k <? iq)%nat then q_u st k - t * r k else q_u st k) iq (q_u st iq + t)) iq' (Z.of_nat (q_ip st)) ;;
            (let '(R'', J'', A'', u'', iq'') := b in
            iai <- restore q (q_Ao st) 0 iq'' (fun i => Z.of_nat i) ;;
            Ok (Next L2 (Qst (q_xo st) (fun i => if (i <? iq'')%nat then q_uo st i else u'' i)
                 (fun i => if (i <? iq'')%nat then q_Ao st i else A'' i) iq'' R'' J'' Rn' (q_f st + t * dot (e_n q) z np * (1 / 2 * t + q_u st iq)) (q_iter st) (q_s st) (q_ss st) (q_ip st) iai
                 (setv (q_ex st) (q_ip st) false) (q_xo st) (q_uo st) (q_Ao st) (q_tol st)))))
        else
          iai <- unmark q l (q_iai st) ;;
          a <- delete_constraint (e_I q + e_E q) (e_E q) (q_R st) (q_J st) (q_A st) (setv (fun k => if (k <? iq)%nat then q_u st k - t * r k else q_u st k) iq (q_u st iq + t)) iq l ;;
          (let '(R', J', A', u', iq') := a in
          Ok (Next L2a (Qst (fun k => q_x st k + t * z k) u' A' iq' R' J' (q_Rn st) (q_f st + t * dot (e_n q) z np * (1 / 2 * t + q_u st iq)) (q_iter st)
             (setv (q_s st) (q_ip st) (dot (e_n q) np (fun k => q_x st k + t * z k) + e_ci q (q_ip st))) (q_ss st) (q_ip st) iai (q_ex st)
               (q_xo st) (q_uo st) (q_Ao st) (q_tol st)))))
        (if Req_EM_T t tt2 then
          a <- add_constraint (e_n q) (q_R st) (q_J st) d iq (q_Rn st) ;;
          (let '(ok, R', J', iq', Rn') := a in
          if ok then
            Ok (Next L1 (Qst (fun k => q_x st k + t * z k) (setv (fun k => if (k <? iq)%nat then q_u st' k - t * r k else q_u st' k) iq (q_u st' iq + t)) (q_A st') iq' R' J' Rn' (q_f st + t * dot (e_n q) z np * (1 / 2 * t + q_u st' iq)) (q_iter st) (q_s st) (q_ss st) (q_ip st) (setv (q_iai st) (q_ip st) (-1)%Z) (q_ex st)
                 (q_xo st) (q_uo st') (q_Ao st') (q_tol st)))
          else
            b <- delete_constraint (e_I q + e_E q) (e_E q) R' J' (q_A st') (setv (fun k => if (k <? iq)%nat then q_u st' k - t * r k else q_u st' k) iq (q_u st' iq + t)) iq' (Z.of_nat (q_ip st)) ;;
            (let '(R'', J'', A'', u'', iq'') := b in
            iai <- restore q (q_Ao st') 0 iq'' (fun i => Z.of_nat i) ;;
            Ok (Next L2 (Qst (q_xo st) (fun i => if (i <? iq'')%nat then q_uo st' i else u'' i)
                 (fun i => if (i <? iq'')%nat then q_Ao st' i else A'' i) iq'' R'' J'' Rn' (q_f st + t * dot (e_n q) z np * (1 / 2 * t + q_u st' iq)) (q_iter st) (q_s st) (q_ss st) (q_ip st) iai
                 (setv (q_ex st) (q_ip st) false) (q_xo st) (q_uo st') (q_Ao st') (q_tol st)))))
        else
          iai <- unmark q l (q_iai st) ;;
          a <- delete_constraint (e_I q + e_E q) (e_E q) (q_R st) (q_J st) (q_A st') (setv (fun k => if (k <? iq)%nat then q_u st' k - t * r k else q_u st' k) iq (q_u st' iq + t)) iq l ;;
          (let '(R', J', A', u', iq') := a in
          Ok (Next L2a (Qst (fun k => q_x st k + t * z k) u' A' iq' R' J' (q_Rn st) (q_f st + t * dot (e_n q) z np * (1 / 2 * t + q_u st' iq)) (q_iter st)
             (setv (q_s st) (q_ip st) (dot (e_n q) np (fun k => q_x st k + t * z k) + e_ci q (q_ip st))) (q_ss st) (q_ip st) iai (q_ex st)
               (q_xo st) (q_uo st') (q_Ao st') (q_tol st)))))).
      { intros t. pose proof (U iq ltac:(lia)) as Ui. destruct (Req_EM_T t tt2) as [Ht|Ht].
        - destruct (add_constraint _ _ _ _ _ _) as [[[[[ok R'] J'] iq'] Rn']| |] eqn:EA; cbn [bind]; [|exact I|exact I].
          pose proof (add_iq _ _ _ _ _ _ _ _ _ _ _ EA) as Eq. subst iq'. destruct ok.
          + split; [reflexivity|]. constructor; qst_cbn; try reflexivity; try assumption; [|apply dual_same; exact U].
            rewrite Ui. reflexivity.
          + pose proof (delete_same (e_I q + e_E q) (e_E q) R' J' (q_A st) (q_A st') _ _ (Datatypes.S iq) (Z.of_nat (q_ip st)) (Datatypes.S iq) ltac:(lia) A (dual_same _ _ r t iq U)) as D.
            destruct (delete_constraint _ _ _ _ (q_A st) _ _ _) as [[[[[R1 J1] A1] u1] q1]| |];
              destruct (delete_constraint _ _ _ _ (q_A st') _ _ _) as [[[[[R2 J2] A2] u2] q2]| |]; try contradiction; cbn [bind]; [|exact I].
            destruct D as (-> & -> & DA & DU & <- & Hq & _). replace q1 with iq in * by lia.
            rewrite <- (restore_same q (q_Ao st) (q_Ao st')) by (intros; apply Ao; fold iq; lia).
            destruct (restore _ _ _ _ _) as [iai| |]; cbn [bind]; [|exact I|exact I]. split; [reflexivity|].
            constructor; qst_cbn; try reflexivity; try assumption. constructor; qst_cbn; try reflexivity.
            * rewrite Ui. reflexivity.
            * intros k Hk. cbv beta. rewrite (proj2 (Nat.ltb_lt _ _) Hk). apply Uo. exact Hk.
            * intros k Hk. cbv beta. rewrite (proj2 (Nat.ltb_lt _ _) Hk). apply Ao. exact Hk.
        - destruct (unmark _ _ _) as [iai| |]; cbn [bind]; [|exact I|exact I]. specialize (DD t).
          destruct (delete_constraint _ _ _ _ (q_A st) _ _ _) as [[[[[R1 J1] A1] u1] q1]| |];
            destruct (delete_constraint _ _ _ _ (q_A st') _ _ _) as [[[[[R2 J2] A2] u2] q2]| |]; try contradiction; cbn [bind]; [|exact I].
          destruct DD as (-> & -> & DA & DU & <- & Hq & Hpos). split; [reflexivity|].
          constructor; qst_cbn; try reflexivity.
          + constructor; qst_cbn; try reflexivity; [rewrite Ui; reflexivity|apply (same_le iq); [lia|assumption]..].
          + apply (same_le iq); [lia|exact Uo].
          + apply (same_le iq); [lia|exact Ao]. }
      destruct t1 as [tt1|]; apply G.
    + destruct t1 as [t|].
      * destruct (unmark _ _ _) as [iai| |]; cbn [bind]; [|exact I|exact I]. specialize (DD t).
        destruct (delete_constraint _ _ _ _ (q_A st) _ _ _) as [[[[[R1 J1] A1] u1] q1]| |];
          destruct (delete_constraint _ _ _ _ (q_A st') _ _ _) as [[[[[R2 J2] A2] u2] q2]| |]; try contradiction; cbn [bind]; [|exact I].
        destruct DD as (-> & -> & DA & DU & <- & Hq & Hpos). split; [reflexivity|].
        constructor; qst_cbn; try reflexivity; try assumption.
        -- constructor; qst_cbn; try reflexivity; try assumption; apply (same_le iq); lia || assumption.
        -- apply (same_le iq); [lia|exact Uo].
        -- apply (same_le iq); [lia|exact Ao].
      * split; [reflexivity|]. constructor; try assumption; apply (same_le (Datatypes.S iq)); unfold iq; assumption || lia.
Qed.
