(** QP solver: problems with equalities whose Hessian dominates the rows.  As in
    ProofQp13.v, with the equalities first among the active constraints. *)
From Coq Require Import Lia Lra Psatz FunctionalExtensionality.
From Verif Require Import Vec SpecBezier ModelData ModelSolver ModelQp SpecQp SpecQp2 ProofBezier ProofQp ProofQp2 ProofQp3 ProofQp4 ProofQp5 ProofQp6 ProofQp7 ProofQp13.
Open Scope R_scope.

Record einv (q : eqp) (e : nat) (st : qst) : Prop := Einv {
  n_e : (e <= q_iq st)%nat;
  n_n : (q_iq st <= e_n q)%nat;
  n_inv : inverts (e_n q) (e_H q) (q_J st);
  n_fac : factored (e_n q) (fun k => normal q (q_A st k)) (q_iq st) (q_R st) (q_J st);
  n_eq : forall k, (k < e)%nat -> q_A st k = (- Z.of_nat k - 1)%Z;
  n_in : forall k, (e <= k < q_iq st)%nat -> exists j, (j < e_I q)%nat /\ q_A st k = Z.of_nat j;
  n_inj : forall k k', (e <= k < q_iq st)%nat -> (e <= k' < q_iq st)%nat -> q_A st k = q_A st k' -> k = k';
  n_Rn1 : 1 <= q_Rn st;
  n_Rn : q_Rn st = 1 \/ exists v w, is_row q v /\ (forall i, (i < e_n q)%nat -> hmul q w i = v i) /\ q_Rn st * q_Rn st <= dot (e_n q) v w;
  n_act : forall k, (k < q_iq st)%nat -> dot (e_n q) (normal q (q_A st k)) (q_x st) + offset q (q_A st k) = 0;
  n_iai : forall i, (i < e_I q)%nat -> q_iai st i = (-1)%Z -> exists k, (e <= k < q_iq st)%nat /\ q_A st k = Z.of_nat i
}.
Record einv2 (q : eqp) (st : qst) : Prop := Einv2 {
  v_inv : einv q (e_E q) st;
  v_ip : (q_ip st < e_I q)%nat;
  v_A : q_A st (q_iq st) = Z.of_nat (q_ip st);
  v_new : forall k, (e_E q <= k < q_iq st)%nat -> q_A st k <> Z.of_nat (q_ip st);
  v_s : q_s st (q_ip st) = slack q (q_x st) (q_ip st);
  v_m : (q_iq st < e_I q + e_E q)%nat
}.

Lemma eadd q lam e st np A' : weighted q lam -> einv q e st -> is_row q np ->
  (forall k, (k < q_iq st)%nat -> A' k = q_A st k) -> normal q (A' (q_iq st)) = np ->
  let d := compute_d (e_n q) (q_J st) np in
  let z := update_z (e_n q) (q_J st) d (q_iq st) in
  eps52 < dot (e_n q) z z ->
  exists R' J' Rn', add_constraint (e_n q) (q_R st) (q_J st) d (q_iq st) (q_Rn st) = Ok (true, R', J', S (q_iq st), Rn') /\
      (q_iq st < e_n q)%nat /\ 0 < dot (e_n q) np z /\
      inverts (e_n q) (e_H q) J' /\ factored (e_n q) (fun k => normal q (A' k)) (S (q_iq st)) R' J' /\
      1 <= Rn' /\ (Rn' = 1 \/ exists v w, is_row q v /\ (forall i, (i < e_n q)%nat -> hmul q w i = v i) /\ Rn' * Rn' <= dot (e_n q) v w).
Proof.
  intros C I Hr HA EN d z Hz. pose proof (n_Rn1 _ _ _ I) as R1. pose proof C as (L0 & LH & LW). pose proof eps_pos as EP.
  assert (Hn : (q_iq st < e_n q)%nat).
  { pose proof (n_n _ _ _ I). destruct (Nat.eq_dec (q_iq st) (e_n q)) as [E|]; [|lia]. exfalso.
    assert (E0 : dot (e_n q) z z = 0); [|lra]. apply sumf_zero. intros i Hi. unfold z, update_z. rewrite E, Nat.sub_diag. cbn [sumf]. ring. }
  assert (F : factored (e_n q) (fun k => normal q (A' k)) (q_iq st) (q_R st) (q_J st)).
  { refine (factored_ext _ _ _ _ _ _ _ (n_fac _ _ _ I)). intros k Hk. now rewrite HA. }
  destruct (add_ok _ _ _ _ _ (q_Rn st) F Hn ltac:(lra)) as (b & R' & J' & Rn' & w & EA & G & W & Bt & Bf).
  cbv beta in EA, W. rewrite EN in EA, W. fold d in EA, W.
  pose proof (step_npz q (q_iq st) (q_J st) np) as Z. fold d in Z. fold z in Z. rewrite <- Z in W.
  pose proof (Rabs_pos w) as WP. pose proof (sq_abs w) as WA.
  pose proof (step_zHz q _ _ _ _ np (n_inv _ _ _ I) (n_fac _ _ _ I) (n_n _ _ _ I)) as ZH. fold d in ZH. fold z in ZH.
  pose proof (LH z) as LZ. rewrite ZH in LZ. assert (NZ : lam * eps52 < dot (e_n q) np z) by nra.
  assert (Sc : (eps52 * q_Rn st) * (eps52 * q_Rn st) < dot (e_n q) np z).
  { destruct (n_Rn _ _ _ I) as [->|(v & w0 & Hv & Hw & B)]; [nra|]. pose proof (LW v w0 Hv Hw) as RW.
    apply Rle_lt_trans with (eps52 * (eps52 * dot (e_n q) v w0)); [|nra].
    replace (eps52 * q_Rn st * (eps52 * q_Rn st)) with (eps52 * (eps52 * (q_Rn st * q_Rn st))) by ring.
    apply Rmult_le_compat_l; [lra|]. apply Rmult_le_compat_l; [lra|exact B]. }
  assert (Hb : b = true).
  { destruct b; [reflexivity|]. exfalso. destruct (Bf eq_refl) as (_ & B & _).
    assert (Q : Rabs w * Rabs w <= (eps52 * q_Rn st) * (eps52 * q_Rn st)) by (apply sq_le; [exact WP|nra|exact B]). lra. }
  subst b. destruct (Bt eq_refl) as (F' & _ & ERn). exists R', J', Rn'. split; [exact EA|]. split; [exact Hn|]. split; [nra|]. split; [|split; [exact F'|]].
  - intros i l Hi Hl. rewrite (sumf_ext (e_n q) _ (fun j => e_H q i j * gram (e_n q) (q_J st) j l)) by (intros; now rewrite G).
    apply (n_inv _ _ _ I); assumption.
  - rewrite ERn. split; [pose proof (Rmax_l (q_Rn st) (Rabs w)); lra|].
    unfold Rmax. destruct (Rle_dec _ _) as [Hm|Hm]; [|exact (n_Rn _ _ _ I)]. right.
    destruct (step_bound q (q_iq st) (q_J st) np (n_inv _ _ _ I) (n_n _ _ _ I)) as (w0 & Hw & B). fold d in B. fold z in B.
    exists np, w0. split; [exact Hr|]. split; [exact Hw|]. rewrite WA, W. exact B.
Qed.

(** Dropping an active constraint. *)
Lemma edrop q st k0 u x s iai : einv2 q st -> (e_E q <= k0 < q_iq st)%nat ->
  (forall k, (k < q_iq st)%nat -> dot (e_n q) (normal q (q_A st k)) x + offset q (q_A st k) = 0) ->
  s (q_ip st) = slack q x (q_ip st) ->
  (forall i, (i < e_I q)%nat -> iai i = (-1)%Z -> exists k, (e_E q <= k < q_iq st)%nat /\ q_A st k = Z.of_nat i) ->
  exists R' J' A' u' iai',
    delete_constraint (e_I q + e_E q) (e_E q) (q_R st) (q_J st) (q_A st) u (q_iq st) (q_A st k0) = Ok (R', J', A', u', (q_iq st - 1)%nat) /\
    unmark q (q_A st k0) iai = Ok iai' /\
    forall f it ss ex xo uo Ao tol, einv2 q (Qst x u' A' (q_iq st - 1) R' J' (q_Rn st) f it s ss (q_ip st) iai' ex xo uo Ao tol).
Proof.
  intros V Hk Hx Hs Hiai. pose proof (v_inv _ _ V) as I. set (iq := q_iq st) in *. set (A := q_A st) in *.
  assert (Hf : find_active A (A k0) (e_E q) (iq - e_E q) = k0).
  { destruct (find_active_ok A (A k0) (iq - e_E q) (e_E q)) as [P Q]; [exists k0; split; [lia|reflexivity]|].
    apply (n_inj _ _ _ I); [fold iq; lia|fold iq; lia|exact Q]. }
  destruct (delete_ok (e_I q + e_E q) (e_E q) (e_n q) (fun k => normal q (A k)) iq (q_R st) (q_J st) A u (A k0))
    as (R' & J' & A' & u' & ED & G & F & EA & EU).
  - exact (n_fac _ _ _ I).
  - lia.
  - exact (n_n _ _ _ I).
  - pose proof (v_m _ _ V). fold iq in H. lia.
  - rewrite Hf. lia.
  - rewrite Hf in *.
    destruct (n_in _ _ _ I k0 Hk) as (l & Hl & El). fold A in El.
    exists R', J', A', u', (setv iai l (Z.of_nat l)). split; [exact ED|]. split.
    { unfold unmark. rewrite El. rewrite (proj2 (Z.leb_le _ _)), (proj2 (Z.ltb_lt _ _)) by lia. cbn [andb]. rewrite Nat2Z.id. reflexivity. }
    assert (A1 : forall k, (k < iq - 1)%nat -> A' k = drop_at k0 A k) by (intros; apply EA; lia).
    assert (A2 : A' (iq - 1)%nat = A iq). { rewrite EA by lia. unfold drop_at. rewrite (proj2 (Nat.ltb_ge _ _)) by lia. f_equal. lia. }
    assert (Back : forall k, (e_E q <= k < iq - 1)%nat -> exists k', (e_E q <= k' < iq)%nat /\ k' <> k0 /\ A' k = A k' /\
                     k' = (if (k <? k0)%nat then k else S k)).
    { intros k Hkk. rewrite EA by lia. unfold drop_at. destruct (Nat.ltb_spec k k0); [exists k|exists (S k)]; repeat split; lia. }
    intros. constructor; qst_cbn; rewrite ?A2.
    + constructor; qst_cbn.
      * lia.
      * pose proof (n_n _ _ _ I). fold iq in H. lia.
      * intros i l' Hi Hl'. rewrite (sumf_ext (e_n q) _ (fun j => e_H q i j * gram (e_n q) (q_J st) j l')) by (intros; now rewrite G).
        apply (n_inv _ _ _ I); assumption.
      * refine (factored_ext _ _ _ _ _ _ _ F). intros k Hkk. rewrite A1 by exact Hkk. unfold drop_at. destruct (Nat.ltb_spec k k0); reflexivity.
      * intros k Hkk. rewrite EA by lia. unfold drop_at. rewrite (proj2 (Nat.ltb_lt _ _)) by lia. apply (n_eq _ _ _ I). exact Hkk.
      * intros k Hkk. destruct (Back k Hkk) as (k' & B1 & B2 & B3 & _). rewrite B3. apply (n_in _ _ _ I). exact B1.
      * intros k k' Hkk Hkk' E. destruct (Back k Hkk) as (a & B1 & B2 & B3 & B5), (Back k' Hkk') as (a' & B1' & B2' & B3' & B5').
        rewrite B3, B3' in E. apply (n_inj _ _ _ I) in E; [|exact B1|exact B1'].
        destruct (Nat.ltb_spec k k0), (Nat.ltb_spec k' k0); lia.
      * exact (n_Rn1 _ _ _ I).
      * exact (n_Rn _ _ _ I).
      * intros k Hkk. rewrite EA by lia. unfold drop_at. destruct (Nat.ltb_spec k k0); apply Hx; lia.
      * intros i Hi. unfold setv. destruct (Nat.eqb_spec i l) as [->|Hne]; [lia|]. intros Hm. destruct (Hiai i Hi Hm) as (k & Hkk & E).
        assert (k <> k0) by (intros ->; apply Hne; lia).
        exists (if (k <? k0)%nat then k else (k - 1)%nat). destruct (Nat.ltb_spec k k0).
        -- split; [lia|]. rewrite EA by lia. unfold drop_at. rewrite (proj2 (Nat.ltb_lt _ _)) by lia. exact E.
        -- split; [lia|]. rewrite EA by lia. unfold drop_at. rewrite (proj2 (Nat.ltb_ge _ _)) by lia. rewrite <- E. f_equal. lia.
    + exact (v_ip _ _ V).
    + exact (v_A _ _ V).
    + intros k Hkk. destruct (Back k Hkk) as (k' & B1 & B2 & B3 & _). rewrite B3. apply (v_new _ _ V). exact B1.
    + exact Hs.
    + pose proof (v_m _ _ V). fold iq in H. lia.
Qed.

(** * l2a *)
Lemma estep_L2a q lam st : weighted q lam -> einv2 q st ->
  step_L2a q st = Ok (Done st_UNBOUNDED st) \/
  (exists st', step_L2a q st = Ok (Next L2a st') /\ einv2 q st' /\ (S (q_iq st') = q_iq st)%nat /\ q_iter st' = q_iter st /\ q_tol st' = q_tol st) \/
  (exists st', step_L2a q st = Ok (Next L1 st') /\ einv q (e_E q) st' /\ q_iter st' = q_iter st /\ q_tol st' = q_tol st).
Proof.
  intros C V. pose proof (v_inv _ _ V) as I. set (n := e_n q). set (iq := q_iq st). set (ip := q_ip st). set (np := e_CI q ip).
  set (d := compute_d n (q_J st) np). set (z := update_z n (q_J st) d iq). set (r := update_r (q_R st) d iq).
  assert (Hz : (if (n <=? iq)%nat then (fun _ => 0) else z) = z).
  { destruct (Nat.leb_spec n iq) as [H|]; [|reflexivity]. apply functional_extensionality. intros i. unfold z, update_z.
    replace (n - iq)%nat with 0%nat by lia. reflexivity. }
  assert (Hrow : is_row q np) by (right; exists ip; split; [exact (v_ip _ _ V)|reflexivity]).
  pose proof (step_orth q _ _ _ _ np (n_fac _ _ _ I) (n_n _ _ _ I)) as Ho. cbv beta in Ho. fold n iq in Ho. fold d in Ho. fold z in Ho.
  pose proof eps_pos as EP.
  unfold step_L2a. cbv zeta. change (q_ip st) with ip. change (e_CI q ip) with np. change (e_n q) with n. change (q_iq st) with iq.
  change (compute_d n (q_J st) np) with d. change (update_z n (q_J st) d iq) with z. rewrite Hz. change (update_r (q_R st) d iq) with r.
  destruct (dual_step (iq - e_E q) (e_E q) r (q_u st) (q_A st) None 0%Z) as [t1 l] eqn:ED.
  apply dual_step_ok in ED. destruct ED as (D1 & _ & _).
  set (dual := fun t => setv (fun k => if (k <? iq)%nat then q_u st k - t * r k else q_u st k) iq (q_u st iq + t)).
  set (x' := fun t k => q_x st k + t * z k).
  set (f' := fun t => q_f st + t * dot n z np * (1 / 2 * t + q_u st iq)).
  assert (Hac : forall t k, (k < iq)%nat -> dot n (normal q (q_A st k)) (x' t) + offset q (q_A st k) = 0).
  { intros t k Hk. unfold x'. rewrite dot_lin, Ho by exact Hk. pose proof (n_act _ _ _ I k Hk) as HA. fold n in HA. lra. }
  assert (Hsl : forall t, slack q (x' t) ip = q_s st ip + t * dot n np z).
  { intros t. unfold slack, x'. fold n np. rewrite dot_lin. pose proof (v_s _ _ V) as Hs. fold ip in Hs. rewrite Hs. unfold slack. fold n np. ring. }
  (* the full step *)
  assert (Hfull : forall t, eps52 < dot n z z -> t = - q_s st ip / dot n z np ->
    exists st', (a <- add_constraint n (q_R st) (q_J st) d iq (q_Rn st) ;;
          let '(ok, R', J', iq', Rn') := a in
          if ok then
            Ok (Next L1 (Qst (x' t) (dual t) (q_A st) iq' R' J' Rn' (f' t) (q_iter st) (q_s st) (q_ss st) ip (setv (q_iai st) ip (-1)%Z) (q_ex st)
                 (q_xo st) (q_uo st) (q_Ao st) (q_tol st)))
          else
            b <- delete_constraint (e_I q + e_E q) (e_E q) R' J' (q_A st) (dual t) iq' (Z.of_nat ip) ;;
            let '(R'', J'', A'', u'', iq'') := b in
            iai <- restore q (q_Ao st) 0 iq'' (fun i => Z.of_nat i) ;;
            Ok (Next L2 (Qst (q_xo st) (fun i => if (i <? iq'')%nat then q_uo st i else u'' i)
                 (fun i => if (i <? iq'')%nat then q_Ao st i else A'' i) iq'' R'' J'' Rn' (f' t) (q_iter st) (q_s st) (q_ss st) ip iai
                 (setv (q_ex st) ip false) (q_xo st) (q_uo st) (q_Ao st) (q_tol st)))) = Ok (Next L1 st') /\
      einv q (e_E q) st' /\ q_iter st' = q_iter st /\ q_tol st' = q_tol st).
  { intros t P1 Et. rewrite (dot_sym n z np) in Et.
    destruct (eadd q lam _ st np (q_A st) C I Hrow) as (R' & J' & Rn' & EA & Hn & P2 & Hi & Hfa & HR1 & HR).
    - reflexivity.
    - rewrite (v_A _ _ V). apply normal_in.
    - exact P1.
    - fold n iq in EA, P2. fold d in EA, P2. fold z in P2. rewrite EA. cbn [bind]. eexists. split; [reflexivity|]. split; [|split; reflexivity].
      pose proof (v_A _ _ V) as JA. fold iq ip in JA.
      assert (Cases : forall k, (k < S iq)%nat -> (k < iq)%nat \/ k = iq) by (intros; lia).
      constructor; qst_cbn.
      + pose proof (n_e _ _ _ I) as He. fold iq in He. lia.
      + fold n. lia.
      + exact Hi.
      + exact Hfa.
      + apply I.
      + intros k Hk. destruct (Cases k) as [H| ->]; [lia|apply (n_in _ _ _ I); fold iq; lia|]. exists ip. split; [exact (v_ip _ _ V)|exact JA].
      + intros k k' Hk Hk' E. destruct (Cases k) as [H| ->], (Cases k') as [H'| ->]; try lia.
        * apply (n_inj _ _ _ I); [fold iq; lia|fold iq; lia|exact E].
        * exfalso. apply (v_new _ _ V k); [fold iq; lia|]. rewrite E. exact JA.
        * exfalso. apply (v_new _ _ V k'); [fold iq; lia|]. rewrite <- E. exact JA.
      + exact HR1.
      + exact HR.
      + intros k Hk. destruct (Cases k Hk) as [H| ->]; [apply Hac; exact H|]. rewrite JA, normal_in, offset_in.
        change (slack q (x' t) ip = 0). rewrite Hsl, Et. field. lra.
      + intros i Hi'. unfold setv. destruct (Nat.eqb_spec i ip) as [->|].
        * intros _. exists iq. pose proof (n_e _ _ _ I) as He. fold iq in He. split; [lia|exact JA].
        * intros E. destruct (n_iai _ _ _ I i Hi' E) as (k & Hk & EK). fold iq in Hk. exists k. split; [lia|exact EK]. }
  assert (Hiq1 : forall j, (e_E q <= j < e_E q + (iq - e_E q))%nat -> S (iq - 1) = iq) by (intros; lia).
  destruct (Rlt_dec eps52 (Rabs (dot n z z))) as [Hzz|Hzz].
  - assert (Hzz' : eps52 < dot n z z). { rewrite Rabs_pos_eq in Hzz; [exact Hzz|apply (sumf_sq_nonneg n z)]. }
    set (t2 := - q_s st ip / dot n z np). destruct t1 as [t1|].
    + destruct D1 as [[D1 _]|(j & Hj & Hr & D1 & ->)]; [discriminate|]. assert (Hj2 : (e_E q <= j < iq)%nat) by lia. 
      destruct (Req_EM_T (Rmin t1 t2) t2) as [E|E].
      * right. right. rewrite E. apply (Hfull t2 Hzz' eq_refl).
      * right. left. set (t := Rmin t1 t2).
        destruct (edrop q st j (dual t) (x' t) (setv (q_s st) ip (slack q (x' t) ip)) (q_iai st) V Hj2) as (R' & J' & A' & u' & iai' & Q1 & Q2 & Q3).
        { apply Hac. } { apply setv_eq. } { apply (n_iai _ _ _ I). }
        rewrite Q2. cbn [bind]. unfold dual in Q1. fold iq in Q1. rewrite Q1. cbn [bind].
        eexists. split; [reflexivity|]. split; [apply Q3|]. qst_cbn. split; [apply (Hiq1 j Hj)|]. split; reflexivity.
    + right. right. destruct (Req_EM_T t2 t2) as [_|]; [|contradiction]. apply (Hfull t2 Hzz' eq_refl).
  - destruct t1 as [t1|]; [|left; reflexivity]. right. left.
    destruct D1 as [[D1 _]|(j & Hj & Hr & D1 & ->)]; [discriminate|]. assert (Hj2 : (e_E q <= j < iq)%nat) by lia. 
    destruct (edrop q st j (dual t1) (q_x st) (q_s st) (q_iai st) V Hj2) as (R' & J' & A' & u' & iai' & Q1 & Q2 & Q3).
    { apply (n_act _ _ _ I). } { apply (v_s _ _ V). } { apply (n_iai _ _ _ I). }
    rewrite Q2. cbn [bind]. unfold dual in Q1. fold iq in Q1. rewrite Q1. cbn [bind].
    eexists. split; [reflexivity|]. split; [apply Q3|]. qst_cbn. split; [apply (Hiq1 j Hj)|]. split; reflexivity.
Qed.

(** * l1 and l2 *)
Record einv1 (q : eqp) (st : qst) : Prop := Einv1 {
  t_inv : einv q (e_E q) st;
  t_s : forall i, q_s st i = slack q (q_x st) i;
  t_ss : q_ss st = 0;
  t_ex : forall i, q_ex st i = true
}.
Lemma eeqs_hold q st : einv q (e_E q) st -> eqs_hold q (q_x st).
Proof.
  intros I i Hi. pose proof (n_act _ _ _ I i) as A. rewrite (n_eq _ _ _ I i Hi), normal_eq, offset_eq in A. apply A.
  pose proof (n_e _ _ _ I). lia.
Qed.
Lemma estep_L1 q st : einv q (e_E q) st ->
  (exists st', step_L1 q st = Ok (Done st_MAX_ITER st') /\ eqs_hold q (q_x st')) \/
  (exists st', step_L1 q st = Ok (Done st_OPTIMAL st') /\ eqs_hold q (q_x st') /\ violation q (q_x st') <= q_tol st) \/
  (exists st', step_L1 q st = Ok (Next L2 st') /\ einv1 q st' /\
     q_iter st' = S (q_iter st) /\ (q_iter st' < e_max q)%nat /\ q_tol st' = q_tol st).
Proof.
  intros I. unfold step_L1. cbv zeta. destruct (Nat.leb_spec (e_max q) (S (q_iter st))) as [Hi|Hi].
  - left. eexists. split; [reflexivity|]. apply (eeqs_hold _ _ I).
  - destruct (mark_ok q (q_A st) (q_iq st - e_E q) (e_E q) (q_iai st)) as (iai' & EM & PM).
    { intros k Hk. apply (n_in _ _ _ I). lia. }
    rewrite EM. cbn [bind].
    match goal with |- context [sumf (e_I q) ?f] => change f with (fun i => Rmin 0 (slack q (q_x st) i)) end.
    rewrite psi_violation.
    assert (IA : forall i, (i < e_I q)%nat -> iai' i = (-1)%Z -> exists k, (e_E q <= k < q_iq st)%nat /\ q_A st k = Z.of_nat i).
    { intros i Hi' E. destruct (PM i E) as [E'|(k & Hk & E')]; [apply (n_iai _ _ _ I i Hi' E')|]. exists k. split; [lia|exact E']. }
    destruct (Rle_dec (violation q (q_x st)) (q_tol st)) as [Hv|Hv]; right.
    + left. eexists. split; [reflexivity|]. split; [apply (eeqs_hold _ _ I)|exact Hv].
    + right. eexists. split; [reflexivity|]. split; [|qst_cbn; split; [reflexivity|]; split; [exact Hi|reflexivity]].
      constructor; qst_cbn; try reflexivity. destruct I; constructor; qst_cbn; assumption.
Qed.
Lemma eactive_slack q st k j : einv q (e_E q) st -> (k < q_iq st)%nat -> q_A st k = Z.of_nat j -> slack q (q_x st) j = 0.
Proof. intros I Hk E. pose proof (n_act _ _ _ I k Hk) as A. rewrite E, normal_in, offset_in in A. exact A. Qed.
Lemma eroom q st j : einv q (e_E q) st -> (j < e_I q)%nat -> slack q (q_x st) j < 0 -> (q_iq st - e_E q < e_I q)%nat.
Proof.
  intros I Hj Hs. set (l := map (fun k => Z.to_nat (q_A st (e_E q + k)%nat)) (seq 0 (q_iq st - e_E q))).
  assert (ND : NoDup (j :: l)).
  { constructor.
    - unfold l. rewrite in_map_iff. intros (k & E & Hk). apply in_seq in Hk.
      destruct (n_in _ _ _ I (e_E q + k)%nat) as (j' & Hj' & E'); [lia|]. rewrite E', Nat2Z.id in E. subst j'.
      assert (EZ : slack q (q_x st) j = 0) by (refine (eactive_slack q st (e_E q + k) j I _ E'); lia). lra.
    - unfold l. apply nodup_map; [|apply seq_NoDup]. intros a b Ha Hb E. apply in_seq in Ha, Hb.
      destruct (n_in _ _ _ I (e_E q + a)%nat) as (ja & Hja & Ea); [lia|]. destruct (n_in _ _ _ I (e_E q + b)%nat) as (jb & Hjb & Eb); [lia|].
      rewrite Ea, Eb, !Nat2Z.id in E. subst jb. assert (e_E q + a = e_E q + b)%nat; [|lia]. apply (n_inj _ _ _ I); [lia|lia|congruence]. }
  assert (IN : incl (j :: l) (seq 0 (e_I q))).
  { intros a [<-|Ha]; [apply in_seq; lia|]. unfold l in Ha. apply in_map_iff in Ha. destruct Ha as (k & <- & Hk). apply in_seq in Hk.
    destruct (n_in _ _ _ I (e_E q + k)%nat) as (j' & Hj' & E'); [lia|]. rewrite E', Nat2Z.id. apply in_seq. lia. }
  pose proof (NoDup_incl_length ND IN) as HL. cbn [length] in HL. unfold l in HL. rewrite map_length, !seq_length in HL. lia.
Qed.
Lemma estep_L2 q st : einv1 q st ->
  (exists st', step_L2 q st = Ok (Done st_OPTIMAL st') /\ eqs_hold q (q_x st') /\ violation q (q_x st') = 0) \/
  (exists st', step_L2 q st = Ok (Next L2a st') /\ einv2 q st' /\ q_iter st' = q_iter st /\ q_tol st' = q_tol st).
Proof.
  intros K. pose proof (t_inv _ _ K) as I. unfold step_L2. rewrite (t_ss _ _ K). destruct (worst (e_I q) 0 st 0 (q_ip st)) as [ss ip] eqn:EW.
  apply worst_ok in EW. destruct EW as (W1 & W2 & W3). destruct (Rle_dec 0 ss) as [H0|H0].
  - left. eexists. split; [reflexivity|]. split; [apply (eeqs_hold _ _ I)|]. qst_cbn.
    unfold violation. apply sumf_zero. intros j Hj. apply Rmax_left. destruct (Rlt_dec (slack q (q_x st) j) 0) as [Hs|]; [exfalso|lra].
    assert (NA : q_iai st j <> (-1)%Z).
    { intros E. destruct (n_iai _ _ _ I j Hj E) as (k & Hk & EA). rewrite (eactive_slack _ _ _ _ I (proj2 Hk) EA) in Hs. lra. }
    specialize (W3 j ltac:(lia) NA (t_ex _ _ K j)). rewrite (t_s _ _ K) in W3. lra.
  - right. destruct W1 as [[-> _]|(W1 & W4 & W5)]; [lra|]. rewrite (t_s _ _ K) in W4, W5.
    pose proof (eroom _ _ ip I ltac:(lia) W5) as Room. pose proof (n_e _ _ _ I) as He.
    destruct (Nat.leb_spec (e_I q + e_E q) (q_iq st)) as [Hm|Hm]; [lia|].
    eexists. split; [reflexivity|]. split; [|split; reflexivity].
    assert (SA : forall k, (k < q_iq st)%nat -> setv (q_A st) (q_iq st) (Z.of_nat ip) k = q_A st k) by (intros; apply setv_ne; lia).
    constructor; qst_cbn; rewrite ?setv_eq; try reflexivity.
    + destruct I; constructor; qst_cbn; try assumption.
      * refine (factored_ext _ _ _ _ _ _ _ n_fac0). intros k Hk. cbv beta. now rewrite SA.
      * intros k Hk. rewrite SA by lia. auto.
      * intros k Hk. rewrite SA by lia. auto.
      * intros k k' Hk Hk'. rewrite !SA by lia. auto.
      * intros k Hk. rewrite SA by exact Hk. auto.
      * intros i Hi E. destruct (n_iai0 i Hi E) as (k & Hk & EK). exists k. split; [exact Hk|]. rewrite SA by lia. exact EK.
    + lia.
    + intros k Hk. rewrite SA by lia. intros E. rewrite (eactive_slack _ _ _ _ I (proj2 Hk) E) in W5. lra.
    + apply (t_s _ _ K).
    + exact Hm.
Qed.

(** * Whole executions *)
Lemma eL2a_run q lam : weighted q lam -> forall c st, (q_iq st <= c)%nat -> einv2 q st ->
  (exists k st', (k <= S c)%nat /\ steps q k (Ok (Next L2a st)) = Ok (Done st_UNBOUNDED st')) \/
  (exists k st', (k <= S c)%nat /\ steps q k (Ok (Next L2a st)) = Ok (Next L1 st') /\ einv q (e_E q) st' /\ q_iter st' = q_iter st /\ q_tol st' = q_tol st).
Proof.
  intros C. induction c as [|c IH]; intros st Hc V.
  all: destruct (estep_L2a q lam st C V) as [E|[(st' & E & V' & Hq & Hi & Ht)|(st' & E & I & Hi & Ht)]].
  1, 4: left; exists 1%nat, st; split; [lia|exact E].
  2, 4: right; exists 1%nat, st'; split; [lia|]; split; [exact E|]; split; [exact I|]; split; [exact Hi|exact Ht].
  - lia.
  - destruct (IH st') as [(k & st2 & Hk & E2)|(k & st2 & Hk & E2 & I & Hi2 & Ht2)]; [lia|exact V'|left|right]; exists (1 + k)%nat, st2.
    + rewrite steps_add, steps_one. cbn [step]. rewrite E. split; [lia|exact E2].
    + rewrite steps_add, steps_one. cbn [step]. rewrite E. split; [lia|]. split; [exact E2|]. split; [exact I|]. split; congruence.
Qed.
Inductive eends (q : eqp) (tol : R) : Z -> qst -> Prop :=
| eends_optimal st : eqs_hold q (q_x st) -> violation q (q_x st) <= tol \/ violation q (q_x st) = 0 -> eends q tol st_OPTIMAL st
| eends_max st : eqs_hold q (q_x st) -> eends q tol st_MAX_ITER st
| eends_none st : eends q tol st_UNBOUNDED st.
Lemma eL1_run q lam : weighted q lam -> forall c st, (e_max q <= q_iter st + c)%nat -> einv q (e_E q) st ->
  exists k s st', (k <= c * (e_n q + 3) + 1)%nat /\ steps q k (Ok (Next L1 st)) = Ok (Done s st') /\ eends q (q_tol st) s st'.
Proof.
  intros C. induction c as [|c IH]; intros st Hc I.
  all: destruct (estep_L1 q st I) as [(st1 & E1 & He1)|[(st1 & E1 & He1 & Hv)|(st1 & E1 & K & Hi & Hl & Ht)]].
  1, 4: exists 1%nat, st_MAX_ITER, st1; split; [lia|]; split; [exact E1|constructor; exact He1].
  1, 3: exists 1%nat, st_OPTIMAL, st1; split; [lia|]; split; [exact E1|constructor; [exact He1|left; exact Hv]].
  - lia.
  - destruct (estep_L2 q st1 K) as [(st2 & E2 & He2 & Hv2)|(st2 & E2 & V & Hi2 & Ht2)].
    + exists (1 + 1)%nat, st_OPTIMAL, st2. rewrite steps_add, steps_one. cbn [step]. rewrite E1. split; [lia|]. split; [exact E2|]. constructor; [exact He2|]. right. exact Hv2.
    + pose proof (n_n _ _ _ (v_inv _ _ V)) as Hn.
      destruct (eL2a_run q lam C (e_n q) st2 Hn V) as [(k & st3 & Hk & E3)|(k & st3 & Hk & E3 & I3 & Hi3 & Ht3)].
      * exists (1 + (1 + k))%nat, st_UNBOUNDED, st3. rewrite !steps_add, !steps_one. cbn [step]. rewrite E1, steps_one. cbn [step]. rewrite E2. split; [lia|]. split; [exact E3|constructor].
      * destruct (IH st3) as (k4 & s & st4 & Hk4 & E4 & EN); [lia|exact I3|].
        exists (1 + (1 + (k + k4)))%nat, s, st4. rewrite !steps_add, !steps_one. cbn [step]. rewrite E1, steps_one. cbn [step]. rewrite E2, E3. split; [lia|]. split; [exact E4|].
        replace (q_tol st) with (q_tol st3) by congruence. exact EN.
Qed.

(** * The equalities *)
Lemma eadd_eq q lam : weighted q lam -> eqs_apart q -> forall todo i st,
  (i + todo = e_E q)%nat -> q_iq st = i -> einv q i st ->
  exists st', add_equalities q todo i st = Ok (Next L1 st') /\ einv q (e_E q) st' /\ q_iter st' = q_iter st /\ q_tol st' = q_tol st.
Proof.
  intros C AP. induction todo as [|todo IH]; intros i st Hi Hq I.
  - exists st. split; [reflexivity|]. replace (e_E q) with i by lia. auto.
  - cbn [add_equalities]. cbv zeta. set (np := e_CE q i). set (iq := q_iq st) in *. set (n := e_n q) in *.
    set (d := compute_d n (q_J st) np). set (z := update_z n (q_J st) d iq). set (r := update_r (q_R st) d iq).
    pose proof (n_n _ _ _ I) as Hnn. fold iq n in Hnn. destruct (Nat.ltb_spec n iq) as [Hn|_]; [lia|].
    assert (Hrow : is_row q np) by (left; exists i; split; [lia|reflexivity]).
    set (A' := setv (q_A st) i (- Z.of_nat i - 1)%Z).
    assert (HA : forall k, (k < iq)%nat -> A' k = q_A st k) by (intros; apply setv_ne; lia).
    assert (HAi : A' i = (- Z.of_nat i - 1)%Z) by apply setv_eq.
    pose proof (step_orth q _ _ _ _ np (n_fac _ _ _ I) (n_n _ _ _ I)) as Ho. cbv beta in Ho. fold n iq in Ho. fold d in Ho. fold z in Ho.
    assert (P1 : eps52 < dot n z z).
    { apply (AP i z r ltac:(lia)).
      - intros j Hj. pose proof (step_Hz q _ _ _ _ np (n_inv _ _ _ I) (n_fac _ _ _ I) (n_n _ _ _ I) j Hj) as Hz. cbv beta in Hz. fold n iq in Hz. fold d in Hz. fold z r in Hz.
        rewrite Hz. f_equal. rewrite Hq. apply sumf_ext. intros k Hk. rewrite (n_eq _ _ _ I k Hk), normal_eq. reflexivity.
      - intros k Hk. rewrite <- (normal_eq q k), <- (n_eq _ _ _ I k Hk). apply Ho. lia. }
    destruct (eadd q lam _ st np A' C I Hrow HA) as (R' & J' & Rn' & EA & Hn & P2 & HI & HF & HR1 & HR).
    { fold iq. rewrite Hq, HAi. apply normal_eq. }
    { exact P1. }
    fold n iq in EA, P2, Hn. fold d in EA, P2. fold z in P2. rewrite EA. cbn [bind].
    rewrite (Rabs_pos_eq (dot n z z)) by (pose proof eps_pos; lra). destruct (Rlt_dec eps52 (dot n z z)) as [_|]; [|contradiction].
    set (t := (- dot n np (q_x st) - e_ce q i) / dot n z np).
    match goal with |- context [add_equalities q todo (S i) ?s] => set (st' := s) end.
    assert (I' : einv q (S i) st').
    { constructor; unfold st'; qst_cbn.
      - lia.
      - fold n. lia.
      - exact HI.
      - exact HF.
      - intros k Hk. destruct (Nat.eq_dec k i) as [->|]; [exact HAi|]. rewrite HA by lia. apply (n_eq _ _ _ I). lia.
      - intros k Hk. lia.
      - intros k k' Hk. lia.
      - exact HR1.
      - exact HR.
      - intros k Hk. rewrite dot_lin. destruct (Nat.eq_dec k i) as [->|].
        + rewrite HAi, normal_eq, offset_eq. fold np. unfold t. rewrite (dot_sym n z np). fold n. field. lra.
        + rewrite HA by lia. fold n. rewrite Ho by lia. pose proof (n_act _ _ _ I k) as Ha. fold iq n in Ha. specialize (Ha ltac:(lia)). lra.
      - intros j Hj E. destruct (n_iai _ _ _ I j Hj E) as (k & Hk & _). fold iq in Hk. lia. }
    destruct (IH (S i) st') as (st2 & E2 & I2 & Hi2 & Ht2); [lia|unfold st'; qst_cbn; lia|exact I'|]. exists st2.
    split; [exact E2|]. split; [exact I2|]. split; [exact Hi2|exact Ht2].
Qed.
Lemma weighted_convex q lam : symmetric q -> weighted q lam -> convex q.
Proof.
  intros Sy (L0 & LH & _). split; [exact Sy|]. intros v (i & Hi & Hv). pose proof eps_pos.
  apply Rlt_le_trans with (lam * dot (e_n q) v v); [|apply LH]. apply Rmult_lt_0_compat; [lra|].
  pose proof (sumf_sq_nonneg (e_n q) v) as P. destruct (Rle_lt_or_eq_dec _ _ P) as [H1|H1]; [exact H1|]. exfalso. apply Hv.
  apply (sumf_sq_zero (e_n q) v (eq_sym H1)). exact Hi.
Qed.
Theorem esolve q mem lam : symmetric q -> weighted q lam -> eqs_apart q ->
  exists L k s st, is_cholesky q L /\ (k <= e_max q * (e_n q + 3) + 1)%nat /\ execution q mem k = Ok (Done s st) /\ eends q (tolerance q L) s st.
Proof.
  intros Sy C AP. destruct (init_ok q mem (weighted_convex q lam Sy C)) as (L & st0 & _ & HL & EI & Hq & I & Hi & Ht). exists L.
  assert (I0 : einv q 0 st0) by (constructor; apply I).
  destruct (eadd_eq q lam C AP (e_E q) 0 st0 ltac:(lia) Hq I0) as (st1 & E1 & I1 & Hi1 & Ht1).
  destruct (eL1_run q lam C (e_max q) st1 ltac:(lia) I1) as (k & s & st & Hk & E & F). exists k, s, st.
  split; [exact HL|]. split; [exact Hk|]. split; [|rewrite <- Ht, <- Ht1; exact F]. unfold execution. rewrite EI, E1. exact E.
Qed.
