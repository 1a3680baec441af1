(** QP solver: problems without equalities whose Hessian dominates the rows.  The
    factorisation and the active constraints stay exact even when some directions
    are below the thresholds. *)
From Coq Require Import Lia Lra Psatz FunctionalExtensionality.
From Verif Require Import Vec SpecBezier ModelData ModelSolver ModelQp SpecQp ProofBezier ProofQp ProofQp2 ProofQp3 ProofQp4 ProofQp5 ProofQp6 ProofQp7.
Open Scope R_scope.

Record pinv (q : eqp) (st : qst) : Prop := Pinv {
  p_n : (q_iq st <= e_n q)%nat;
  p_inv : inverts (e_n q) (e_H q) (q_J st);
  p_fac : factored (e_n q) (fun k => normal q (q_A st k)) (q_iq st) (q_R st) (q_J st);
  p_in : forall k, (k < q_iq st)%nat -> exists j, (j < e_I q)%nat /\ q_A st k = Z.of_nat j;
  p_inj : forall k k', (k < q_iq st)%nat -> (k' < q_iq st)%nat -> q_A st k = q_A st k' -> k = k';
  p_Rn1 : 1 <= q_Rn st;
  p_Rn : q_Rn st = 1 \/ exists v w, is_row q v /\ (forall i, (i < e_n q)%nat -> hmul q w i = v i) /\ q_Rn st * q_Rn st <= dot (e_n q) v w;
  p_act : forall k, (k < q_iq st)%nat -> dot (e_n q) (normal q (q_A st k)) (q_x st) + offset q (q_A st k) = 0;
  p_iai : forall i, (i < e_I q)%nat -> q_iai st i = (-1)%Z -> exists k, (k < q_iq st)%nat /\ q_A st k = Z.of_nat i
}.
Record pinv2 (q : eqp) (st : qst) : Prop := Pinv2 {
  r_inv : pinv q st;
  r_ip : (q_ip st < e_I q)%nat;
  r_A : q_A st (q_iq st) = Z.of_nat (q_ip st);
  r_new : forall k, (k < q_iq st)%nat -> q_A st k <> Z.of_nat (q_ip st);
  r_s : q_s st (q_ip st) = slack q (q_x st) (q_ip st);
  r_m : (q_iq st < e_I q)%nat
}.

Lemma inv_pinv q st : e_E q = 0%nat -> inv q 0 0 0 st -> pinv q st.
Proof.
  intros E0 I. constructor; try (apply I).
  - intros k Hk. apply (i_in _ _ _ _ _ I). lia.
  - intros k k' Hk Hk'. apply (i_inj _ _ _ _ _ I); lia.
  - intros i Hi E. destruct (i_iai _ _ _ _ _ I i Hi E) as (k & Hk & EA). exists k. split; [lia|exact EA].
Qed.

(** A direction above the threshold is never given up. *)
Lemma row_weight q lam v w : conditioned q lam -> is_row q v -> (forall i, (i < e_n q)%nat -> hmul q w i = v i) ->
  eps52 * dot (e_n q) v w < lam.
Proof.
  intros (L0 & LH & LR) Hv Hw. pose proof eps_pos as EP. set (n := e_n q).
  assert (P1 : lam * dot n w w <= dot n v w).
  { pose proof (LH w) as B. fold n in B. rewrite (dot_ext n w w (hmul q w) v) in B by (auto; exact Hw). rewrite (dot_sym n v w). exact B. }
  assert (P2 : 0 <= dot n v v - 2 * lam * dot n v w + lam * lam * dot n w w).
  { replace (dot n v v - 2 * lam * dot n v w + lam * lam * dot n w w) with (sumf n (fun i => (v i - lam * w i) * (v i - lam * w i))); [apply sumf_sq_nonneg|].
    unfold dot. rewrite <- !sumf_scal, <- sumf_minus, <- sumf_plus. apply sumf_ext. intros; ring. }
  assert (P3 : lam * dot n v w <= dot n v v) by nra.
  specialize (LR v Hv). fold n in LR. assert (P4 : lam * (eps52 * dot n v w) < lam * lam) by nra. nra.
Qed.
Lemma padd q lam st np A' : conditioned q lam -> pinv q st -> is_row q np ->
  (forall k, (k < q_iq st)%nat -> A' k = q_A st k) -> normal q (A' (q_iq st)) = np ->
  let d := compute_d (e_n q) (q_J st) np in
  let z := update_z (e_n q) (q_J st) d (q_iq st) in
  eps52 < dot (e_n q) z z ->
  exists R' J' Rn', add_constraint (e_n q) (q_R st) (q_J st) d (q_iq st) (q_Rn st) = Ok (true, R', J', S (q_iq st), Rn') /\
      (q_iq st < e_n q)%nat /\ 0 < dot (e_n q) np z /\
      inverts (e_n q) (e_H q) J' /\ factored (e_n q) (fun k => normal q (A' k)) (S (q_iq st)) R' J' /\
      1 <= Rn' /\ (Rn' = 1 \/ exists v w, is_row q v /\ (forall i, (i < e_n q)%nat -> hmul q w i = v i) /\ Rn' * Rn' <= dot (e_n q) v w).
Proof.
  intros C I Hr HA EN d z Hz. pose proof (p_Rn1 _ _ I) as R1. pose proof C as (L0 & LH & _). pose proof eps_pos as EP.
  assert (Hn : (q_iq st < e_n q)%nat).
  { pose proof (p_n _ _ I). destruct (Nat.eq_dec (q_iq st) (e_n q)) as [E|]; [|lia]. exfalso.
    assert (E0 : dot (e_n q) z z = 0); [|lra]. apply sumf_zero. intros i Hi. unfold z, update_z. rewrite E, Nat.sub_diag. cbn [sumf]. ring. }
  assert (F : factored (e_n q) (fun k => normal q (A' k)) (q_iq st) (q_R st) (q_J st)).
  { refine (factored_ext _ _ _ _ _ _ _ (p_fac _ _ I)). intros k Hk. now rewrite HA. }
  destruct (add_ok _ _ _ _ _ (q_Rn st) F Hn ltac:(lra)) as (b & R' & J' & Rn' & w & EA & G & W & Bt & Bf).
  cbv beta in EA, W. rewrite EN in EA, W. fold d in EA, W.
  pose proof (step_npz q (q_iq st) (q_J st) np) as Z. fold d in Z. fold z in Z. rewrite <- Z in W.
  pose proof (Rabs_pos w) as WP. pose proof (sq_abs w) as WA.
  pose proof (step_zHz q _ _ _ _ np (p_inv _ _ I) (p_fac _ _ I) (p_n _ _ I)) as ZH. fold d in ZH. fold z in ZH.
  pose proof (LH z) as LZ. rewrite ZH in LZ. assert (NZ : lam * eps52 < dot (e_n q) np z) by nra.
  assert (Sc : (eps52 * q_Rn st) * (eps52 * q_Rn st) < dot (e_n q) np z).
  { destruct (p_Rn _ _ I) as [->|(v & w0 & Hv & Hw & B)]; [nra|]. pose proof (row_weight q lam v w0 C Hv Hw) as RW.
    apply Rle_lt_trans with (eps52 * (eps52 * dot (e_n q) v w0)); [|nra].
    replace (eps52 * q_Rn st * (eps52 * q_Rn st)) with (eps52 * (eps52 * (q_Rn st * q_Rn st))) by ring.
    apply Rmult_le_compat_l; [lra|]. apply Rmult_le_compat_l; [lra|exact B]. }
  assert (Hb : b = true).
  { destruct b; [reflexivity|]. exfalso. destruct (Bf eq_refl) as (_ & B & _).
    assert (Q : Rabs w * Rabs w <= (eps52 * q_Rn st) * (eps52 * q_Rn st)) by (apply sq_le; [exact WP|nra|exact B]). lra. }
  subst b. destruct (Bt eq_refl) as (F' & _ & ERn). exists R', J', Rn'. split; [exact EA|]. split; [exact Hn|]. split; [nra|]. split; [|split; [exact F'|]].
  - intros i l Hi Hl. rewrite (sumf_ext (e_n q) _ (fun j => e_H q i j * gram (e_n q) (q_J st) j l)) by (intros; now rewrite G).
    apply (p_inv _ _ I); assumption.
  - rewrite ERn. split; [pose proof (Rmax_l (q_Rn st) (Rabs w)); lra|].
    unfold Rmax. destruct (Rle_dec _ _) as [Hm|Hm]; [|exact (p_Rn _ _ I)]. right.
    destruct (step_bound q (q_iq st) (q_J st) np (p_inv _ _ I) (p_n _ _ I)) as (w0 & Hw & B). fold d in B. fold z in B.
    exists np, w0. split; [exact Hr|]. split; [exact Hw|]. rewrite WA, W. exact B.
Qed.

(** Dropping an active constraint. *)
Lemma pdrop q st k0 u x s iai : e_E q = 0%nat -> pinv2 q st -> (k0 < q_iq st)%nat ->
  (forall k, (k < q_iq st)%nat -> dot (e_n q) (normal q (q_A st k)) x + offset q (q_A st k) = 0) ->
  s (q_ip st) = slack q x (q_ip st) ->
  (forall i, (i < e_I q)%nat -> iai i = (-1)%Z -> exists k, (k < q_iq st)%nat /\ q_A st k = Z.of_nat i) ->
  exists R' J' A' u' iai',
    delete_constraint (e_I q + e_E q) (e_E q) (q_R st) (q_J st) (q_A st) u (q_iq st) (q_A st k0) = Ok (R', J', A', u', (q_iq st - 1)%nat) /\
    unmark q (q_A st k0) iai = Ok iai' /\
    forall f it ss ex xo uo Ao tol, pinv2 q (Qst x u' A' (q_iq st - 1) R' J' (q_Rn st) f it s ss (q_ip st) iai' ex xo uo Ao tol).
Proof.
  intros E0 V Hk Hx Hs Hiai. pose proof (r_inv _ _ V) as I. set (iq := q_iq st) in *. set (A := q_A st) in *.
  assert (Hf : find_active A (A k0) (e_E q) (iq - e_E q) = k0).
  { destruct (find_active_ok A (A k0) (iq - e_E q) (e_E q)) as [P Q]; [exists k0; split; [lia|reflexivity]|].
    apply (p_inj _ _ I); [fold iq; lia|fold iq; lia|exact Q]. }
  destruct (delete_ok (e_I q + e_E q) (e_E q) (e_n q) (fun k => normal q (A k)) iq (q_R st) (q_J st) A u (A k0))
    as (R' & J' & A' & u' & ED & G & F & EA & EU).
  - exact (p_fac _ _ I).
  - lia.
  - exact (p_n _ _ I).
  - pose proof (r_m _ _ V). fold iq in H. lia.
  - rewrite Hf. lia.
  - rewrite Hf in *.
    destruct (p_in _ _ I k0 Hk) as (l & Hl & El). fold A in El.
    exists R', J', A', u', (setv iai l (Z.of_nat l)). split; [exact ED|]. split.
    { unfold unmark. rewrite El. rewrite (proj2 (Z.leb_le _ _)), (proj2 (Z.ltb_lt _ _)) by lia. cbn [andb]. rewrite Nat2Z.id. reflexivity. }
    assert (A1 : forall k, (k < iq - 1)%nat -> A' k = drop_at k0 A k) by (intros; apply EA; lia).
    assert (A2 : A' (iq - 1)%nat = A iq). { rewrite EA by lia. unfold drop_at. rewrite (proj2 (Nat.ltb_ge _ _)) by lia. f_equal. lia. }
    assert (Back : forall k, (k < iq - 1)%nat -> exists k', (k' < iq)%nat /\ k' <> k0 /\ A' k = A k' /\
                     k' = (if (k <? k0)%nat then k else S k)).
    { intros k Hkk. rewrite EA by lia. unfold drop_at. destruct (Nat.ltb_spec k k0); [exists k|exists (S k)]; repeat split; lia. }
    intros. constructor; qst_cbn; rewrite ?A2.
    + constructor; qst_cbn.
      * pose proof (p_n _ _ I). fold iq in H. lia.
      * intros i l' Hi Hl'. rewrite (sumf_ext (e_n q) _ (fun j => e_H q i j * gram (e_n q) (q_J st) j l')) by (intros; now rewrite G).
        apply (p_inv _ _ I); assumption.
      * refine (factored_ext _ _ _ _ _ _ _ F). intros k Hkk. rewrite A1 by exact Hkk. unfold drop_at. destruct (Nat.ltb_spec k k0); reflexivity.
      * intros k Hkk. destruct (Back k Hkk) as (k' & B1 & B2 & B3 & _). rewrite B3. apply (p_in _ _ I). exact B1.
      * intros k k' Hkk Hkk' E. destruct (Back k Hkk) as (a & B1 & B2 & B3 & B5), (Back k' Hkk') as (a' & B1' & B2' & B3' & B5').
        rewrite B3, B3' in E. apply (p_inj _ _ I) in E; [|exact B1|exact B1'].
        destruct (Nat.ltb_spec k k0), (Nat.ltb_spec k' k0); lia.
      * exact (p_Rn1 _ _ I).
      * exact (p_Rn _ _ I).
      * intros k Hkk. destruct (Back k Hkk) as (k' & B1 & B2 & B3 & _). rewrite B3. apply Hx. exact B1.
      * intros i Hi. unfold setv. destruct (Nat.eqb_spec i l) as [->|Hne]; [lia|]. intros Hm. destruct (Hiai i Hi Hm) as (k & Hkk & E).
        assert (k <> k0) by (intros ->; apply Hne; lia).
        exists (if (k <? k0)%nat then k else (k - 1)%nat). destruct (Nat.ltb_spec k k0).
        -- split; [lia|]. rewrite EA by lia. unfold drop_at. rewrite (proj2 (Nat.ltb_lt _ _)) by lia. exact E.
        -- split; [lia|]. rewrite EA by lia. unfold drop_at. rewrite (proj2 (Nat.ltb_ge _ _)) by lia. rewrite <- E. f_equal. lia.
    + exact (r_ip _ _ V).
    + exact (r_A _ _ V).
    + intros k Hkk. destruct (Back k Hkk) as (k' & B1 & B2 & B3 & _). rewrite B3. apply (r_new _ _ V). exact B1.
    + exact Hs.
    + pose proof (r_m _ _ V). fold iq in H. lia.
Qed.

(** * l2a *)
Lemma pstep_L2a q lam st : e_E q = 0%nat -> conditioned q lam -> pinv2 q st ->
  step_L2a q st = Ok (Done st_UNBOUNDED st) \/
  (exists st', step_L2a q st = Ok (Next L2a st') /\ pinv2 q st' /\ (S (q_iq st') = q_iq st)%nat /\ q_iter st' = q_iter st /\ q_tol st' = q_tol st) \/
  (exists st', step_L2a q st = Ok (Next L1 st') /\ pinv q st' /\ q_iter st' = q_iter st /\ q_tol st' = q_tol st).
Proof.
  intros E0 C V. pose proof (r_inv _ _ V) as I. set (n := e_n q). set (iq := q_iq st). set (ip := q_ip st). set (np := e_CI q ip).
  set (d := compute_d n (q_J st) np). set (z := update_z n (q_J st) d iq). set (r := update_r (q_R st) d iq).
  assert (Hz : (if (n <=? iq)%nat then (fun _ => 0) else z) = z).
  { destruct (Nat.leb_spec n iq) as [H|]; [|reflexivity]. apply functional_extensionality. intros i. unfold z, update_z.
    replace (n - iq)%nat with 0%nat by lia. reflexivity. }
  assert (Hrow : is_row q np) by (right; exists ip; split; [exact (r_ip _ _ V)|reflexivity]).
  pose proof (step_orth q _ _ _ _ np (p_fac _ _ I) (p_n _ _ I)) as Ho. cbv beta in Ho. fold n iq in Ho. fold d in Ho. fold z in Ho.
  pose proof eps_pos as EP.
  unfold step_L2a. cbv zeta. change (q_ip st) with ip. change (e_CI q ip) with np. change (e_n q) with n. change (q_iq st) with iq.
  change (compute_d n (q_J st) np) with d. change (update_z n (q_J st) d iq) with z. rewrite Hz. change (update_r (q_R st) d iq) with r.
  destruct (dual_step (iq - e_E q) (e_E q) r (q_u st) (q_A st) None 0%Z) as [t1 l] eqn:ED.
  apply dual_step_ok in ED. destruct ED as (D1 & _ & _).
  set (dual := fun t => setv (fun k => if (k <? iq)%nat then q_u st k - t * r k else q_u st k) iq (q_u st iq + t)).
  set (x' := fun t k => q_x st k + t * z k).
  set (f' := fun t => q_f st + t * dot n z np * (1 / 2 * t + q_u st iq)).
  assert (Hac : forall t k, (k < iq)%nat -> dot n (normal q (q_A st k)) (x' t) + offset q (q_A st k) = 0).
  { intros t k Hk. unfold x'. rewrite dot_lin, Ho by exact Hk. pose proof (p_act _ _ I k Hk) as HA. fold n in HA. lra. }
  assert (Hsl : forall t, slack q (x' t) ip = q_s st ip + t * dot n np z).
  { intros t. unfold slack, x'. fold n np. rewrite dot_lin. pose proof (r_s _ _ V) as Hs. fold ip in Hs. rewrite Hs. unfold slack. fold n np. ring. }
  (* the full step *)
  assert (Hfull : forall t, eps52 < dot n z z -> t = - q_s st ip / dot n z np ->
    exists st', (a <- add_constraint n (q_R st) (q_J st) d iq (q_Rn st) ;;
          let '(ok, R', J', iq', Rn') := a in
          if ok then
            Ok (Next L1 (Qst (x' t) (dual t) (q_A st) iq' R' J' Rn' (f' t) (q_iter st) (q_s st) (q_ss st) ip (setv (q_iai st) ip (-1)%Z) (q_ex st)
                 (q_xo st) (q_uo st) (q_Ao st) (q_tol st)))
          else
            b <- delete_constraint (e_I q + e_E q) (e_E q) R' J' (q_A st) (dual t) iq' (Z.of_nat ip) ;;
            let '(R'', J'', A'', u'', iq'') := b in
            iai <- restore q (q_Ao st) 0 iq'' (fun i => Z.of_nat i) ;;
            Ok (Next L2 (Qst (q_xo st) (fun i => if (i <? iq'')%nat then q_uo st i else u'' i)
                 (fun i => if (i <? iq'')%nat then q_Ao st i else A'' i) iq'' R'' J'' Rn' (f' t) (q_iter st) (q_s st) (q_ss st) ip iai
                 (setv (q_ex st) ip false) (q_xo st) (q_uo st) (q_Ao st) (q_tol st)))) = Ok (Next L1 st') /\
      pinv q st' /\ q_iter st' = q_iter st /\ q_tol st' = q_tol st).
  { intros t P1 Et. rewrite (dot_sym n z np) in Et.
    destruct (padd q lam st np (q_A st) C I Hrow) as (R' & J' & Rn' & EA & Hn & P2 & Hi & Hfa & HR1 & HR).
    - reflexivity.
    - rewrite (r_A _ _ V). apply normal_in.
    - exact P1.
    - fold n iq in EA, P2. fold d in EA, P2. fold z in P2. rewrite EA. cbn [bind]. eexists. split; [reflexivity|]. split; [|split; reflexivity].
      pose proof (r_A _ _ V) as JA. fold iq ip in JA.
      assert (Cases : forall k, (k < S iq)%nat -> (k < iq)%nat \/ k = iq) by (intros; lia).
      constructor; qst_cbn.
      + fold n. lia.
      + exact Hi.
      + exact Hfa.
      + intros k Hk. destruct (Cases k Hk) as [H| ->]; [apply (p_in _ _ I); exact H|]. exists ip. split; [exact (r_ip _ _ V)|exact JA].
      + intros k k' Hk Hk' E. destruct (Cases k Hk) as [H| ->], (Cases k' Hk') as [H'| ->]; try lia.
        * apply (p_inj _ _ I); [exact H|exact H'|exact E].
        * exfalso. apply (r_new _ _ V k); [exact H|]. rewrite E. exact JA.
        * exfalso. apply (r_new _ _ V k'); [exact H'|]. rewrite <- E. exact JA.
      + exact HR1.
      + exact HR.
      + intros k Hk. destruct (Cases k Hk) as [H| ->]; [apply Hac; exact H|]. rewrite JA, normal_in, offset_in.
        change (slack q (x' t) ip = 0). rewrite Hsl, Et. field. lra.
      + intros i Hi'. unfold setv. destruct (Nat.eqb_spec i ip) as [->|].
        * intros _. exists iq. split; [lia|exact JA].
        * intros E. destruct (p_iai _ _ I i Hi' E) as (k & Hk & EK). fold iq in Hk. exists k. split; [lia|exact EK]. }
  assert (Hiq1 : forall j, (j < iq)%nat -> S (iq - 1) = iq) by (intros; lia).
  destruct (Rlt_dec eps52 (Rabs (dot n z z))) as [Hzz|Hzz].
  - assert (Hzz' : eps52 < dot n z z). { rewrite Rabs_pos_eq in Hzz; [exact Hzz|apply (sumf_sq_nonneg n z)]. }
    set (t2 := - q_s st ip / dot n z np). destruct t1 as [t1|].
    + destruct D1 as [[D1 _]|(j & Hj & Hr & D1 & ->)]; [discriminate|]. assert (Hj' : (j < iq)%nat) by lia.
      destruct (Req_EM_T (Rmin t1 t2) t2) as [E|E].
      * right. right. rewrite E. apply (Hfull t2 Hzz' eq_refl).
      * right. left. set (t := Rmin t1 t2).
        destruct (pdrop q st j (dual t) (x' t) (setv (q_s st) ip (slack q (x' t) ip)) (q_iai st) E0 V Hj') as (R' & J' & A' & u' & iai' & Q1 & Q2 & Q3).
        { apply Hac. } { apply setv_eq. } { apply (p_iai _ _ I). }
        rewrite Q2. cbn [bind]. unfold dual in Q1. fold iq in Q1. rewrite Q1. cbn [bind].
        eexists. split; [reflexivity|]. split; [apply Q3|]. qst_cbn. split; [apply (Hiq1 j Hj')|]. split; reflexivity.
    + right. right. destruct (Req_EM_T t2 t2) as [_|]; [|contradiction]. apply (Hfull t2 Hzz' eq_refl).
  - destruct t1 as [t1|]; [|left; reflexivity]. right. left.
    destruct D1 as [[D1 _]|(j & Hj & Hr & D1 & ->)]; [discriminate|]. assert (Hj' : (j < iq)%nat) by lia.
    destruct (pdrop q st j (dual t1) (q_x st) (q_s st) (q_iai st) E0 V Hj') as (R' & J' & A' & u' & iai' & Q1 & Q2 & Q3).
    { apply (p_act _ _ I). } { apply (r_s _ _ V). } { apply (p_iai _ _ I). }
    rewrite Q2. cbn [bind]. unfold dual in Q1. fold iq in Q1. rewrite Q1. cbn [bind].
    eexists. split; [reflexivity|]. split; [apply Q3|]. qst_cbn. split; [apply (Hiq1 j Hj')|]. split; reflexivity.
Qed.

(** * l1 and l2 *)
Record pinv1 (q : eqp) (st : qst) : Prop := Pinv1 {
  s_inv : pinv q st;
  s_s : forall i, q_s st i = slack q (q_x st) i;
  s_ss : q_ss st = 0;
  s_ex : forall i, q_ex st i = true
}.
Lemma pstep_L1 q st : e_E q = 0%nat -> pinv q st ->
  (exists st', step_L1 q st = Ok (Done st_MAX_ITER st')) \/
  (exists st', step_L1 q st = Ok (Done st_OPTIMAL st') /\ violation q (q_x st') <= q_tol st) \/
  (exists st', step_L1 q st = Ok (Next L2 st') /\ pinv1 q st' /\
     q_iter st' = S (q_iter st) /\ (q_iter st' < e_max q)%nat /\ q_tol st' = q_tol st).
Proof.
  intros E0 I. unfold step_L1. cbv zeta. destruct (Nat.leb_spec (e_max q) (S (q_iter st))) as [Hi|Hi].
  - left. eexists. reflexivity.
  - destruct (mark_ok q (q_A st) (q_iq st - e_E q) (e_E q) (q_iai st)) as (iai' & EM & PM).
    { intros k Hk. apply (p_in _ _ I). lia. }
    rewrite EM. cbn [bind].
    match goal with |- context [sumf (e_I q) ?f] => change f with (fun i => Rmin 0 (slack q (q_x st) i)) end.
    rewrite psi_violation.
    assert (IA : forall i, (i < e_I q)%nat -> iai' i = (-1)%Z -> exists k, (k < q_iq st)%nat /\ q_A st k = Z.of_nat i).
    { intros i Hi' E. destruct (PM i E) as [E'|(k & Hk & E')]; [apply (p_iai _ _ I i Hi' E')|]. exists k. split; [lia|exact E']. }
    destruct (Rle_dec (violation q (q_x st)) (q_tol st)) as [Hv|Hv]; right.
    + left. eexists. split; [reflexivity|]. exact Hv.
    + right. eexists. split; [reflexivity|]. split; [|qst_cbn; split; [reflexivity|]; split; [exact Hi|reflexivity]].
      constructor; qst_cbn; try reflexivity. destruct I; constructor; qst_cbn; assumption.
Qed.
Lemma pactive_slack q st k j : pinv q st -> (k < q_iq st)%nat -> q_A st k = Z.of_nat j -> slack q (q_x st) j = 0.
Proof. intros I Hk E. pose proof (p_act _ _ I k Hk) as A. rewrite E, normal_in, offset_in in A. exact A. Qed.
Lemma proom q st j : pinv q st -> (j < e_I q)%nat -> slack q (q_x st) j < 0 -> (q_iq st < e_I q)%nat.
Proof.
  intros I Hj Hs. set (l := map (fun k => Z.to_nat (q_A st k)) (seq 0 (q_iq st))).
  assert (ND : NoDup (j :: l)).
  { constructor.
    - unfold l. rewrite in_map_iff. intros (k & E & Hk). apply in_seq in Hk.
      destruct (p_in _ _ I k) as (j' & Hj' & E'); [lia|]. rewrite E', Nat2Z.id in E. subst j'.
      assert (EZ : slack q (q_x st) j = 0) by (refine (pactive_slack q st k j I _ E'); lia). lra.
    - unfold l. apply nodup_map; [|apply seq_NoDup]. intros a b Ha Hb E. apply in_seq in Ha, Hb.
      destruct (p_in _ _ I a) as (ja & Hja & Ea); [lia|]. destruct (p_in _ _ I b) as (jb & Hjb & Eb); [lia|].
      rewrite Ea, Eb, !Nat2Z.id in E. subst jb. apply (p_inj _ _ I); [lia|lia|congruence]. }
  assert (IN : incl (j :: l) (seq 0 (e_I q))).
  { intros a [<-|Ha]; [apply in_seq; lia|]. unfold l in Ha. apply in_map_iff in Ha. destruct Ha as (k & <- & Hk). apply in_seq in Hk.
    destruct (p_in _ _ I k) as (j' & Hj' & E'); [lia|]. rewrite E', Nat2Z.id. apply in_seq. lia. }
  pose proof (NoDup_incl_length ND IN) as HL. cbn [length] in HL. unfold l in HL. rewrite map_length, !seq_length in HL. lia.
Qed.
Lemma pstep_L2 q st : e_E q = 0%nat -> pinv1 q st ->
  (exists st', step_L2 q st = Ok (Done st_OPTIMAL st') /\ violation q (q_x st') = 0) \/
  (exists st', step_L2 q st = Ok (Next L2a st') /\ pinv2 q st' /\ q_iter st' = q_iter st /\ q_tol st' = q_tol st).
Proof.
  intros E0 K. pose proof (s_inv _ _ K) as I. unfold step_L2. rewrite (s_ss _ _ K). destruct (worst (e_I q) 0 st 0 (q_ip st)) as [ss ip] eqn:EW.
  apply worst_ok in EW. destruct EW as (W1 & W2 & W3). destruct (Rle_dec 0 ss) as [H0|H0].
  - left. eexists. split; [reflexivity|]. qst_cbn.
    unfold violation. apply sumf_zero. intros j Hj. apply Rmax_left. destruct (Rlt_dec (slack q (q_x st) j) 0) as [Hs|]; [exfalso|lra].
    assert (NA : q_iai st j <> (-1)%Z).
    { intros E. destruct (p_iai _ _ I j Hj E) as (k & Hk & EA). rewrite (pactive_slack _ _ _ _ I Hk EA) in Hs. lra. }
    specialize (W3 j ltac:(lia) NA (s_ex _ _ K j)). rewrite (s_s _ _ K) in W3. lra.
  - right. destruct W1 as [[-> _]|(W1 & W4 & W5)]; [lra|]. rewrite (s_s _ _ K) in W4, W5.
    pose proof (proom _ _ ip I ltac:(lia) W5) as Room.
    destruct (Nat.leb_spec (e_I q + e_E q) (q_iq st)) as [Hm|Hm]; [lia|].
    eexists. split; [reflexivity|]. split; [|split; reflexivity].
    assert (SA : forall k, (k < q_iq st)%nat -> setv (q_A st) (q_iq st) (Z.of_nat ip) k = q_A st k) by (intros; apply setv_ne; lia).
    constructor; qst_cbn; rewrite ?setv_eq; try reflexivity.
    + destruct I; constructor; qst_cbn; try assumption.
      * refine (factored_ext _ _ _ _ _ _ _ p_fac0). intros k Hk. cbv beta. now rewrite SA.
      * intros k Hk. rewrite SA by lia. auto.
      * intros k k' Hk Hk'. rewrite !SA by lia. auto.
      * intros k Hk. rewrite SA by exact Hk. auto.
      * intros i Hi E. destruct (p_iai0 i Hi E) as (k & Hk & EK). exists k. split; [exact Hk|]. rewrite SA by lia. exact EK.
    + lia.
    + intros k Hk. rewrite SA by lia. intros E. rewrite (pactive_slack _ _ _ _ I Hk E) in W5. lra.
    + apply (s_s _ _ K).
    + exact Room.
Qed.

(** * Whole executions *)
Lemma pL2a_run q lam : e_E q = 0%nat -> conditioned q lam -> forall c st, (q_iq st <= c)%nat -> pinv2 q st ->
  (exists k st', (k <= S c)%nat /\ steps q k (Ok (Next L2a st)) = Ok (Done st_UNBOUNDED st')) \/
  (exists k st', (k <= S c)%nat /\ steps q k (Ok (Next L2a st)) = Ok (Next L1 st') /\ pinv q st' /\ q_iter st' = q_iter st /\ q_tol st' = q_tol st).
Proof.
  intros E0 C. induction c as [|c IH]; intros st Hc V.
  all: destruct (pstep_L2a q lam st E0 C V) as [E|[(st' & E & V' & Hq & Hi & Ht)|(st' & E & I & Hi & Ht)]].
  1, 4: left; exists 1%nat, st; split; [lia|exact E].
  2, 4: right; exists 1%nat, st'; split; [lia|]; split; [exact E|]; split; [exact I|]; split; [exact Hi|exact Ht].
  - lia.
  - destruct (IH st') as [(k & st2 & Hk & E2)|(k & st2 & Hk & E2 & I & Hi2 & Ht2)]; [lia|exact V'|left|right]; exists (1 + k)%nat, st2.
    + rewrite steps_add, steps_one. cbn [step]. rewrite E. split; [lia|exact E2].
    + rewrite steps_add, steps_one. cbn [step]. rewrite E. split; [lia|]. split; [exact E2|]. split; [exact I|]. split; congruence.
Qed.
Inductive pends (q : eqp) (tol : R) : Z -> qst -> Prop :=
| pends_optimal st : violation q (q_x st) <= tol \/ violation q (q_x st) = 0 -> pends q tol st_OPTIMAL st
| pends_max st : pends q tol st_MAX_ITER st
| pends_none st : pends q tol st_UNBOUNDED st.
Lemma pL1_run q lam : e_E q = 0%nat -> conditioned q lam -> forall c st, (e_max q <= q_iter st + c)%nat -> pinv q st ->
  exists k s st', (k <= c * (e_n q + 3) + 1)%nat /\ steps q k (Ok (Next L1 st)) = Ok (Done s st') /\ pends q (q_tol st) s st'.
Proof.
  intros E0 C. induction c as [|c IH]; intros st Hc I.
  all: destruct (pstep_L1 q st E0 I) as [(st1 & E1)|[(st1 & E1 & Hv)|(st1 & E1 & K & Hi & Hl & Ht)]].
  1, 4: exists 1%nat, st_MAX_ITER, st1; split; [lia|]; split; [exact E1|constructor].
  1, 3: exists 1%nat, st_OPTIMAL, st1; split; [lia|]; split; [exact E1|constructor; left; exact Hv].
  - lia.
  - destruct (pstep_L2 q st1 E0 K) as [(st2 & E2 & Hv2)|(st2 & E2 & V & Hi2 & Ht2)].
    + exists (1 + 1)%nat, st_OPTIMAL, st2. rewrite steps_add, steps_one. cbn [step]. rewrite E1. split; [lia|]. split; [exact E2|]. constructor. right. exact Hv2.
    + pose proof (p_n _ _ (r_inv _ _ V)) as Hn.
      destruct (pL2a_run q lam E0 C (e_n q) st2 Hn V) as [(k & st3 & Hk & E3)|(k & st3 & Hk & E3 & I3 & Hi3 & Ht3)].
      * exists (1 + (1 + k))%nat, st_UNBOUNDED, st3. rewrite !steps_add, !steps_one. cbn [step]. rewrite E1, steps_one. cbn [step]. rewrite E2. split; [lia|]. split; [exact E3|constructor].
      * destruct (IH st3) as (k4 & s & st4 & Hk4 & E4 & EN); [lia|exact I3|].
        exists (1 + (1 + (k + k4)))%nat, s, st4. rewrite !steps_add, !steps_one. cbn [step]. rewrite E1, steps_one. cbn [step]. rewrite E2, E3. split; [lia|]. split; [exact E4|].
        replace (q_tol st) with (q_tol st3) by congruence. exact EN.
Qed.
Lemma conditioned_convex q lam : symmetric q -> conditioned q lam -> convex q.
Proof.
  intros Sy (L0 & LH & _). split; [exact Sy|]. intros v (i & Hi & Hv). pose proof eps_pos.
  apply Rlt_le_trans with (lam * dot (e_n q) v v); [|apply LH]. apply Rmult_lt_0_compat; [lra|].
  pose proof (sumf_sq_nonneg (e_n q) v) as P. destruct (Rle_lt_or_eq_dec _ _ P) as [H1|H1]; [exact H1|]. exfalso. apply Hv.
  apply (sumf_sq_zero (e_n q) v (eq_sym H1)). exact Hi.
Qed.
Theorem psolve q mem lam : symmetric q -> conditioned q lam -> e_E q = 0%nat ->
  exists L k s st, is_cholesky q L /\ (k <= e_max q * (e_n q + 3) + 1)%nat /\ execution q mem k = Ok (Done s st) /\ pends q (tolerance q L) s st.
Proof.
  intros Sy C E0. destruct (init_ok q mem (conditioned_convex q lam Sy C)) as (L & st0 & _ & HL & EI & Hq & I & Hi & Ht). exists L.
  destruct (pL1_run q lam E0 C (e_max q) st0 ltac:(lia) (inv_pinv q st0 E0 I)) as (k & s & st & Hk & E & F). exists k, s, st.
  split; [exact HL|]. split; [exact Hk|]. split; [|rewrite <- Ht; exact F]. unfold execution. rewrite EI, E0. exact E.
Qed.
