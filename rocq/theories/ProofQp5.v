(** QP solver: the steps preserve the invariant. *)
From Coq Require Import Lia Lra Psatz FunctionalExtensionality.
From Verif Require Import Vec SpecBezier ModelData ModelSolver ModelQp SpecQp ProofBezier ProofQp ProofQp2 ProofQp3 ProofQp4.
Open Scope R_scope.

Ltac qst_cbn := cbn [q_x q_u q_A q_iq q_R q_J q_Rn q_f q_iter q_s q_ss q_ip q_iai q_ex q_xo q_uo q_Ao q_tol] in *.

Lemma zero_dot n z : (forall i, z i = 0) -> dot n z z = 0.
Proof. intros H. apply sumf_zero. intros i _. rewrite H. ring. Qed.
Lemma sq_abs w : Rabs w * Rabs w = w * w.
Proof. rewrite <- Rabs_mult. apply Rabs_pos_eq. apply Rle_0_sqr. Qed.
Lemma sq_lt a b : 0 <= a -> 0 <= b -> a * a < b * b -> a < b.
Proof. intros. nra. Qed.
Lemma sq_le a b : 0 <= a -> 0 <= b -> a <= b -> a * a <= b * b.
Proof. intros. nra. Qed.

(** Adding the row [np] = normal (A iq) *)
Lemma add_row q e extra ip st np A' : well_scaled q -> inv q e extra ip st -> is_row q np ->
  (forall k, (k < q_iq st)%nat -> A' k = q_A st k) -> normal q (A' (q_iq st)) = np ->
  let d := compute_d (e_n q) (q_J st) np in
  let z := update_z (e_n q) (q_J st) d (q_iq st) in
  (q_iq st < e_n q)%nat ->
  exists b R' J' Rn', add_constraint (e_n q) (q_R st) (q_J st) d (q_iq st) (q_Rn st) = Ok (b, R', J', S (q_iq st), Rn') /\
    ((b = false /\ forall i, z i = 0) \/
     (b = true /\ eps52 < dot (e_n q) z z /\ 0 < dot (e_n q) np z /\
      inverts (e_n q) (e_H q) J' /\ factored (e_n q) (fun k => normal q (A' k)) (S (q_iq st)) R' J' /\
      1 <= Rn' /\ (Rn' = 1 \/ exists v w, is_row q v /\ (forall i, (i < e_n q)%nat -> hmul q w i = v i) /\ Rn' * Rn' <= dot (e_n q) v w))).
Proof.
  intros WS I Hr HA EN d z Hn. pose proof (i_Rn1 _ _ _ _ _ I) as R1.
  assert (F : factored (e_n q) (fun k => normal q (A' k)) (q_iq st) (q_R st) (q_J st)).
  { refine (factored_ext _ _ _ _ _ _ _ (i_fac _ _ _ _ _ I)). intros k Hk. now rewrite HA. }
  destruct (add_ok _ _ _ _ _ (q_Rn st) F Hn ltac:(lra)) as (b & R' & J' & Rn' & w & EA & G & W & Bt & Bf).
  cbv beta in EA, W. rewrite EN in EA, W. fold d in EA, W. exists b, R', J', Rn'. split; [exact EA|].
  pose proof (step_npz q (q_iq st) (q_J st) np) as Z. fold d in Z. fold z in Z. rewrite <- Z in W.
  pose proof eps_pos as EP. pose proof (Rabs_pos w) as WP. pose proof (sq_abs w) as WA.
  destruct (step_scaled q e extra ip st np WS I Hr) as [(S1 & S2 & S3)|(S1 & S2 & S3 & _)]; fold d in S1, S2, S3; fold z in S1, S2, S3.
  - left. split; [|exact S1]. destruct b; [|reflexivity]. exfalso. destruct (Bt eq_refl) as (_ & B & _).
    assert (Rabs w = 0) by nra. nra.
  - right. assert (Hb : b = true).
    { destruct b; [reflexivity|]. exfalso. destruct (Bf eq_refl) as (_ & B & _).
      assert (Q : Rabs w * Rabs w <= (eps52 * q_Rn st) * (eps52 * q_Rn st)) by (apply sq_le; [exact WP|nra|exact B]). lra. }
    subst b. destruct (Bt eq_refl) as (F' & _ & ERn). split; [reflexivity|]. split; [exact S1|]. split; [exact S2|]. split; [|split; [exact F'|]].
    + intros i l Hi Hl. rewrite (sumf_ext (e_n q) _ (fun j => e_H q i j * gram (e_n q) (q_J st) j l)) by (intros; now rewrite G).
      apply (i_inv _ _ _ _ _ I); assumption.
    + rewrite ERn. split; [pose proof (Rmax_l (q_Rn st) (Rabs w)); lra|].
      unfold Rmax. destruct (Rle_dec _ _) as [Hm|Hm]; [|exact (i_Rn _ _ _ _ _ I)]. right.
      destruct (step_bound q (q_iq st) (q_J st) np (i_inv _ _ _ _ _ I) (i_n _ _ _ _ _ I)) as (w0 & Hw & B). fold d in B. fold z in B.
      exists np, w0. split; [exact Hr|]. split; [exact Hw|]. rewrite WA, W. exact B.
Qed.

(** * l2a *)
Lemma step_L2a_ok q st : symmetric q -> well_scaled q -> inv2 q st ->
  (step_L2a q st = Ok (Done st_UNBOUNDED st) /\ forall y, ~ feasible q y) \/
  (exists st', step_L2a q st = Ok (Next L2a st') /\ inv2 q st' /\ (S (q_iq st') = q_iq st)%nat /\ q_iter st' = q_iter st /\ q_tol st' = q_tol st) \/
  (exists st', step_L2a q st = Ok (Next L1 st') /\ inv q (e_E q) 0 0 st' /\ q_iter st' = q_iter st /\ q_tol st' = q_tol st).
Proof.
  intros Sy WS V. pose proof (j_inv _ _ V) as I. set (n := e_n q). set (iq := q_iq st). set (ip := q_ip st). set (np := e_CI q ip).
  set (d := compute_d n (q_J st) np). set (z := update_z n (q_J st) d iq). set (r := update_r (q_R st) d iq).
  assert (Hz : (if (n <=? iq)%nat then (fun _ => 0) else z) = z).
  { destruct (Nat.leb_spec n iq) as [H|]; [|reflexivity]. apply functional_extensionality. intros i. unfold z, update_z.
    replace (n - iq)%nat with 0%nat by lia. reflexivity. }
  assert (Hrow : is_row q np) by (right; exists ip; split; [exact (j_ip _ _ V)|reflexivity]).
  pose proof (step_scaled q _ _ _ st np WS I Hrow) as Sc. cbv zeta in Sc. fold n iq in Sc. fold d in Sc. fold z in Sc.
  pose proof (fun t => move q _ _ _ st np t Sy I) as Mv. cbv zeta in Mv. fold n iq in Mv. fold d in Mv. fold z r in Mv.
  pose proof eps_pos as EP.
  unfold step_L2a. cbv zeta. change (q_ip st) with ip. change (e_CI q ip) with np. change (e_n q) with n. change (q_iq st) with iq.
  change (compute_d n (q_J st) np) with d. change (update_z n (q_J st) d iq) with z. rewrite Hz. change (update_r (q_R st) d iq) with r.
  destruct (dual_step (iq - e_E q) (e_E q) r (q_u st) (q_A st) None 0%Z) as [t1 l] eqn:ED.
  apply dual_step_ok in ED. destruct ED as (D1 & D2 & _). pose proof (i_e _ _ _ _ _ I) as He. fold iq in He.
  set (dual := fun t => setv (fun k => if (k <? iq)%nat then q_u st k - t * r k else q_u st k) iq (q_u st iq + t)).
  assert (Dk : forall t k, (k < iq)%nat -> dual t k = q_u st k - t * r k).
  { intros t k Hk. unfold dual. rewrite setv_ne by lia. now rewrite (proj2 (Nat.ltb_lt _ _)) by exact Hk. }
  assert (Dq : forall t, dual t iq = q_u st iq + t) by (intros; unfold dual; apply setv_eq).
  (* the multipliers stay non-negative up to the dual step length *)
  assert (Dpos : forall t, 0 <= t -> (forall a, t1 = Some a -> t <= a) -> forall k, (e_E q <= k < iq)%nat -> 0 <= dual t k).
  { intros t Ht Ha k Hk. rewrite Dk by lia. pose proof (i_u _ _ _ _ _ I k Hk) as U0. destruct (Rlt_dec 0 (r k)) as [Hr|Hr]; [|nra].
    destruct (D2 k ltac:(lia) Hr) as (t0 & -> & Ht0). specialize (Ha t0 eq_refl).
    assert (Q : q_u st k / r k * r k = q_u st k) by (field; lra). nra. }
  set (x' := fun t k => q_x st k + t * z k).
  set (f' := fun t => q_f st + t * dot n z np * (1 / 2 * t + q_u st iq)).
  assert (Hf : forall t, f' t = objective q (x' t)).
  { intros t. destruct (Mv t) as (_ & _ & E). fold (x' t) in E. rewrite E. unfold f'. rewrite (i_f _ _ _ _ _ I), (dot_sym n z np). fold ip. fold np. fold n. ring. }
  assert (Hst : forall t i, (i < n)%nat -> hmul q (x' t) i + e_g q i =
    sumf iq (fun k => dual t k * normal q (q_A st k) i) + dual t iq * np i).
  { intros t i Hi. destruct (Mv t) as (E & _ & _). specialize (E i Hi). fold (x' t) in E. rewrite E, Dq.
    rewrite (sumf_ext iq (fun k => dual t k * _) (fun k => (q_u st k - t * r k) * normal q (q_A st k) i)) by (intros; now rewrite Dk).
    fold ip. fold np. ring. }
  assert (Hac : forall t k, (k < iq)%nat -> dot n (normal q (q_A st k)) (x' t) + offset q (q_A st k) = 0).
  { intros t k Hk. destruct (Mv t) as (_ & E & _). apply (E k Hk). }
  assert (Hsl : forall t, slack q (x' t) ip = q_s st ip + t * dot n np z).
  { intros t. unfold slack, x'. fold n np. rewrite dot_lin. pose proof (j_s _ _ V) as Hs. fold ip in Hs. rewrite Hs. unfold slack. fold n np. ring. }
  assert (Hmv : forall t s', 0 <= t -> (forall a, t1 = Some a -> t <= a) -> s' ip = slack q (x' t) ip -> s' ip < 0 ->
    inv2 q (Qst (x' t) (dual t) (q_A st) iq (q_R st) (q_J st) (q_Rn st) (f' t) (q_iter st) s' (q_ss st) ip (q_iai st) (q_ex st)
              (q_xo st) (q_uo st) (q_Ao st) (q_tol st))).
  { intros t s' Ht Ha Es Hs. constructor; qst_cbn.
    - constructor; qst_cbn; try (apply I).
      + intros i Hi. apply Hst. exact Hi.
      + apply Dpos; assumption.
      + apply Hac.
      + apply Hf.
    - apply V.
    - apply V.
    - rewrite Dq. pose proof (j_u _ _ V) as JU. fold iq in JU. lra.
    - apply V.
    - exact Es.
    - exact Hs.
    - apply V. }
  (* a blocking constraint leaves *)
  assert (Hdrop : forall j t s', (e_E q <= j < iq)%nat -> 0 < r j -> t1 = Some t -> t = q_u st j / r j -> s' ip = slack q (x' t) ip -> s' ip < 0 ->
    exists iai' R' J' A' u', unmark q (q_A st j) (q_iai st) = Ok iai' /\
      delete_constraint (e_I q + e_E q) (e_E q) (q_R st) (q_J st) (q_A st) (dual t) iq (q_A st j) = Ok (R', J', A', u', (iq - 1)%nat) /\
      inv2 q (Qst (x' t) u' A' (iq - 1) R' J' (q_Rn st) (f' t) (q_iter st) s' (q_ss st) ip iai' (q_ex st) (q_xo st) (q_uo st) (q_Ao st) (q_tol st))).
  { intros j t s' Hj Hr Et E Es Hs. pose proof (i_u _ _ _ _ _ I j Hj) as Uj.
    assert (T0 : 0 <= t). { rewrite E. apply Rmult_le_pos; [exact Uj|]. left. apply Rinv_0_lt_compat. exact Hr. }
    pose proof (Hmv t s' T0 ltac:(intros a Ha; rewrite Et in Ha; injection Ha as <-; lra) Es Hs) as V'.
    destruct (drop_ok q _ j V') as (R' & J' & A' & u' & iai' & Q1 & Q2 & Q3); qst_cbn.
    - exact Hj.
    - rewrite Dk by lia. rewrite E. field. lra.
    - exists iai', R', J', A', u'. auto. }
  assert (Hiq1 : forall j, (e_E q <= j < iq)%nat -> S (iq - 1) = iq) by (intros; lia).
  pose proof (j_neg _ _ V) as Hneg. fold ip in Hneg.
  (* the full step *)
  assert (Hfull : forall t, eps52 < dot n z z -> 0 < dot n np z -> (iq < n)%nat -> t = - q_s st ip / dot n z np -> (forall a, t1 = Some a -> t <= a) ->
    exists st', (a <- add_constraint n (q_R st) (q_J st) d iq (q_Rn st) ;;
          let '(ok, R', J', iq', Rn') := a in
          if ok then
            Ok (Next L1 (Qst (x' t) (dual t) (q_A st) iq' R' J' Rn' (f' t) (q_iter st) (q_s st) (q_ss st) ip (setv (q_iai st) ip (-1)%Z) (q_ex st)
                 (q_xo st) (q_uo st) (q_Ao st) (q_tol st)))
          else
            b <- delete_constraint (e_I q + e_E q) (e_E q) R' J' (q_A st) (dual t) iq' (Z.of_nat ip) ;;
            let '(R'', J'', A'', u'', iq'') := b in
            iai <- restore q (q_Ao st) 0 iq'' (fun i => Z.of_nat i) ;;
            Ok (Next L2 (Qst (q_xo st) (fun i => if (i <? iq'')%nat then q_uo st i else u'' i)
                 (fun i => if (i <? iq'')%nat then q_Ao st i else A'' i) iq'' R'' J'' Rn' (f' t) (q_iter st) (q_s st) (q_ss st) ip iai
                 (setv (q_ex st) ip false) (q_xo st) (q_uo st) (q_Ao st) (q_tol st)))) = Ok (Next L1 st') /\
      inv q (e_E q) 0 0 st' /\ q_iter st' = q_iter st /\ q_tol st' = q_tol st).
  { intros t P1 P2 Hn Et Ha. rewrite (dot_sym n z np) in Et.
    assert (T0 : 0 <= t). { rewrite Et. apply Rmult_le_pos; [lra|]. left. apply Rinv_0_lt_compat. exact P2. }
    destruct (add_row q _ _ _ st np (q_A st) WS I Hrow) as (b & R' & J' & Rn' & EA & [(-> & Z)|(-> & _ & _ & Hi & Hfa & HR1 & HR)]).
    - reflexivity.
    - rewrite (j_A _ _ V). apply normal_in.
    - exact Hn.
    - exfalso. fold n iq in Z. fold d in Z. fold z in Z. rewrite (zero_dot n z Z) in P1. lra.
    - fold n iq in EA. fold d in EA. rewrite EA. cbn [bind]. eexists. split; [reflexivity|]. split; [|split; reflexivity].
      pose proof (j_A _ _ V) as JA. fold iq ip in JA.
      assert (Cases : forall k, (k < S iq)%nat -> (k < iq)%nat \/ k = iq) by (intros; lia).
      constructor; qst_cbn.
      + apply I.
      + lia.
      + fold n. lia.
      + exact Hi.
      + exact Hfa.
      + apply I.
      + intros k Hk. destruct (Cases k) as [H| ->]; [lia|apply (i_in _ _ _ _ _ I); fold iq; lia|]. exists ip. split; [exact (j_ip _ _ V)|exact JA].
      + intros k k' Hk Hk' E. destruct (Cases k) as [H| ->], (Cases k') as [H'| ->]; try lia.
        * apply (i_inj _ _ _ _ _ I); [fold iq; lia|fold iq; lia|exact E].
        * exfalso. apply (j_new _ _ V k); [fold iq; lia|]. rewrite E. exact JA.
        * exfalso. apply (j_new _ _ V k'); [fold iq; lia|]. rewrite <- E. exact JA.
      + exact HR1.
      + exact HR.
      + intros i Hi'. rewrite Hst by exact Hi'. cbn [sumf]. rewrite JA, normal_in. fold np. ring.
      + intros k Hk. destruct (Cases k) as [H| ->]; [lia|apply Dpos; [exact T0|exact Ha|lia]|]. rewrite Dq. pose proof (j_u _ _ V) as JU. fold iq in JU. lra.
      + intros k Hk. destruct (Cases k) as [H| ->]; [lia|apply Hac; exact H|]. rewrite JA, normal_in, offset_in.
        change (slack q (x' t) ip = 0). rewrite Hsl, Et. field. lra.
      + apply Hf.
      + intros i Hi'. unfold setv. destruct (Nat.eqb_spec i ip) as [->|].
        * intros _. exists iq. split; [lia|exact JA].
        * intros E. destruct (i_iai _ _ _ _ _ I i Hi' E) as (k & Hk & EK). fold iq in Hk. exists k. split; [lia|exact EK]. }
  destruct t1 as [t1|].
  - destruct D1 as [[D1 _]|(j & Hj & Hr & D1 & ->)]; [discriminate|]. injection D1 as D1. assert (Hj' : (e_E q <= j < iq)%nat) by lia.
    destruct Sc as [(S1 & S2 & S3)|(S1 & S2 & _ & S4)].
    + right. left. rewrite S3, Rabs_R0. destruct (Rlt_dec eps52 0) as [|_]; [lra|].
      assert (EX : x' t1 = q_x st) by (apply functional_extensionality; intros k; unfold x'; rewrite S1; ring).
      assert (EF : f' t1 = q_f st) by (unfold f'; rewrite (dot_sym n z np), S2; ring).
      destruct (Hdrop j t1 (q_s st) Hj' Hr eq_refl D1) as (iai' & R' & J' & A' & u' & Q1 & Q2 & Q3); [rewrite EX; exact (j_s _ _ V)|exact Hneg|].
      rewrite Q1. cbn [bind]. unfold dual in Q2. rewrite Q2. cbn [bind]. rewrite EX, EF in Q3.
      eexists. split; [reflexivity|]. split; [exact Q3|]. qst_cbn. split; [apply (Hiq1 j Hj')|]. split; reflexivity.
    + rewrite (Rabs_pos_eq (dot n z z)) by lra. destruct (Rlt_dec eps52 (dot n z z)) as [_|]; [|contradiction].
      set (t2 := - q_s st ip / dot n z np). destruct (Req_EM_T (Rmin t1 t2) t2) as [E|E].
      * right. right. rewrite E. apply (Hfull t2 S1 S2 S4 eq_refl). intros a [= <-]. rewrite <- E. apply Rmin_l.
      * assert (L12 : t1 < t2). { destruct (Rlt_dec t1 t2); [assumption|]. exfalso. apply E. apply Rmin_right. lra. }
        rewrite (Rmin_left t1 t2) by lra. right. left.
        assert (Hs' : slack q (x' t1) ip < 0).
        { rewrite Hsl. unfold t2 in L12. rewrite (dot_sym n z np) in L12.
          assert (Q : - q_s st ip / dot n np z * dot n np z = - q_s st ip) by (field; lra). nra. }
        destruct (Hdrop j t1 (setv (q_s st) ip (slack q (x' t1) ip)) Hj' Hr eq_refl D1) as (iai' & R' & J' & A' & u' & Q1 & Q2 & Q3);
          [apply setv_eq|rewrite setv_eq; exact Hs'|].
        rewrite Q1. cbn [bind]. unfold dual in Q2. rewrite Q2. cbn [bind].
        eexists. split; [reflexivity|]. split; [exact Q3|]. qst_cbn. split; [apply (Hiq1 j Hj')|]. split; reflexivity.
  - destruct Sc as [(S1 & S2 & S3)|(S1 & S2 & _ & S4)].
    + left. rewrite S3, Rabs_R0. destruct (Rlt_dec eps52 0) as [|_]; [lra|]. split; [reflexivity|].
      intros y (Ye & Yi).
      assert (Hr : forall k, (e_E q <= k < iq)%nat -> r k <= 0).
      { intros k Hk. destruct (Rlt_dec 0 (r k)) as [H|]; [|lra]. destruct (D2 k ltac:(lia) H) as (t0 & E & _). discriminate. }
      pose proof (step_Hz q _ _ _ _ np (i_inv _ _ _ _ _ I) (i_fac _ _ _ _ _ I) (i_n _ _ _ _ _ I)) as Hz'. cbv beta in Hz'. fold n iq in Hz'. fold d in Hz'. fold z r in Hz'.
      assert (Hnp : forall i, (i < n)%nat -> np i = sumf iq (fun k => r k * normal q (q_A st k) i)).
      { intros i Hi. specialize (Hz' i Hi). assert (E0 : hmul q z i = 0) by (unfold hmul; apply sumf_zero; intros; rewrite S1; ring). lra. }
      assert (Hd : dot n np (fun i => y i + -1 * q_x st i) <= 0).
      { rewrite (dot_sym n). rewrite (dot_ext n _ (fun i => y i + -1 * q_x st i) np (fun i => sumf iq (fun k => r k * normal q (q_A st k) i))) by auto.
        rewrite dot_sum. replace 0 with (sumf iq (fun _ => 0)) by (apply sumf_zero; reflexivity). apply sumf_le. intros k Hk.
        rewrite (dot_sym n), dot_lin. pose proof (i_act _ _ _ _ _ I k Hk) as Ak. fold n in Ak.
        destruct (Nat.lt_ge_cases k (e_E q)) as [Hk'|Hk'].
        - rewrite (i_eq _ _ _ _ _ I k Hk') in *. rewrite normal_eq, offset_eq in *. specialize (Ye k Hk'). unfold eq_gap in Ye. fold n in Ye.
          replace (dot n (e_CE q k) y + -1 * dot n (e_CE q k) (q_x st)) with 0 by lra. lra.
        - destruct (i_in _ _ _ _ _ I k) as (j & Hj & EJ); [fold iq; lia|]. rewrite EJ in *. rewrite normal_in, offset_in in *.
          specialize (Yi j Hj). unfold slack in Yi. fold n in Yi. pose proof (Hr k ltac:(lia)). nra. }
      rewrite dot_lin in Hd. pose proof (Yi ip (j_ip _ _ V)) as Yp. pose proof (j_s _ _ V) as Hs. fold ip in Hs. rewrite Hs in Hneg.
      unfold slack in Yp, Hneg. fold n np in Yp, Hneg. lra.
    + rewrite (Rabs_pos_eq (dot n z z)) by lra. destruct (Rlt_dec eps52 (dot n z z)) as [_|]; [|contradiction].
      set (t2 := - q_s st ip / dot n z np). destruct (Req_EM_T t2 t2) as [_|]; [|contradiction].
      right. right. apply (Hfull t2 S1 S2 S4 eq_refl). discriminate.
Qed.
