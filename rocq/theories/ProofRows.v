(** Row normalisation. *)
From Coq Require Import Permutation.
From Coq Require FinFun.
From Verif Require Import Vec ModelData ModelRows ProofTime.
Open Scope R_scope.

Lemma upd_len {A} : forall (l : list A) i a, length (upd l i a) = length l.
Proof. induction l as [|b l IH]; intros [|i] a; cbn; try reflexivity. rewrite IH; reflexivity. Qed.
Lemma upd_same {A} : forall (l : list A) i a, (i < length l)%nat -> nth_error (upd l i a) i = Some a.
Proof.
  induction l as [|b l IH]; intros [|i] a H; cbn in *; try lia; [reflexivity|]. apply IH; lia.
Qed.
Lemma upd_other {A} : forall (l : list A) i j a, i <> j -> nth_error (upd l i a) j = nth_error l j.
Proof.
  induction l as [|b l IH]; intros [|i] [|j] a H; cbn; try reflexivity; try congruence.
  apply IH; congruence.
Qed.

Lemma get_some {A} (l : list A) i a : nth_error l i = Some a -> get l i = Ok a.
Proof. intros H. unfold get. rewrite H. reflexivity. Qed.

Lemma swap_ok {A} (l : list A) i j a b : nth_error l i = Some a -> nth_error l j = Some b ->
  exists l', swap l i j = Ok l' /\ length l' = length l /\
    nth_error l' i = Some b /\ nth_error l' j = Some a /\
    (forall k, k <> i -> k <> j -> nth_error l' k = nth_error l k) /\ Permutation l l'.
Proof.
  intros Ha Hb. unfold swap. rewrite (get_some _ _ _ Ha), (get_some _ _ _ Hb). cbn [bind].
  exists (upd (upd l i b) j a). split; [reflexivity|].
  pose proof (nth_error_lt _ _ _ Ha) as Hi. pose proof (nth_error_lt _ _ _ Hb) as Hj.
  assert (HI : nth_error (upd (upd l i b) j a) i = Some b).
  { destruct (Nat.eq_dec j i) as [->|E].
    - rewrite upd_same by (rewrite upd_len; lia). congruence.
    - rewrite upd_other by assumption. apply upd_same; lia. }
  assert (HJ : nth_error (upd (upd l i b) j a) j = Some a) by (apply upd_same; rewrite upd_len; lia).
  assert (HK : forall k, k <> i -> k <> j -> nth_error (upd (upd l i b) j a) k = nth_error l k).
  { intros k Hki Hkj. rewrite !upd_other by congruence. reflexivity. }
  split; [rewrite !upd_len; reflexivity|]. split; [exact HI|]. split; [exact HJ|]. split; [exact HK|].
  apply Permutation_nth_error. split; [rewrite !upd_len; reflexivity|].
  exists (fun k => if Nat.eq_dec k i then j else if Nat.eq_dec k j then i else k). split.
  - intros x y. destruct (Nat.eq_dec x i), (Nat.eq_dec y i), (Nat.eq_dec x j), (Nat.eq_dec y j); congruence.
  - intros k. destruct (Nat.eq_dec k i) as [->|E1]; [congruence|].
    destruct (Nat.eq_dec k j) as [->|E2]; [congruence|]. apply HK; assumption.
Qed.

Section Norm.
  Variable row : Type.
  Variable isz : row -> bool.
  Variable norm : row -> R.
  Variable divr : row -> R -> row.
  Variable pt : Type.
  Variable dot : row -> pt -> R.
  Hypothesis dot_z : forall r x, isz r = true -> dot r x = 0.
  Hypothesis dot_div : forall r k x, dot (divr r k) x = dot r x / k.
  Hypothesis norm_pos : forall r, isz r = false -> 0 < norm r.
  Hypothesis norm_div : forall r, isz r = false -> norm (divr r (norm r)) = 1.
  Hypothesis isz_div : forall r, isz r = false -> isz (divr r (norm r)) = false.

  Definition ssat (l : list (row * R)) (x : pt) : Prop := Forall (fun rb => dot (fst rb) x <= snd rb) l.

  Local Notation E := (bool * (row * R))%type.

  Lemma rz_ok : forall k (l : list E) i, (i + k <= length l)%nat ->
    (forall j e, (j < i)%nat -> nth_error l j = Some e -> fst e = false) ->
    (forall j e, (i + k <= j)%nat -> nth_error l j = Some e -> fst e = true /\ 0 <= snd (snd e)) ->
    exists z l', rz_loop row k l i = Ok (z, l') /\ Permutation l l' /\
      ((z = -1)%Z /\ (exists r, In (true, r) l /\ snd r < 0) \/
       exists m, z = Z.of_nat m /\ (m <= length l)%nat /\
         (forall j e, (j < m)%nat -> nth_error l' j = Some e -> fst e = false) /\
         (forall j e, (m <= j)%nat -> nth_error l' j = Some e -> fst e = true /\ 0 <= snd (snd e))).
  Proof.
    induction k as [|k IH]; intros l i Hlen H1 H2.
    - cbn [rz_loop]. exists (Z.of_nat i), l. split; [reflexivity|]. split; [apply Permutation_refl|].
      right. exists i. split; [reflexivity|]. split; [lia|]. split; [exact H1|].
      intros j e Hj. apply H2. lia.
    - cbn [rz_loop]. destruct (nth_error_ex l i ltac:(lia)) as [[f [r b]] He].
      rewrite (get_some _ _ _ He). cbn [bind fst snd]. destruct f.
      + destruct (Rlt_dec b 0) as [Hb|Hb].
        * exists (-1)%Z, l. split; [reflexivity|]. split; [apply Permutation_refl|]. left. split; [reflexivity|].
          exists (r, b). split; [eapply nth_error_In; eauto|exact Hb].
        * destruct (nth_error_ex l (i + k) ltac:(lia)) as [e2 He2].
          destruct (swap_ok l i (i + k) _ _ He He2) as (l' & Hsw & Hl & Hi & Hj & Hk & HP).
          rewrite Hsw. cbn [bind].
          destruct (IH l' i) as (z & l'' & Hrz & HP' & Hcase).
          -- lia.
          -- intros j e Hji Hje. rewrite Hk in Hje by lia. eapply H1; eauto.
          -- intros j e Hji Hje. destruct (Nat.eq_dec j (i + k)) as [->|Ej].
             ++ rewrite Hj in Hje. injection Hje as <-. split; [reflexivity|cbn; lra].
             ++ rewrite Hk in Hje by lia. apply (H2 j e); [lia|exact Hje].
          -- exists z, l''. split; [exact Hrz|]. split; [eapply Permutation_trans; eauto|].
             destruct Hcase as [[Hz (r0 & Hin & Hr0)]|(m & Hz & Hm & Hc)].
             ++ left. split; [exact Hz|]. exists r0. split; [|exact Hr0].
                eapply Permutation_in; [apply Permutation_sym, HP|exact Hin].
             ++ right. exists m. split; [exact Hz|]. split; [lia|exact Hc].
      + destruct (IH l (S i)) as (z & l'' & Hrz & HP' & Hcase).
        * lia.
        * intros j e Hj Hje. destruct (Nat.eq_dec j i) as [->|Ej]; [|eapply (H1 j); eauto; lia].
          rewrite He in Hje. injection Hje as <-. reflexivity.
        * intros j e Hj Hje. apply (H2 j e); [lia|exact Hje].
        * exists z, l''. split; [exact Hrz|]. split; [exact HP'|exact Hcase].
  Qed.

  Lemma ssat_perm l l' x : Permutation l l' -> ssat l x -> ssat l' x.
  Proof. intros HP H. unfold ssat in *. rewrite Forall_forall in *. intros e Hin. apply H.
    eapply Permutation_in; [apply Permutation_sym, HP|exact Hin]. Qed.

  Lemma removeZero_ok (l : list (row * R)) : exists z l', removeZeroRows row isz l = Ok (z, l') /\
    Permutation l l' /\
    ((z = -1)%Z /\ (exists r, In r l /\ isz (fst r) = true /\ snd r < 0) \/
     exists m, z = Z.of_nat m /\ (m <= length l)%nat /\
       Forall (fun r => isz (fst r) = false) (firstn m l') /\
       Forall (fun r => isz (fst r) = true /\ 0 <= snd r) (skipn m l')).
  Proof.
    set (l0 := map (fun rb => (isz (fst rb), rb)) l).
    destruct (rz_ok (length l0) l0 0) as (z & l' & Hrz & HP & Hc).
    { lia. } { intros; lia. }
    { intros j e Hj Hje. apply nth_error_lt in Hje. lia. }
    exists z, (map snd l'). unfold removeZeroRows. fold l0.
    assert (HL0 : length l = length l0) by (unfold l0; rewrite map_length; reflexivity).
    rewrite HL0, Hrz. cbn [bind fst snd]. split; [reflexivity|].
    assert (HM : map snd l0 = l) by (unfold l0; rewrite map_map; cbn; apply map_id).
    split; [rewrite <- HM; apply Permutation_map, HP|].
    assert (HF : Forall (fun e : E => fst e = isz (fst (snd e))) l').
    { rewrite Forall_forall. intros e Hin. apply (Permutation_in e (Permutation_sym HP)) in Hin.
      unfold l0 in Hin. apply in_map_iff in Hin. destruct Hin as (rb & <- & _). reflexivity. }
    rewrite Forall_forall in HF.
    destruct Hc as [[Hz (r & Hin & Hr)]|(m & Hz & Hm & Ha & Hb)].
    - left. split; [exact Hz|]. exists r. unfold l0 in Hin. apply in_map_iff in Hin.
      destruct Hin as (rb & Heq & Hin). injection Heq as Hf Hrb. subst rb.
      split; [exact Hin|]. split; assumption.
    - right. exists m. split; [exact Hz|]. split; [lia|].
      rewrite firstn_map, skipn_map. rewrite !Forall_map. rewrite !Forall_forall. split.
      + intros e Hin. assert (Hin' : In e l') by (rewrite <- (firstn_skipn m l'); apply in_or_app; auto).
        rewrite <- (HF e Hin'). apply In_nth_error in Hin. destruct Hin as [j Hj].
        pose proof (nth_error_lt _ _ _ Hj) as Hlt. rewrite firstn_length in Hlt.
        apply (Ha j e); [lia|]. rewrite <- Hj. rewrite <- (firstn_skipn m l') at 1.
        rewrite nth_error_app1; [reflexivity|]. rewrite firstn_length. lia.
      + intros e Hin. assert (Hin' : In e l') by (rewrite <- (firstn_skipn m l'); apply in_or_app; auto).
        rewrite <- (HF e Hin'). apply In_nth_error in Hin. destruct Hin as [j Hj].
        apply (Hb (m + j)%nat e); [lia|]. rewrite <- Hj.
        assert (Hlen : length l' = length l0) by (apply Permutation_length, Permutation_sym, HP).
        rewrite <- (firstn_skipn m l') at 1. rewrite nth_error_app2; rewrite firstn_length; [|lia].
        f_equal. lia.
  Qed.

  Definition scaled (r : row * R) : row * R :=
    if isz (fst r) then r else (divr (fst r) (norm (fst r)), snd r / norm (fst r)).
  Lemma scaled_nz r : isz (fst r) = false -> scaled r = normalize_row row norm divr r.
  Proof. intros H. unfold scaled. rewrite H. reflexivity. Qed.
  Lemma scaled_z_map l : Forall (fun r => isz (fst r) = true /\ 0 <= snd r) l -> map scaled l = l.
  Proof.
    induction 1 as [|r l [H _] _ IH]; [reflexivity|]. cbn [map]. rewrite IH. unfold scaled. rewrite H. reflexivity.
  Qed.

  Lemma Normalize_ok (l : list (row * R)) : exists z l', Normalize row isz norm divr l = Ok (z, l') /\
    length l' = length l /\
    (forall x, ssat l x <-> ssat l' x) /\
    ((z = -1)%Z /\ (forall x, ~ ssat l x) \/
     exists m, z = Z.of_nat m /\ (m <= length l)%nat /\
       Permutation (map scaled l) l' /\
       Forall (fun r => isz (fst r) = false /\ norm (fst r) = 1) (firstn m l') /\
       Forall (fun r => isz (fst r) = true /\ 0 <= snd r) (skipn m l')).
  Proof.
    destruct (removeZero_ok l) as (z & l' & Hrz & HP & Hc). unfold Normalize. rewrite Hrz. cbn [bind fst snd].
    assert (HL : length l' = length l) by (apply Permutation_length, Permutation_sym, HP).
    assert (HS : forall x, ssat l x <-> ssat l' x).
    { intros x; split; [apply ssat_perm, HP|apply ssat_perm, Permutation_sym, HP]. }
    destruct Hc as [[-> (r & Hin & Hr1 & Hr2)]|(m & -> & Hm & Ha & Hb)].
    - cbn. exists (-1)%Z, l'. split; [reflexivity|]. split; [exact HL|]. split; [exact HS|].
      left. split; [reflexivity|]. intros x Hx. unfold ssat in Hx. rewrite Forall_forall in Hx.
      specialize (Hx r Hin). rewrite (dot_z _ x Hr1) in Hx. lra.
    - destruct (Z.ltb_spec 0 (Z.of_nat m)) as [Hpos|Hpos].
      + rewrite Nat2Z.id. set (N := map (normalize_row row norm divr) (firstn m l')).
        assert (HN : length N = m) by (unfold N; rewrite map_length, firstn_length; lia).
        exists (Z.of_nat m), (N ++ skipn m l'). split; [reflexivity|]. split.
        { rewrite app_length, HN, skipn_length. lia. }
        split.
        * intros x. rewrite HS. rewrite <- (firstn_skipn m l') at 1. unfold ssat. rewrite !Forall_app.
          assert (HI : Forall (fun rb => dot (fst rb) x <= snd rb) (firstn m l')
                   <-> Forall (fun rb => dot (fst rb) x <= snd rb) N).
          { unfold N. rewrite Forall_map, !Forall_forall. rewrite Forall_forall in Ha.
            split; intros H r Hin; specialize (H r Hin); specialize (Ha r Hin); pose proof (norm_pos _ Ha) as Hn;
              cbn [normalize_row fst snd] in *.
            - rewrite dot_div. apply Rmult_le_compat_r; [apply Rlt_le, Rinv_0_lt_compat, Hn|exact H].
            - rewrite dot_div in H. apply (Rmult_le_reg_r (/ norm (fst r))); [apply Rinv_0_lt_compat, Hn|exact H]. }
          tauto.
        * right. exists m. split; [reflexivity|]. split; [exact Hm|]. split.
          { eapply Permutation_trans; [apply Permutation_map, HP|].
            rewrite <- (firstn_skipn m l') at 1. rewrite map_app.
            rewrite (map_ext_Forall _ _ (Forall_impl _ scaled_nz Ha)). unfold N.
            rewrite (scaled_z_map _ Hb). apply Permutation_refl. }
          rewrite firstn_app, skipn_app, HN, Nat.sub_diag. cbn [firstn skipn].
          rewrite (firstn_all2 N) by lia. rewrite (skipn_all2 N) by lia. rewrite app_nil_r. cbn [app]. split; [|exact Hb].
          unfold N. rewrite Forall_map. rewrite Forall_forall in *. intros r Hin. specialize (Ha r Hin).
          cbn [normalize_row fst snd]. split; [apply isz_div, Ha|apply norm_div, Ha].
      + exists (Z.of_nat m), l'. split; [reflexivity|]. split; [exact HL|]. split; [exact HS|].
        right. exists m. assert (m = 0%nat) by lia. subst m. split; [reflexivity|]. split; [lia|].
        split; [|split; [constructor|exact Hb]].
        cbn [skipn] in Hb. rewrite <- (scaled_z_map _ Hb). apply Permutation_map, HP.
  Qed.
End Norm.

(** rows with any number of columns *)
Lemma lr_isz_spec r : lr_isz r = true <-> Forall (fun a => a = 0) r.
Proof.
  unfold lr_isz. rewrite forallb_forall, Forall_forall. split; intros H a Ha; specialize (H a Ha).
  - destruct (Req_EM_T a 0); [assumption|discriminate].
  - destruct (Req_EM_T a 0); [reflexivity|contradiction].
Qed.
Lemma lr_dot_z r : lr_isz r = true -> forall x, lr_dot r x = 0.
Proof.
  rewrite lr_isz_spec. induction 1 as [|a r Ha Hr IH]; intros [|y x]; cbn; try reflexivity.
  rewrite Ha, IH. ring.
Qed.
Lemma lr_dot_div k : forall r x, lr_dot (lr_div r k) x = lr_dot r x / k.
Proof.
  induction r as [|a r IH]; intros [|y x]; cbn; try (unfold Rdiv; ring). fold (lr_div r k). rewrite IH. unfold Rdiv. ring.
Qed.
Lemma lr_dot_nonneg r : 0 <= lr_dot r r.
Proof. induction r as [|a r IH]; cbn; [lra|]. nra. Qed.
Lemma lr_dot_self r : lr_isz r = false -> 0 < lr_dot r r.
Proof.
  intros H. destruct (Rle_lt_or_eq_dec _ _ (lr_dot_nonneg r)) as [Hlt|Heq]; [exact Hlt|exfalso].
  assert (Hz : lr_isz r = true); [|congruence]. clear H. apply lr_isz_spec.
  induction r as [|a r IH]; constructor; cbn in Heq; pose proof (lr_dot_nonneg r); [nra|]. apply IH. nra.
Qed.
Lemma lr_norm_pos r : lr_isz r = false -> 0 < lr_norm r.
Proof. intros H. apply sqrt_lt_R0, lr_dot_self, H. Qed.
Lemma lr_dot_div2 k : forall r, lr_dot (lr_div r k) (lr_div r k) = lr_dot r r * (/ k * / k).
Proof.
  induction r as [|a r IH]; cbn; [ring|]. fold (lr_div r k). rewrite IH. unfold Rdiv. ring.
Qed.
Lemma lr_norm_div r : lr_isz r = false -> lr_norm (lr_div r (lr_norm r)) = 1.
Proof.
  intros H. unfold lr_norm at 1. rewrite lr_dot_div2. pose proof (lr_norm_pos r H) as Hn.
  assert (Hs : lr_norm r * lr_norm r = lr_dot r r) by (apply sqrt_sqrt, lr_dot_nonneg).
  rewrite <- Hs. replace (_ * _) with 1 by (field; lra). apply sqrt_1.
Qed.
Lemma lr_isz_div r : lr_isz r = false -> lr_isz (lr_div r (lr_norm r)) = false.
Proof.
  intros H. destruct (lr_isz (lr_div r (lr_norm r))) eqn:E; [|reflexivity].
  pose proof (lr_norm_div r H) as H1. unfold lr_norm at 1 in H1. rewrite (lr_dot_z _ E) in H1.
  rewrite sqrt_0 in H1. lra.
Qed.

(** rows of three *)
Lemma v3_lr v : vnorm v = lr_norm [vx v; vy v; vz v].
Proof. unfold vnorm, lr_norm, vnorm2, vdot. f_equal. cbn. ring. Qed.
Lemma v3_dot_z r x : v3_isz r = true -> vdot r x = 0.
Proof.
  intros H. pose proof (lr_dot_z _ H [vx x; vy x; vz x]) as E. cbn in E. unfold vdot. lra.
Qed.
Lemma v3_dot_div r k x : vdot (vdivs r k) x = vdot r x / k.
Proof. unfold vdot, vdivs; cbn. unfold Rdiv. ring. Qed.
Lemma v3_norm_pos r : v3_isz r = false -> 0 < vnorm r.
Proof. intros H. rewrite v3_lr. apply lr_norm_pos, H. Qed.
Lemma v3_norm_div r : v3_isz r = false -> vnorm (vdivs r (vnorm r)) = 1.
Proof. intros H. rewrite v3_lr. cbn. rewrite v3_lr. apply (lr_norm_div _ H). Qed.
Lemma v3_isz_div r : v3_isz r = false -> v3_isz (vdivs r (vnorm r)) = false.
Proof. intros H. unfold v3_isz. cbn. rewrite v3_lr. apply (lr_isz_div _ H). Qed.

Definition NormalizeX_ok := Normalize_ok (list R) lr_isz lr_norm lr_div (list R) lr_dot
  (fun r x H => lr_dot_z r H x) (fun r k x => lr_dot_div k r x) lr_norm_pos lr_norm_div lr_isz_div.
Definition Normalize3_ok := Normalize_ok vec3 v3_isz vnorm vdivs vec3 vdot
  v3_dot_z v3_dot_div v3_norm_pos v3_norm_div v3_isz_div.
