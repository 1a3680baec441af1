(** Which rows the loop over the samples writes. *)
From Flocq Require Import Core BinarySingleNaN.
From Coq Require Import List Lia.
From Verif Require Import Vec ModelData ModelUtils ModelCom Double ModelDouble ModelPtsDouble ModelCoefDouble ModelRowsDouble SpecDouble SpecDouble2 SpecRowsDouble ProofTime ProofRows ProofEmit ProofDouble6.
Import ListNotations.

Section Layout.
  Variable sub : f64 -> fvec -> fvec -> f64.
  Definition krows (c : fcontact) (co : fcoefs) : list frow := map (fun p => kin_row_f sub co (fst p) (snd p)) (combine (fc_Kin c) (fc_kin c)).

  Lemma kin_rows_f_ok co : forall Kin kin, (length kin <= length Kin)%nat -> kin_rows_f sub co Kin kin = Ok (map (fun p => kin_row_f sub co (fst p) (snd p)) (combine Kin kin)).
  Proof.
    induction Kin as [|K Kin IH]; intros [|k kin] H; cbn [length] in H; try reflexivity; [lia|].
    cbn [kin_rows_f combine map fst snd]. rewrite IH by lia. reflexivity.
  Qed.
  Lemma combine_of {A B} : forall (l : list A) (m : list B) a b, In (a, b) (combine l m) <-> exists j, nth_error l j = Some a /\ nth_error m j = Some b.
  Proof.
    induction l as [|x l IH]; intros [|y m] a b; cbn [combine In].
    - split; [intros []|intros ([|j] & H & _); discriminate].
    - split; [intros []|intros ([|j] & H & _); discriminate].
    - split; [intros []|intros ([|j] & _ & H); discriminate].
    - rewrite IH. split.
      + intros [E|(j & H)]; [injection E as -> ->; exists 0%nat; split; reflexivity|exists (S j); exact H].
      + intros ([|j] & H1 & H2); [left; injection H1 as ->; injection H2 as ->; reflexivity|right; exists j; split; assumption].
  Qed.
  Lemma krows_in c co r : In r (krows c co) <-> exists K k, kin_of c K k /\ r = kin_row_f sub co K k.
  Proof.
    unfold krows. rewrite in_map_iff. split.
    - intros ([K k] & E & H). apply combine_of in H. exists K, k. split; [exact H|symmetry; exact E].
    - intros (K & k & H & ->). exists (K, k). split; [reflexivity|apply combine_of, H].
  Qed.

  Variable cs : list fcontact.
  Hypothesis fit : Forall (fun c => length (fc_kin c) <= length (fc_Kin c))%nat cs.

  Lemma emit_k c co : In c cs -> kin_emit_f sub c co = Ok (krows c co).
  Proof. intros H. apply kin_rows_f_ok. exact (proj1 (Forall_forall _ _) fit c H). Qed.
  Lemma sw_none id co : forall sw i p, ~ In id sw -> kin_switches_f sub cs id co i sw p = Ok (p, []).
  Proof.
    induction sw as [|k sw IH]; intros i p Hn; [reflexivity|]. cbn [kin_switches_f].
    destruct (Z.eqb_spec id k) as [->|_]; [exfalso; apply Hn; left; reflexivity|]. apply IH. intros H; apply Hn; right; exact H.
  Qed.
  Lemma sw_one id co : forall sw1 sw2 i0 p c, ~ In id sw1 -> ~ In id sw2 -> nth_error cs (i0 + length sw1 + 1) = Some c ->
    kin_switches_f sub cs id co i0 (sw1 ++ id :: sw2) p = Ok ((i0 + length sw1 + 1)%nat, krows c co).
  Proof.
    induction sw1 as [|k sw1 IH]; intros sw2 i0 p c H1 H2 Hc.
    - cbn [app kin_switches_f length] in *. rewrite Nat.add_0_r in *. rewrite Z.eqb_refl, (get_some _ _ _ Hc). cbn [bind].
      rewrite emit_k by (eapply nth_error_In; eauto). cbn [bind]. rewrite sw_none by exact H2. cbn [bind fst snd]. rewrite app_nil_r. reflexivity.
    - cbn [app kin_switches_f length] in *. destruct (Z.eqb_spec id k) as [->|_]; [exfalso; apply H1; left; reflexivity|].
      replace (i0 + S (length sw1) + 1)%nat with (S i0 + length sw1 + 1)%nat in * by lia. apply IH; try assumption. intros H; apply H1; right; exact H.
  Qed.
  Lemma loop_plain sw i c rest rs : nth_error cs i = Some c -> forall b id,
    (forall k, (k < length b)%nat -> ~ In (id + Z.of_nat k)%Z (removelast sw)) ->
    kin_loop_f sub cs sw (id + Z.of_nat (length b)) rest i = Ok rs ->
    kin_loop_f sub cs sw id (b ++ rest) i = Ok (flat_map (krows c) b ++ rs).
  Proof.
    intros Hc. induction b as [|w b IH]; intros id Hno E.
    - cbn [app length flat_map] in *. rewrite Z.add_0_r in E. exact E.
    - cbn [app kin_loop_f flat_map]. rewrite (get_some _ _ _ Hc). cbn [bind]. rewrite emit_k by (eapply nth_error_In; eauto). cbn [bind]. rewrite sw_none.
      2:{ specialize (Hno 0%nat ltac:(cbn; lia)). rewrite Z.add_0_r in Hno. exact Hno. }
      cbn [bind fst snd app]. rewrite IH.
      + cbn [bind]. rewrite app_assoc. reflexivity.
      + intros k Hk. specialize (Hno (S k) ltac:(cbn; lia)). replace (id + 1 + Z.of_nat k)%Z with (id + Z.of_nat (S k))%Z by lia. exact Hno.
      + replace (id + 1 + Z.of_nat (length b))%Z with (id + Z.of_nat (length (w :: b)))%Z by (cbn [length]; lia). exact E.
  Qed.

  Fixpoint layout (conts : list fcontact) (ws : list (list fcoefs)) : list frow :=
    match conts, ws with
    | c :: conts', b :: ws' => flat_map (krows c) b ++ (match conts', rev b with c' :: _, w :: _ => krows c' w | _, _ => [] end) ++ layout conts' ws'
    | _, _ => []
    end.
  Lemma loop_ok : forall ws conts pre done off, length conts = length ws -> ws <> [] -> Forall (fun b => b <> []) ws -> cs = pre ++ conts ->
    (forall z, In z done -> (z < off)%Z) -> length done = length pre ->
    kin_loop_f sub cs (done ++ ends off ws) off (concat ws) (length pre) = Ok (layout conts ws).
  Proof.
    induction ws as [|b ws IH]; intros conts pre done off HL Hne HF HC Hdone Hdl; [congruence|].
    destruct conts as [|c conts]; [discriminate|].
    assert (Hcur : nth_error cs (length pre) = Some c) by (rewrite HC, nth_error_app2, Nat.sub_diag by lia; reflexivity).
    pose proof (Forall_inv HF) as Hb. pose proof (Forall_inv_tail HF) as HF'. destruct (last_split b Hb) as (b' & w & Eb).
    assert (Hlenb : length b = S (length b')) by (rewrite Eb, app_length; cbn; lia).
    destruct ws as [|b2 ws].
    - destruct conts as [|c2 conts]; [|discriminate]. cbn [concat layout]. rewrite (loop_plain _ _ c [] [] Hcur).
      + reflexivity.
      + intros k Hk Hin. rewrite removelast_app_ne in Hin by discriminate. cbn in Hin. rewrite app_nil_r in Hin. apply Hdone in Hin. lia.
      + reflexivity.
    - destruct conts as [|c2 conts]; [discriminate|].
      set (sw := done ++ ends off (b :: b2 :: ws)).
      assert (Hsw : removelast sw = done ++ (off + Z.of_nat (length b) - 1)%Z :: removelast (ends (off + Z.of_nat (length b)) (b2 :: ws))).
      { unfold sw. rewrite removelast_app_ne by discriminate. rewrite ends_removelast_cons. reflexivity. }
      assert (Hge : forall z, In z (removelast (ends (off + Z.of_nat (length b)) (b2 :: ws))) -> (off + Z.of_nat (length b) <= z)%Z).
      { intros z Hz. apply removelast_in in Hz. eapply ends_ge; eauto. }
      assert (HCc : concat (b :: b2 :: ws) = b' ++ w :: concat (b2 :: ws)).
      { cbn [concat]. rewrite Eb, <- app_assoc. reflexivity. }
      rewrite HCc.
      assert (HR : layout (c :: c2 :: conts) (b :: b2 :: ws) = flat_map (krows c) b' ++ krows c w ++ krows c2 w ++ layout (c2 :: conts) (b2 :: ws)).
      { cbn [layout]. rewrite Eb, rev_app_distr, flat_map_app. cbn [rev app flat_map]. rewrite app_nil_r, <- !app_assoc. reflexivity. }
      rewrite HR. apply (loop_plain _ _ c _ _ Hcur).
      { intros k Hk Hin. rewrite Hsw in Hin. apply in_app_or in Hin. destruct Hin as [Hin|[Hin|Hin]]; [apply Hdone in Hin; lia|lia|apply Hge in Hin; lia]. }
      assert (Hc2 : nth_error cs (0 + length done + 1) = Some c2).
      { rewrite HC, Hdl, nth_error_app2 by lia. replace (0 + length pre + 1 - length pre)%nat with 1%nat by lia. reflexivity. }
      cbn [kin_loop_f]. rewrite (get_some _ _ _ Hcur). cbn [bind]. rewrite emit_k by (eapply nth_error_In; eauto). cbn [bind].
      rewrite Hsw. replace (off + Z.of_nat (length b'))%Z with (off + Z.of_nat (length b) - 1)%Z by lia.
      rewrite (sw_one _ w done _ 0 _ c2); [|intros Hin; apply Hdone in Hin; lia|intros Hin; apply Hge in Hin; lia|exact Hc2].
      cbn [bind fst snd]. replace (off + Z.of_nat (length b) - 1 + 1)%Z with (off + Z.of_nat (length b))%Z by lia.
      replace (0 + length done + 1)%nat with (length (pre ++ [c])) by (rewrite app_length; cbn; lia).
      replace sw with ((done ++ [(off + Z.of_nat (length b) - 1)%Z]) ++ ends (off + Z.of_nat (length b)) (b2 :: ws)) by (unfold sw; rewrite <- app_assoc; reflexivity).
      rewrite (IH (c2 :: conts)); [reflexivity|cbn in HL |- *; lia|discriminate|exact HF'|rewrite <- app_assoc; exact HC| |rewrite !app_length; cbn; lia].
      intros z Hz. apply in_app_or in Hz. destruct Hz as [Hz|[<-|[]]]; [apply Hdone in Hz; lia|lia].
  Qed.
End Layout.

(** phases in force, for blocks of anything *)
Definition inf {A} (bs : list (list A)) (i : nat) (t : A) : Prop :=
  (exists b, nth_error bs i = Some b /\ In t b) \/ (exists j b b', i = S j /\ nth_error bs j = Some (b ++ [t]) /\ nth_error bs i = Some b').
Lemma inf_cons {A} (b : list A) bs i t : inf bs i t -> inf (b :: bs) (S i) t.
Proof. intros [(b0 & H)|(j & b0 & b1 & -> & H)]; [left; exists b0; exact H|right; exists (S j), b0, b1; split; [reflexivity|exact H]]. Qed.
Lemma layout_in sub r : forall conts ws, length conts = length ws ->
  (In r (layout sub conts ws) <-> exists i c w, nth_error conts i = Some c /\ inf ws i w /\ In r (krows sub c w)).
Proof.
  induction conts as [|c conts IH]; intros [|b ws] HL; try discriminate.
  - cbn [layout In]. split; [intros []|intros ([|i] & c & w & H & _); discriminate].
  - assert (HL' : length conts = length ws) by (cbn in HL; lia). specialize (IH ws HL'). cbn [layout]. rewrite !in_app_iff, IH, in_flat_map. split.
    + intros [(w & Hw & Hr)|[Hr|(i & c0 & w & Hc & Hi & Hr)]].
      * exists 0%nat, c, w. split; [reflexivity|]. split; [left; exists b; split; [reflexivity|exact Hw]|exact Hr].
      * destruct conts as [|c2 conts]; [contradiction|]. destruct (rev b) as [|w rb] eqn:Erb; [contradiction|]. destruct ws as [|b2 ws]; [discriminate|].
        exists 1%nat, c2, w. split; [reflexivity|]. split; [|exact Hr]. right. exists 0%nat, (rev rb), b2. split; [reflexivity|]. split; [|reflexivity].
        cbn [nth_error]. f_equal. rewrite <- (rev_involutive b), Erb. reflexivity.
      * exists (S i), c0, w. split; [exact Hc|]. split; [apply inf_cons, Hi|exact Hr].
    + intros ([|i] & c0 & w & Hc & Hi & Hr).
      * left. cbn [nth_error] in Hc. injection Hc as ->. destruct Hi as [(b0 & Eb & Hw)|(j & b0 & b1 & E & _)]; [|discriminate]. injection Eb as ->. exists w. split; assumption.
      * cbn [nth_error] in Hc. destruct Hi as [(b0 & Eb & Hw)|(j & b0 & b1 & E & Hj & Hb)].
        { right; right. exists i, c0, w. split; [exact Hc|]. split; [left; exists b0; split; assumption|exact Hr]. }
        injection E as <-. destruct i as [|i].
        { right; left. cbn [nth_error] in Hj. injection Hj as ->. destruct conts as [|c2 conts]; [discriminate|]. cbn [nth_error] in Hc. injection Hc as ->. rewrite rev_app_distr. exact Hr. }
        right; right. exists (S i), c0, w. split; [exact Hc|]. split; [|exact Hr]. right. exists i, b0, b1. split; [reflexivity|]. split; [exact Hj|exact Hb].
Qed.

(** blocks of coefficients *)
Lemma blocks_split {B} (R : f64 -> B -> Prop) : forall bs z ws, Forall2 (fun tp c => R (fst tp) c) (tagged_f z bs) ws ->
  exists wbs, ws = concat wbs /\ Forall2 (Forall2 R) bs wbs.
Proof.
  induction bs as [|b bs IH]; intros z ws H; cbn [tagged_f] in H.
  - inversion H; subst. exists []. split; [reflexivity|constructor].
  - apply Forall2_app_inv_l in H as (w1 & w2 & H1 & H2 & ->). destruct (IH _ _ H2) as (wbs & -> & F). exists (w1 :: wbs). split; [reflexivity|]. constructor; [|exact F].
    clear - H1. revert w1 H1. induction b as [|t b IHb]; intros w1 H1; inversion H1; subst; constructor; [assumption|apply IHb; assumption].
Qed.
Lemma f2_len {A B} (R : A -> B -> Prop) l m : Forall2 R l m -> length m = length l.
Proof. induction 1; cbn; congruence. Qed.
Lemma blocks_len {A B} (R : A -> B -> Prop) bs wbs : Forall2 (Forall2 R) bs wbs ->
  length wbs = length bs /\ (forall off, ends off wbs = ends off bs) /\ (Forall (fun b => b <> []) bs -> Forall (fun b => b <> []) wbs).
Proof.
  induction 1 as [|b w bs ws Hb H (L & E & N)]; [repeat split; auto|]. assert (Lb : length w = length b) by (exact (f2_len _ _ _ Hb)).
  split; [cbn; lia|]. split; [intros off; cbn [ends]; rewrite Lb, E; reflexivity|]. intros HF. inversion HF as [|? ? Hb' HF']; subst. constructor; [|apply N, HF'].
  intros ->. apply Hb'. destruct b; [reflexivity|discriminate].
Qed.
Lemma blocks_nth {A B} (R : A -> B -> Prop) : forall bs wbs, Forall2 R bs wbs -> forall i,
  match nth_error bs i, nth_error wbs i with Some b, Some w => R b w | None, None => True | _, _ => False end.
Proof. induction 1 as [|b w bs wbs H F IH]; intros [|i]; cbn [nth_error]; [exact I|exact I|exact H|apply IH]. Qed.
Lemma f2_in_l {A B} (R : A -> B -> Prop) l m a : Forall2 R l m -> In a l -> exists b, In b m /\ R a b.
Proof. induction 1 as [|x y l m H F IH]; intros []; [subst; exists y; split; [now left|exact H]|destruct (IH H0) as (b & ? & ?); exists b; split; [now right|assumption]]. Qed.
Lemma f2_in_r {A B} (R : A -> B -> Prop) l m b : Forall2 R l m -> In b m -> exists a, In a l /\ R a b.
Proof. induction 1 as [|x y l m H F IH]; intros []; [subst; exists x; split; [now left|exact H]|destruct (IH H0) as (a & ? & ?); exists a; split; [now right|assumption]]. Qed.
Lemma inf_fwd {A B} (R : A -> B -> Prop) bs wbs i t : Forall2 (Forall2 R) bs wbs -> inf bs i t -> exists w, inf wbs i w /\ R t w.
Proof.
  intros F [(b & E & Hin)|(j & b & b' & -> & E & E')].
  - pose proof (blocks_nth _ _ _ F i) as H. rewrite E in H. destruct (nth_error wbs i) as [w|] eqn:Ew; [|contradiction]. destruct (f2_in_l _ _ _ _ H Hin) as (c & Hc & Rc).
    exists c. split; [left; exists w; split; assumption|exact Rc].
  - pose proof (blocks_nth _ _ _ F j) as H. rewrite E in H. destruct (nth_error wbs j) as [w|] eqn:Ew; [|contradiction]. pose proof (blocks_nth _ _ _ F (S j)) as H'. rewrite E' in H'.
    destruct (nth_error wbs (S j)) as [w'|] eqn:Ew'; [|contradiction]. apply Forall2_app_inv_l in H as (w1 & w2 & _ & H2 & ->). inversion H2 as [|? c ? ? Rc H3]; subst. inversion H3; subst.
    exists c. split; [right; exists j, w1, w'; auto|exact Rc].
Qed.
Lemma inf_bwd {A B} (R : A -> B -> Prop) bs wbs i w : Forall2 (Forall2 R) bs wbs -> inf wbs i w -> exists t, inf bs i t /\ R t w.
Proof.
  intros F [(b & E & Hin)|(j & b & b' & -> & E & E')].
  - pose proof (blocks_nth _ _ _ F i) as H. rewrite E in H. destruct (nth_error bs i) as [v|] eqn:Ew; [|contradiction]. destruct (f2_in_r _ _ _ _ H Hin) as (c & Hc & Rc).
    exists c. split; [left; exists v; split; assumption|exact Rc].
  - pose proof (blocks_nth _ _ _ F j) as H. rewrite E in H. destruct (nth_error bs j) as [v|] eqn:Ew; [|contradiction]. pose proof (blocks_nth _ _ _ F (S j)) as H'. rewrite E' in H'.
    destruct (nth_error bs (S j)) as [v'|] eqn:Ew'; [|contradiction]. apply Forall2_app_inv_r in H as (w1 & w2 & _ & H2 & ->). inversion H2 as [|c ? ? ? Rc H3]; subst. inversion H3; subst.
    exists c. split; [right; exists j, w1, v'; auto|exact Rc].
Qed.
