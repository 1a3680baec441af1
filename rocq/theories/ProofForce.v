(** The QP of the force formulation (C73). *)
From Coq Require Import Lia Lra Psatz.
From Verif Require Import Vec SpecBezier SpecTime ModelData ModelDispatch ModelUtils ModelRows ModelCom ModelNd ModelCont ModelSolver ModelTraj ModelQp
  SpecCom SpecWp SpecCtr SpecCont SpecSolver SpecTraj SpecEnd SpecEnd2 SpecEnd3 SpecQp SpecQp2 SpecForce
  ProofBezier ProofCurve ProofCont3 ProofCont9 ProofSolver ProofTraj ProofQp ProofQp3 ProofQp14 ProofQp16 ProofQp18 ProofEnd ProofEnd5.
Import ListNotations.
Open Scope R_scope.

(** * The rows of the equalities are spread *)
Lemma sum_list_sumf {A} (f : A -> R) d : forall l, sum_list (map f l) = sumf (length l) (fun i => f (nth i l d)).
Proof.
  induction l as [|a l IH]; [reflexivity|]. cbn [map length]. rewrite sumf_S_l. cbn [sum_list fold_right nth]. unfold sum_list in IH. rewrite IH. reflexivity.
Qed.
Definition vec6 (a : rvec) : v6 := (V3 (a 0%nat) (a 1%nat) (a 2%nat), V3 (a 3%nat) (a 4%nat) (a 5%nat)).
Lemma strip_entry o a w ph r c : (r < 6)%nat -> (c < length (cp_G ph))%nat ->
  mat_of (strip o a w ph) r (3 + o + c)%nat = nth r (l6 (nth c (cp_G ph) (vzero, vzero))) 0.
Proof.
  intros Hr Hc. unfold mat_of.
  assert (E : exists l, nth r (strip o a w ph) [] = l3 l ++ repeat 0 o ++ map (fun col => nth r (l6 col) 0) (cp_G ph) ++ repeat 0 a).
  { do 6 (destruct r as [|r]; [eexists; reflexivity|]). lia. }
  destruct E as [l ->]. rewrite app_nth2 by (cbn; lia). replace (3 + o + c - length (l3 l))%nat with (o + c)%nat by (cbn; lia).
  rewrite app_nth2 by (rewrite repeat_length; lia). rewrite repeat_length. replace (o + c - o)%nat with c by lia.
  rewrite app_nth1 by (rewrite map_length; exact Hc).
  rewrite (nth_indep _ 0 (nth r (l6 (vzero, vzero)) 0)) by (rewrite map_length; exact Hc).
  rewrite (map_nth (fun col => nth r (l6 col) 0)). reflexivity.
Qed.
Lemma nth_zeros : forall n i, nth i (repeat 0 n) 0 = 0.
Proof. induction n as [|n IH]; intros [|i]; cbn; try reflexivity. apply IH. Qed.
Lemma strip_zero o a w ph r c : (length (cp_G ph) <= c)%nat -> mat_of (strip o a w ph) r (3 + o + c)%nat = 0.
Proof.
  intros Hc. unfold mat_of. destruct (lt_dec r 6) as [Hr|Hr].
  2:{ rewrite (nth_overflow (strip o a w ph)) by (rewrite strip_len; lia). destruct (3 + o + c)%nat; reflexivity. }
  assert (E : exists l, nth r (strip o a w ph) [] = l3 l ++ repeat 0 o ++ map (fun col => nth r (l6 col) 0) (cp_G ph) ++ repeat 0 a).
  { do 6 (destruct r as [|r]; [eexists; reflexivity|]). lia. }
  destruct E as [l ->]. rewrite app_nth2 by (cbn; lia). replace (3 + o + c - length (l3 l))%nat with (o + c)%nat by (cbn; lia).
  rewrite app_nth2 by (rewrite repeat_length; lia). rewrite repeat_length. replace (o + c - o)%nat with c by lia.
  rewrite app_nth2 by (rewrite map_length; exact Hc). apply nth_zeros.
Qed.
Lemma strip_before o a w ph r c : (c < o)%nat -> mat_of (strip o a w ph) r (3 + c)%nat = 0.
Proof.
  intros Hc. unfold mat_of. destruct (lt_dec r 6) as [Hr|Hr].
  2:{ rewrite (nth_overflow (strip o a w ph)) by (rewrite strip_len; lia). destruct (3 + c)%nat; reflexivity. }
  assert (E : exists l, nth r (strip o a w ph) [] = l3 l ++ repeat 0 o ++ map (fun col => nth r (l6 col) 0) (cp_G ph) ++ repeat 0 a).
  { do 6 (destruct r as [|r]; [eexists; reflexivity|]). lia. }
  destruct E as [l ->]. rewrite app_nth2 by (cbn; lia). replace (3 + c - length (l3 l))%nat with c by (cbn; lia).
  rewrite app_nth1 by (rewrite repeat_length; lia). apply nth_zeros.
Qed.
Lemma mat_app1 A B i j : (i < length A)%nat -> mat_of (A ++ B) i j = mat_of A i j.
Proof. intros H. unfold mat_of. rewrite app_nth1 by exact H. reflexivity. Qed.
Lemma mat_app2 A B i j n : length A = n -> mat_of (A ++ B) (n + i)%nat j = mat_of B i j.
Proof. intros <-. unfold mat_of. rewrite app_nth2_plus. reflexivity. Qed.
Lemma strips_before : forall items o r c, (c < o)%nat -> mat_of (strips o items) r (3 + c)%nat = 0.
Proof.
  induction items as [|[w ph] items IH]; intros o r c Hc; cbn [strips].
  - unfold mat_of. destruct r; cbn [nth]; destruct (3 + c)%nat; reflexivity.
  - destruct (lt_dec r 6) as [Hr|Hr].
    + rewrite mat_app1 by (rewrite strip_len; exact Hr). apply strip_before; exact Hc.
    + replace r with (6 + (r - 6))%nat by lia. rewrite mat_app2 by apply strip_len. apply IH. lia.
Qed.
Lemma strips_spread s : forall items o (a : rvec),
  Forall (fun it => forall u, s * s * dot6 u u <= gen_sq (cp_G (snd it)) u) items ->
  s * s * sumf (6 * length items) (fun j => a j * a j) <=
  sumf (sumcols items) (fun c => sumf (6 * length items) (fun j => a j * mat_of (strips o items) j (3 + o + c)%nat) * sumf (6 * length items) (fun j => a j * mat_of (strips o items) j (3 + o + c)%nat)).
Proof.
  induction items as [|[w ph] items IH]; intros o a HF.
  - cbn. lra.
  - inversion HF as [|? ? F1 F2]; subst. cbn [snd] in F1. set (g := length (cp_G ph)). set (L := length items).
    change (length ((w, ph) :: items)) with (S L). replace (6 * S L)%nat with (6 + 6 * L)%nat by lia.
    change (sumcols ((w, ph) :: items)) with (g + sumcols items)%nat. cbn [strips]. fold g.
    rewrite (sumf_split g), (sumf_split 6 _ (fun j => a j * a j)).
    specialize (F1 (vec6 a)). specialize (IH (o + g)%nat (fun j => a (6 + j)%nat) F2). fold L in IH.
    assert (E1 : sumf 6 (fun j => a j * a j) = dot6 (vec6 a) (vec6 a)) by (unfold dot6, vec6, vdot; cbn; ring).
    rewrite E1.
    assert (E2 : gen_sq (cp_G ph) (vec6 a) <= sumf g (fun c =>
       sumf (6 + 6 * L) (fun j => a j * mat_of (strip o (sumcols items) w ph ++ strips (o + g) items) j (3 + o + c)%nat) *
       sumf (6 + 6 * L) (fun j => a j * mat_of (strip o (sumcols items) w ph ++ strips (o + g) items) j (3 + o + c)%nat))).
    { right. unfold gen_sq. rewrite (sum_list_sumf _ (vzero, vzero)). fold g. apply sumf_ext. intros c Hc.
      assert (E : sumf (6 + 6 * L) (fun j => a j * mat_of (strip o (sumcols items) w ph ++ strips (o + g) items) j (3 + o + c)%nat)
        = dot6 (vec6 a) (nth c (cp_G ph) (vzero, vzero))); [|rewrite E; reflexivity].
      rewrite sumf_split. rewrite (sumf_zero (6 * L)).
      - rewrite (sumf_ext 6 _ (fun j => a j * nth j (l6 (nth c (cp_G ph) (vzero, vzero))) 0)).
        + destruct (nth c (cp_G ph) (vzero, vzero)) as [u v]. unfold dot6, vec6, vdot, l6, l3. cbn. ring.
        + intros r Hr. rewrite mat_app1 by (rewrite strip_len; exact Hr). rewrite strip_entry by assumption. reflexivity.
      - intros r Hr. rewrite mat_app2 by apply strip_len. replace (3 + o + c)%nat with (3 + (o + c))%nat by lia.
        rewrite strips_before by lia. ring. }
    assert (E3 : sumf (sumcols items) (fun c =>
       sumf (6 * L) (fun j => a (6 + j)%nat * mat_of (strips (o + g) items) j (3 + (o + g) + c)%nat) *
       sumf (6 * L) (fun j => a (6 + j)%nat * mat_of (strips (o + g) items) j (3 + (o + g) + c)%nat))
      = sumf (sumcols items) (fun c =>
       sumf (6 + 6 * L) (fun j => a j * mat_of (strip o (sumcols items) w ph ++ strips (o + g) items) j (3 + o + (g + c))%nat) *
       sumf (6 + 6 * L) (fun j => a j * mat_of (strip o (sumcols items) w ph ++ strips (o + g) items) j (3 + o + (g + c))%nat))).
    { apply sumf_ext. intros c Hc.
      assert (E : sumf (6 + 6 * L) (fun j => a j * mat_of (strip o (sumcols items) w ph ++ strips (o + g) items) j (3 + o + (g + c))%nat)
        = sumf (6 * L) (fun j => a (6 + j)%nat * mat_of (strips (o + g) items) j (3 + (o + g) + c)%nat)); [|rewrite E; reflexivity].
      rewrite sumf_split. rewrite (sumf_zero 6).
      - rewrite Rplus_0_l. apply sumf_ext. intros r Hr. rewrite mat_app2 by apply strip_len.
        replace (3 + o + (g + c))%nat with (3 + (o + g) + c)%nat by lia. reflexivity.
      - intros r Hr. rewrite mat_app1 by (rewrite strip_len; exact Hr). rewrite strip_zero by (unfold g; lia). ring. }
    cbv beta in IH. rewrite E3 in IH. lra.
Qed.
Lemma nth_combine {A B} : forall (l : list A) (m : list B) i a b, nth_error (combine l m) i = Some (a, b) -> nth_error l i = Some a /\ nth_error m i = Some b.
Proof.
  induction l as [|x l IH]; intros [|y m] [|i] a b H; try discriminate; cbn in *; [injection H as <- <-; auto|]. apply IH, H.
Qed.
