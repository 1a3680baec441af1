(** The solver object: executions from other starting points. *)
From Coq Require Import Lia Lra List FunctionalExtensionality.
From Verif Require Import Vec SpecBezier ModelData ModelSolver ModelQp ModelQpObj SpecQp SpecQpObj ProofBezier ProofQp ProofQp2 ProofQp3 ProofQp4 ProofQp5 ProofQp6 ProofQp7 ProofQp15 ProofQpObj ProofQpObj2.
Open Scope R_scope.

(** * The cost is not read by the iterations *)
Lemma steps_recost p H g : forall k o, steps (recost p H g) k o = steps p k o.
Proof. reflexivity. Qed.
Lemma add_recost p H g : forall todo i st, add_equalities (recost p H g) todo i st = add_equalities p todo i st.
Proof. reflexivity. Qed.

(** * A constant added to f_value stays there *)
Definition addf (c : R) (st : qst) : qst :=
  Qst (q_x st) (q_u st) (q_A st) (q_iq st) (q_R st) (q_J st) (q_Rn st) (q_f st + c) (q_iter st) (q_s st) (q_ss st) (q_ip st) (q_iai st) (q_ex st)
    (q_xo st) (q_uo st) (q_Ao st) (q_tol st).
Definition shift (c : R) (o : outcome progress) : outcome progress :=
  match o with
  | Ok (Next l st) => Ok (Next l (addf c st))
  | Ok (Done t st) => Ok (Done t (addf c st))
  | Throw => Throw
  | UB => UB
  end.
Lemma swap a b c : a + b + c = a + c + b.
Proof. ring. Qed.
Lemma worst_addf c st : forall cnt i ss ip, worst cnt i (addf c st) ss ip = worst cnt i st ss ip.
Proof. induction cnt as [|cnt IH]; intros; [reflexivity|]. cbn [worst]. rewrite !IH. reflexivity. Qed.
Lemma step_shift q l c st : step q l (addf c st) = shift c (step q l st).
Proof.
  destruct l; cbn [step].
  - unfold step_L1, addf. qst_cbn. destruct (_ <=? _)%nat; [reflexivity|]. destruct (mark _ _ _ _ _); try reflexivity. cbn [bind]. destruct (Rle_dec _ _); reflexivity.
  - unfold step_L2. rewrite worst_addf. unfold addf. qst_cbn. destruct (worst _ _ _ _ _) as [ss ip]. destruct (Rle_dec _ _); [reflexivity|]. destruct (_ <=? _)%nat; reflexivity.
  - unfold step_L2a, addf. qst_cbn. destruct (dual_step _ _ _ _ _ _ _) as [t1 l].
    destruct (Rlt_dec _ _).
    + destruct t1 as [t1|].
      all: match goal with |- context [if Req_EM_T ?a ?b then _ else _] => destruct (Req_EM_T a b) end.
      all: try (destruct (add_constraint _ _ _ _ _ _) as [[[[[ok R'] J'] iq'] Rn']| |]; [|reflexivity|reflexivity]; cbn [bind]; destruct ok;
        [rewrite (swap (q_f st) c); reflexivity|]; destruct (delete_constraint _ _ _ _ _ _ _ _) as [[[[[R'' J''] A''] u''] iq'']| |]; [|reflexivity|reflexivity]; cbn [bind];
        destruct (restore _ _ _ _ _); [|reflexivity|reflexivity]; cbn [bind]; rewrite (swap (q_f st) c); reflexivity).
      all: destruct (unmark _ _ _); [|reflexivity|reflexivity]; cbn [bind]; destruct (delete_constraint _ _ _ _ _ _ _ _) as [[[[[R'' J''] A''] u''] iq'']| |]; [|reflexivity|reflexivity]; cbn [bind];
        rewrite (swap (q_f st) c); reflexivity.
    + destruct t1 as [t|]; [|reflexivity].
      destruct (unmark _ _ _); [|reflexivity|reflexivity]; cbn [bind]; destruct (delete_constraint _ _ _ _ _ _ _ _) as [[[[[R'' J''] A''] u''] iq'']| |]; reflexivity.
Qed.
Lemma steps_shift q c : forall k o, steps q k (shift c o) = shift c (steps q k o).
Proof.
  induction k as [|k IH]; intros o; [reflexivity|]. cbn [steps]. destruct o as [[l st|t st]| |]; try reflexivity.
  cbn [shift]. rewrite <- IH, <- step_shift. reflexivity.
Qed.
Lemma add_shift q c : forall todo i st, add_equalities q todo i (addf c st) = shift c (add_equalities q todo i st).
Proof.
  induction todo as [|todo IH]; intros i st; [reflexivity|]. cbn [add_equalities]. unfold addf at 1 2 3 4 5 6 7 8 9 10 11 12 13 14 15 16 17 18 19 20 21 22. qst_cbn.
  destruct (_ <? _)%nat; [reflexivity|]. destruct (add_constraint _ _ _ _ _ _) as [[[[[ok R'] J'] iq'] Rn']| |]; [|reflexivity|reflexivity]. cbn [bind].
  destruct ok; [rewrite <- IH|]; unfold addf; qst_cbn; rewrite (swap (q_f st) c); reflexivity.
Qed.

(** * A run from a state with the invariant *)
Lemma run_ends q st0 : symmetric q -> well_scaled q -> (e_E q <= e_n q)%nat -> q_iq st0 = 0%nat -> inv q 0 0 0 st0 -> q_iter st0 = 0%nat ->
  exists k s st, steps q k (add_equalities q (e_E q) 0 st0) = Ok (Done s st) /\ ends q (q_tol st0) s st.
Proof.
  intros Sy WS En Hq I Hi.
  destruct (add_eq_ok q Sy WS En (e_E q) 0 st0 ltac:(lia) Hq I) as [(st1 & E1 & F)|(st1 & E1 & I1 & Hi1 & Ht1)].
  - exists 0%nat, st_REDUNDANT, st1. cbn [steps]. split; [exact E1|constructor; exact F].
  - destruct (L1_run q Sy WS (e_max q) st1 ltac:(lia) I1) as (k & s & st2 & E2 & F). exists k, s, st2.
    rewrite E1. split; [exact E2|]. rewrite <- Ht1. exact F.
Qed.
Lemma steps_unique q o k s st k' s' st' : steps q k o = Ok (Done s st) -> steps q k' o = Ok (Done s' st') -> s = s' /\ st = st'.
Proof.
  intros E E'. assert (P : steps q (k + k') o = steps q (k' + k) o) by (f_equal; lia). rewrite !steps_add, E, E', !steps_done in P. injection P. auto.
Qed.
(** ... for a call whose starting state is that of another cost, with another value *)
Lemma run_as q p' c st0 : p' = recost q (e_H p') (e_g p') -> symmetric p' -> well_scaled p' -> (e_E q <= e_n q)%nat ->
  q_iq st0 = 0%nat -> inv p' 0 0 0 (addf (- c) st0) -> q_iter st0 = 0%nat ->
  exists k s st, steps q k (add_equalities q (e_E q) 0 st0) = Ok (Done s (addf c st)) /\ ends p' (q_tol st0) s st.
Proof.
  intros EP Sy WS En Hq I Hi. destruct (run_ends p' (addf (- c) st0) Sy WS) as (k & s & st & E & F).
  - rewrite EP. exact En.
  - exact Hq.
  - exact I.
  - exact Hi.
  - exists k, s, st. split; [|exact F]. rewrite EP, steps_recost in E. change (e_E (recost q (e_H p') (e_g p'))) with (e_E q) in E. rewrite add_recost in E.
    replace st0 with (addf c (addf (- c) st0)).
    2: { unfold addf. destruct st0. qst_cbn. f_equal. ring. }
    rewrite add_shift, steps_shift, E. reflexivity.
Qed.
Lemma run_as_limit q p' c st0 k s st : p' = recost q (e_H p') (e_g p') -> convex p' -> well_scaled p' -> (e_E q <= e_n q)%nat ->
  (subsets (e_I q) (e_n q - e_E q) < e_max q)%nat -> q_iq st0 = 0%nat -> inv p' 0 0 0 (addf (- c) st0) -> q_iter st0 = 0%nat ->
  steps q k (add_equalities q (e_E q) 0 st0) = Ok (Done s st) -> s <> st_MAX_ITER.
Proof.
  intros EP C WS En HN Hq I Hi E. apply (run_limit p' (addf (- c) st0) k s (addf (- c) st) C WS).
  - rewrite EP. exact En.
  - rewrite EP. exact HN.
  - exact Hq.
  - exact I.
  - exact Hi.
  - rewrite EP, steps_recost. change (e_E (recost q (e_H p') (e_g p'))) with (e_E q). rewrite add_recost, add_shift, steps_shift, E. reflexivity.
Qed.
