(** Hand-over to GLPK. *)
From Verif Require Import Vec ModelData ModelRows ModelUtils ModelCont ModelSolver SpecWp SpecSolver ProofCom ProofSolver.
Open Scope R_scope.

Fixpoint trips (id j : nat) (row : list R) : list (nat * nat * R) :=
  match row with
  | [] => []
  | a :: r => (if Req_EM_T a 0 then [] else [(id, S j, a)]) ++ trips id (S j) r
  end.
Fixpoint trips_all (id : nat) (rows : list (list R)) : list (nat * nat * R) :=
  match rows with [] => [] | r :: rows' => trips id 0 r ++ trips_all (S id) rows' end.
Definition fits (k : nat) : bool := (Z.of_nat k <=? 20000)%Z.
Lemma fits_mono a b : (a <= b)%nat -> fits b = true -> fits a = true.
Proof. unfold fits. rewrite !Z.leb_le. lia. Qed.

Lemma push_ok acc t : fits (length acc) = true ->
  push acc t = if fits (length acc + 1) then Ok (acc ++ [t]) else UB.
Proof.
  unfold push, fits. intros _.
  destruct (Z.ltb_spec (Z.of_nat (length acc)) 20000), (Z.leb_spec (Z.of_nat (length acc + 1)) 20000); try lia; reflexivity.
Qed.
Lemma glpk_row_ok id : forall r2 r1 r3 acc, fits (length acc) = true ->
  glpk_row (r1 ++ r2 ++ r3) id (length r1) (length r2) acc =
  if fits (length acc + length (trips id (length r1) r2)) then Ok (acc ++ trips id (length r1) r2) else UB.
Proof.
  induction r2 as [|a r2 IH]; intros r1 r3 acc F.
  - cbn. rewrite Nat.add_0_r, F, app_nil_r. reflexivity.
  - cbn [length glpk_row]. unfold get. rewrite nth_error_app2 by lia. rewrite Nat.sub_diag. cbn [nth_error app bind].
    replace (r1 ++ a :: r2 ++ r3) with ((r1 ++ [a]) ++ r2 ++ r3) by (rewrite <- app_assoc; reflexivity).
    replace (S (length r1)) with (length (r1 ++ [a])) by (rewrite app_length; cbn; lia).
    cbn [trips]. replace (S (length r1)) with (length (r1 ++ [a])) by (rewrite app_length; cbn; lia).
    destruct (Req_EM_T a 0) as [Ea|Ea].
    + cbn [bind app]. apply IH, F.
    + rewrite push_ok by exact F. cbn [app length].
      destruct (fits (length acc + 1)) eqn:F1.
      * cbn [bind]. rewrite IH by (rewrite app_length; exact F1). rewrite (app_length acc), <- app_assoc. cbn [length app].
        rewrite <- Nat.add_assoc. reflexivity.
      * cbn [bind]. destruct (fits (length acc + S (length (trips id (length (r1 ++ [a])) r2)))) eqn:F2; [|reflexivity].
        eapply fits_mono in F2; [rewrite F2 in F1; discriminate|lia].
Qed.
Lemma glpk_rows_ok mk n : forall rows rhs id acc, Forall (fun r => length r = n) rows -> length rhs = length rows ->
  fits (length acc) = true ->
  glpk_rows mk rows rhs n id acc =
  if fits (length acc + length (trips_all id rows)) then Ok (map mk rhs, acc ++ trips_all id rows) else UB.
Proof.
  induction rows as [|r rows IH]; intros rhs id acc WF L F.
  - destruct rhs; [|discriminate]. cbn. rewrite Nat.add_0_r, F, app_nil_r. reflexivity.
  - destruct rhs as [|b rhs]; [discriminate|]. inversion WF as [|? ? Er WF']; subst. cbn [glpk_rows].
    pose proof (glpk_row_ok id r [] [] acc F) as H. cbn [app length] in H. rewrite app_nil_r in H. rewrite H. clear H.
    cbn [trips_all]. rewrite app_length. destruct (fits (length acc + length (trips id 0 r))) eqn:F1.
    + cbn [bind]. rewrite IH; [|exact WF'|cbn in L; lia|rewrite app_length; exact F1].
      rewrite app_length, Nat.add_assoc, <- app_assoc. destruct (fits (_ + _ + _)); reflexivity.
    + cbn [bind]. destruct (fits (length acc + (_ + _))) eqn:F2; [|reflexivity].
      eapply fits_mono in F2; [rewrite F2 in F1; discriminate|lia].
Qed.

Lemma trips_nz id : forall r j, length (trips id j r) = length (filter (fun a => if Req_EM_T a 0 then false else true) r).
Proof. induction r as [|a r IH]; intros j; [reflexivity|]. cbn. rewrite app_length, IH. destruct (Req_EM_T a 0); reflexivity. Qed.
Lemma trips_all_nz : forall rows id, length (trips_all id rows) = length (filter (fun a => if Req_EM_T a 0 then false else true) (concat rows)).
Proof.
  induction rows as [|r rows IH]; intros id; [reflexivity|]. cbn [trips_all concat]. rewrite app_length, IH, trips_nz.
  rewrite filter_app, app_length. reflexivity.
Qed.

Lemma value_app m1 m2 i x : lp_row_value (m1 ++ m2) i x = lp_row_value m1 i x + lp_row_value m2 i x.
Proof. unfold lp_row_value. induction m1 as [|t m1 IH]; cbn; [lra|]. rewrite IH. lra. Qed.
Lemma value_other id i x : id <> i -> forall r j, lp_row_value (trips id j r) i x = 0.
Proof.
  intros N. induction r as [|a r IH]; intros j; [reflexivity|]. cbn [trips]. rewrite value_app, IH.
  destruct (Req_EM_T a 0); cbn; [lra|]. destruct (Nat.eqb_spec id i); [congruence|]. lra.
Qed.
Lemma rdot_nil_r r : rdot r [] = 0. Proof. destruct r; reflexivity. Qed.
Lemma value_own id : forall r x1 x2, lp_row_value (trips id (length x1) r) id (x1 ++ x2) = rdot r x2.
Proof.
  induction r as [|a r IH]; intros x1 x2; [reflexivity|]. cbn [trips]. rewrite value_app. destruct x2 as [|v x2].
  - rewrite app_nil_r. cbn [rdot].
    assert (H : forall r j, (length x1 <= j)%nat -> lp_row_value (trips id j r) id x1 = 0).
    { clear. induction r as [|a r IH]; intros j Hj; [reflexivity|]. cbn [trips]. rewrite value_app, IH by lia.
      destruct (Req_EM_T a 0); cbn; [lra|]. rewrite Nat.eqb_refl, Nat.sub_0_r, nth_overflow by lia. lra. }
    rewrite H by lia. destruct (Req_EM_T a 0); cbn; [lra|]. rewrite Nat.eqb_refl, Nat.sub_0_r, nth_overflow by lia. lra.
  - cbn [rdot]. replace (x1 ++ v :: x2) with ((x1 ++ [v]) ++ x2) by (rewrite <- app_assoc; reflexivity).
    replace (S (length x1)) with (length (x1 ++ [v])) by (rewrite app_length; cbn; lia). rewrite IH.
    destruct (Req_EM_T a 0) as [->|_]; cbn; [lra|]. rewrite Nat.eqb_refl, app_length. cbn.
    replace (length x1 + 1 - 1)%nat with (length x1) by lia. rewrite app_nth1 by (rewrite app_length; cbn; lia).
    rewrite app_nth2 by lia. rewrite Nat.sub_diag. cbn. lra.
Qed.
Lemma value_all x : forall rows id i, lp_row_value (trips_all id rows) i x =
  match nth_error rows (i - id) with Some r => if Nat.leb id i then rdot r x else 0 | None => 0 end.
Proof.
  induction rows as [|r rows IH]; intros id i.
  - cbn. destruct (i - id)%nat; reflexivity.
  - cbn [trips_all]. rewrite value_app, IH. destruct (Nat.eq_dec id i) as [->|N].
    + pose proof (value_own i r [] x) as H. cbn [length app] in H. rewrite H.
      rewrite Nat.sub_diag. cbn [nth_error]. rewrite Nat.leb_refl.
      replace (i - S i)%nat with 0%nat by lia. destruct (Nat.leb_spec (S i) i); [lia|]. destruct (nth_error rows 0); lra.
    + rewrite value_other by exact N. destruct (Nat.leb_spec id i) as [L|L].
      * replace (i - id)%nat with (S (i - S id)) by lia. cbn [nth_error].
        destruct (Nat.leb_spec (S id) i); [|lia]. destruct (nth_error rows (i - S id)); lra.
      * destruct (Nat.leb_spec (S id) i); [lia|]. destruct (nth_error rows (i - S id)), (nth_error (r :: rows) (i - id)); lra.
Qed.

Lemma getType_ok lo up v : in_bound (getType lo up) v <-> (-100000 < lo -> lo <= v) /\ (up < 100000 -> v <= up).
Proof.
  unfold getType, UNBOUNDED_DOWN, UNBOUNDED_UP. destruct (Rlt_dec (-100000) lo), (Rlt_dec up 100000); cbn; intuition lra.
Qed.
Lemma glpk_cols_ok : forall n m1 m2 a1 a2 g1 g2, length a1 = length m1 -> length g1 = length m1 ->
  length m2 = n -> length a2 = n -> length g2 = n ->
  glpk_cols (m1 ++ m2) (a1 ++ a2) (g1 ++ g2) (length m1) n = Ok (combine (map2 getType m2 a2) g2).
Proof.
  induction n as [|n IH]; intros m1 m2 a1 a2 g1 g2 La Lg E1 E2 E3.
  - destruct m2, a2, g2; try discriminate. reflexivity.
  - destruct m2 as [|m m2], a2 as [|a a2], g2 as [|g g2]; try discriminate. cbn [glpk_cols]. unfold get.
    assert (N : forall (l1 l2 : list R) v, length l1 = length m1 -> nth_error (l1 ++ v :: l2) (length m1) = Some v).
    { intros l1 l2 v E. rewrite nth_error_app2 by lia. replace (length m1 - length l1)%nat with 0%nat by lia. reflexivity. }
    rewrite !N by auto. cbn [bind].
    replace (m1 ++ m :: m2) with ((m1 ++ [m]) ++ m2) by (rewrite <- app_assoc; reflexivity).
    replace (a1 ++ a :: a2) with ((a1 ++ [a]) ++ a2) by (rewrite <- app_assoc; reflexivity).
    replace (g1 ++ g :: g2) with ((g1 ++ [g]) ++ g2) by (rewrite <- app_assoc; reflexivity).
    replace (S (length m1)) with (length (m1 ++ [m])) by (rewrite app_length; cbn; lia).
    rewrite IH; [reflexivity|rewrite !app_length; cbn; lia|rewrite !app_length; cbn; lia|cbn in *; lia|cbn in *; lia|cbn in *; lia].
Qed.
Lemma cols_bound : forall (m a g x : list R), length m = length x -> length a = length x -> length g = length x ->
  (Forall2 (fun c v => in_bound (fst c) v) (combine (map2 getType m a) g) x <->
   Forall2 (fun l v => -100000 < l -> l <= v) m x /\ Forall2 (fun u v => u < 100000 -> v <= u) a x).
Proof.
  induction m as [|l m IH]; intros [|u a] [|c g] [|v x] E1 E2 E3; try discriminate; cbn [map2 combine].
  - split; [split; constructor|constructor].
  - specialize (IH a g x ltac:(cbn in *; lia) ltac:(cbn in *; lia) ltac:(cbn in *; lia)).
    split.
    + intros H. inversion H as [|? ? ? ? Hb HF]; subst. cbn in Hb. apply getType_ok in Hb. apply IH in HF.
      split; constructor; tauto.
    + intros [H1 H2]. inversion H1; inversion H2; subst. constructor; [apply getType_ok; cbn; tauto|apply IH; tauto].
Qed.
Lemma cols_obj : forall (m a g : list R), length m = length g -> length a = length g -> map snd (combine (map2 getType m a) g) = g.
Proof. induction m as [|l m IH]; intros [|u a] [|c g] E1 E2; try discriminate; [reflexivity|]. cbn. f_equal. apply IH; cbn in *; lia. Qed.

Lemma repeat_bound (k : R) (P : R -> R -> Prop) : (forall v, P k v) -> forall x, Forall2 P (repeat k (length x)) x.
Proof. intros H x. induction x; constructor; auto. Qed.

Lemma glpk_problem_ok g CE ce0 CI ci0 minB maxB n :
  mx_wf CI -> mx_wf CE -> mx_cols CI = n -> mx_cols CE = n -> length ci0 = length (mx_rows CI) -> length ce0 = length (mx_rows CE) ->
  (minB = [] \/ length minB = n) -> (maxB = [] \/ length maxB = n) -> length g = n ->
  (1 <= n)%nat -> (1 <= length (mx_rows CI) + length (mx_rows CE))%nat ->
  ((Z.of_nat (nonzeros CI + nonzeros CE) <= 20000)%Z -> exists p,
     glpk_problem g CE ce0 CI ci0 minB maxB n = Ok p /\
     forall x, length x = n ->
       (lp_feasible p x <-> leM CI ci0 x /\ eqM CE ce0 x /\ lp_above minB x /\ lp_below maxB x) /\
       lp_objective p x = rdot g x) /\
  ((20000 < Z.of_nat (nonzeros CI + nonzeros CE))%Z -> glpk_problem g CE ce0 CI ci0 minB maxB n = UB).
Proof.
  intros WI WE CI_n CE_n LI LE HM HX Lg Hn Hr. unfold glpk_problem.
  destruct (Nat.eqb_spec (length (mx_rows CE) + length (mx_rows CI)) 0) as [E0|_]; [lia|].
  unfold mx_wf in WI, WE. rewrite CI_n in WI. rewrite CE_n in WE.
  rewrite (glpk_rows_ok UP n _ ci0 1 []) by auto. cbn [length Nat.add app].
  assert (N1 : length (trips_all 1 (mx_rows CI)) = nonzeros CI) by (rewrite trips_all_nz; reflexivity).
  assert (N2 : length (trips_all (S (length (mx_rows CI))) (mx_rows CE)) = nonzeros CE) by (rewrite trips_all_nz; reflexivity).
  rewrite N1. split.
  - intros F. assert (F1 : fits (nonzeros CI) = true) by (unfold fits; rewrite Z.leb_le; lia). rewrite F1. cbn [bind fst snd].
    rewrite (glpk_rows_ok FX n) by (auto; now rewrite N1). rewrite N1. rewrite N2.
    assert (F2 : fits (nonzeros CI + nonzeros CE) = true) by (unfold fits; rewrite Z.leb_le; lia). rewrite F2. cbn [bind fst snd].
    destruct (Nat.eqb_spec n 0) as [En|_]; [lia|].
    set (miB := match minB with [] => repeat UNBOUNDED_DOWN n | _ => minB end).
    set (maB := match maxB with [] => repeat UNBOUNDED_UP n | _ => maxB end).
    assert (Lmi : length miB = n) by (unfold miB; destruct HM as [->|HM]; [apply repeat_length|]; destruct minB; [apply repeat_length|exact HM]).
    assert (Lma : length maB = n) by (unfold maB; destruct HX as [->|HX]; [apply repeat_length|]; destruct maxB; [apply repeat_length|exact HX]).
    pose proof (glpk_cols_ok n [] miB [] maB [] g eq_refl eq_refl Lmi Lma Lg) as HC. cbn [app length] in HC. rewrite HC. cbn [bind].
    eexists. split; [reflexivity|]. intros x Lx. split; [|unfold lp_objective; cbn [lp_cols]; rewrite cols_obj; congruence].
    unfold lp_feasible. cbn [lp_rows lp_cols lp_mat]. rewrite cols_bound by congruence.
    assert (EA : Forall2 (fun l v => -100000 < l -> l <= v) miB x <-> lp_above minB x).
    { unfold lp_above, miB. destruct minB as [|m0 mb]; [|intuition congruence].
      split; [tauto|]. intros _. rewrite <- Lx. apply repeat_bound. unfold UNBOUNDED_DOWN. intros; lra. }
    assert (EB : Forall2 (fun u v => u < 100000 -> v <= u) maB x <-> lp_below maxB x).
    { unfold lp_below, maB. destruct maxB as [|m0 mb]; [|intuition congruence].
      split; [tauto|]. intros _. rewrite <- Lx. apply repeat_bound. unfold UNBOUNDED_UP. intros; lra. }
    rewrite EA, EB. clear EA EB.
    assert (ER : (forall i b, nth_error (map UP ci0 ++ map FX ce0) i = Some b ->
        in_bound b (lp_row_value (trips_all 1 (mx_rows CI) ++ trips_all (S (length (mx_rows CI))) (mx_rows CE)) (S i) x)) <->
        leM CI ci0 x /\ eqM CE ce0 x).
    { unfold leM, eqM. rewrite !forall2_nth. split.
      - intros H. split; (split; [congruence|]); intros i r b Hr' Hb.
        + specialize (H i (UP b)). rewrite nth_error_app1 in H by (rewrite map_length; apply nth_error_Some; congruence).
          rewrite nth_error_map, Hb in H. specialize (H eq_refl). cbn [in_bound] in H.
          rewrite value_app, !value_all in H. cbn [Nat.sub] in H. rewrite Nat.sub_0_r, Hr' in H. cbn [Nat.leb] in H.
          assert (Hi : (i < length (mx_rows CI))%nat) by (apply nth_error_Some; congruence).
          destruct (Nat.leb_spec (length (mx_rows CI)) i); [lia|].
          destruct (nth_error (mx_rows CE) _); lra.
        + specialize (H (length ci0 + i)%nat (FX b)). rewrite nth_error_app2 in H by (rewrite map_length; lia).
          rewrite map_length in H. replace (length ci0 + i - length ci0)%nat with i in H by lia.
          rewrite nth_error_map, Hb in H. specialize (H eq_refl). cbn [in_bound] in H.
          rewrite value_app, !value_all in H. rewrite <- LI in H.
          replace (S (length ci0 + i) - 1)%nat with (length ci0 + i)%nat in H by lia.
          replace (S (length ci0 + i) - S (length ci0))%nat with i in H by lia.
          destruct (nth_error (mx_rows CI) (length ci0 + i)) eqn:EN.
          { assert (length ci0 + i < length (mx_rows CI))%nat by (apply nth_error_Some; congruence). lia. }
          rewrite Hr' in H. destruct (Nat.leb_spec (S (length ci0)) (S (length ci0 + i))); [|lia]. lra.
      - intros [[_ HI] [_ HE]] i b Hb.
        rewrite value_app, !value_all. destruct (Nat.lt_ge_cases i (length ci0)) as [Hi|Hi].
        + rewrite nth_error_app1 in Hb by (rewrite map_length; exact Hi). rewrite nth_error_map in Hb.
          destruct (nth_error ci0 i) as [c|] eqn:Ec; [|discriminate]. injection Hb as <-.
          destruct (nth_error (mx_rows CI) i) as [r|] eqn:Er; [|apply nth_error_None in Er; lia].
          cbn [Nat.sub]. rewrite Nat.sub_0_r, Er. cbn [Nat.leb in_bound].
          specialize (HI i r c Er Ec). destruct (Nat.leb_spec (length (mx_rows CI)) i); [lia|].
          destruct (nth_error (mx_rows CE) _); lra.
        + rewrite nth_error_app2 in Hb by (rewrite map_length; exact Hi). rewrite map_length, nth_error_map in Hb.
          destruct (nth_error ce0 (i - length ci0)) as [c|] eqn:Ec; [|discriminate]. injection Hb as <-.
          assert (i - length ci0 < length ce0)%nat by (apply nth_error_Some; congruence).
          destruct (nth_error (mx_rows CE) (i - length ci0)) as [r|] eqn:Er; [|apply nth_error_None in Er; lia].
          cbn [Nat.sub]. rewrite Nat.sub_0_r, <- LI, Er.
          destruct (nth_error (mx_rows CI) i) eqn:EN.
          { assert (i < length (mx_rows CI))%nat by (apply nth_error_Some; congruence). lia. }
          destruct (Nat.leb_spec (S (length ci0)) (S i)); [|lia]. specialize (HE _ r c Er Ec). cbn [in_bound]. lra. }
    rewrite ER. tauto.
  - intros F. destruct (fits (nonzeros CI)) eqn:F1; [|reflexivity]. cbn [bind fst snd].
    rewrite (glpk_rows_ok FX n) by (auto; now rewrite N1). rewrite N1, N2.
    destruct (fits (nonzeros CI + nonzeros CE)) eqn:F2; [|reflexivity]. unfold fits in F2. rewrite Z.leb_le in F2. lia.
Qed.

Lemma c39_ok A b D d H g init minB maxB :
  mx_wf A -> mx_wf D -> mx_cols A = length init -> mx_cols D = length init ->
  length b = length (mx_rows A) -> length d = length (mx_rows D) ->
  (minB = [] \/ length minB = length init) -> (maxB = [] \/ length maxB = length init) -> length g = length init ->
  init <> [] -> (1 <= length (mx_rows A) + length (mx_rows D))%nat ->
  ((Z.of_nat (nonzeros A + nonzeros D) <= 20000)%Z -> exists p,
     (forall x, length x = length init ->
       (lp_feasible p x <-> leM A b x /\ eqM D d x /\ lp_above minB x /\ lp_below maxB x) /\
       lp_objective p x = rdot g x) /\
     forall quadprog glpk, solve true quadprog glpk A b D d H g init minB maxB SOLVER_GLPK =
       (r <- glpk p ;; let '(status, obj, x) := r in
        Ok (if Z.eqb status GLP_OPT then ResultData true obj x else ResultData false (-1) init))) /\
  ((20000 < Z.of_nat (nonzeros A + nonzeros D))%Z ->
     forall quadprog glpk, solve true quadprog glpk A b D d H g init minB maxB SOLVER_GLPK = UB).
Proof.
  intros WA WD CA CD Lb Ld HM HX Lg NE NR.
  destruct (glpk_problem_ok g D d A b minB maxB (length init)) as [H1 H2]; auto.
  { destruct init; [congruence|cbn; lia]. }
  split.
  - intros F. destruct (H1 F) as (p & Ep & Hp). exists p. split; [exact Hp|]. intros quadprog glpk. unfold solve.
    cbn [Z.eqb SOLVER_QUADPROG SOLVER_GLPK Pos.eqb andb]. rewrite Ep. cbn [bind].
    destruct (glpk p) as [[[st obj] x]| |]; cbn; [|reflexivity|reflexivity]. destruct (Z.eqb st GLP_OPT); reflexivity.
  - intros F quadprog glpk. unfold solve. cbn [Z.eqb SOLVER_QUADPROG SOLVER_GLPK Pos.eqb andb]. rewrite (H2 F). reflexivity.
Qed.
