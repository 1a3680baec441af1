(** C95: cutting a phase in two. *)
From Coq Require Import List Lia Lra.
From Verif Require Import Vec SpecBezier SpecTime ModelData ModelDispatch ModelUtils ModelCont ModelSolver ModelTraj
  SpecCom SpecWp SpecCtr SpecTraj SpecEnd SpecBest SpecCut ProofBezier ProofCurve ProofTime ProofWaypoints ProofCom3 ProofTraj ProofTraj2 ProofTraj3 ProofBest ProofBest2.
Import ListNotations.
Open Scope R_scope.

Lemma firstn_len {X} (A B : list X) n : length A = n -> firstn n (A ++ B) = A.
Proof. intros <-. rewrite firstn_app, Nat.sub_diag, firstn_all. cbn. apply app_nil_r. Qed.
Lemma skipn_len {X} (A B : list X) n : length A = n -> skipn n (A ++ B) = B.
Proof. intros <-. rewrite skipn_app, Nat.sub_diag, skipn_all. reflexivity. Qed.
Lemma nth_len {X} (A B : list X) x n : length A = n -> nth_error (A ++ x :: B) n = Some x.
Proof. intros <-. rewrite nth_error_app2, Nat.sub_diag; [reflexivity|lia]. Qed.
Lemma cut_times_eq n a A d B : length A = n -> cut_times n a (A ++ d :: B) = A ++ a :: (d - a) :: B.
Proof.
  intros L. unfold cut_times. rewrite (firstn_len A (d :: B) n L). f_equal. f_equal.
  rewrite (nth_error_nth _ _ 0 (nth_len A B d n L)). f_equal.
  change (A ++ d :: B) with (A ++ [d] ++ B). rewrite app_assoc. apply skipn_len. rewrite app_length, L. cbn. lia.
Qed.
Lemma cut_list_eq {X} n (A : list X) c B : length A = n -> firstn (S n) (A ++ c :: B) ++ skipn n (A ++ c :: B) = A ++ c :: c :: B.
Proof.
  intros L. rewrite (skipn_len A (c :: B) n L). change (A ++ c :: B) with (A ++ [c] ++ B). rewrite (app_assoc A [c] B), firstn_len.
  - rewrite <- app_assoc. reflexivity.
  - rewrite app_length, L. cbn. lia.
Qed.

Section Cut.
  Variables (A B : list R) (d a dt : R) (k n : nat).
  Hypothesis L : length A = n.
  Hypothesis Hdt : 0 < dt.
  Hypothesis Ha : a = INR k * dt.
  Hypothesis Had : a < d.
  Let Ts := A ++ d :: B.
  Let Us := A ++ a :: (d - a) :: B.

  Lemma cut_total : total Us = total Ts.
  Proof. unfold Us, Ts. rewrite !total_app. cbn. ring. Qed.
  Lemma start_low j : (j <= n)%nat -> phase_start Us j = phase_start Ts j.
  Proof. intros H. unfold phase_start, Us, Ts. rewrite !firstn_app. replace (j - length A)%nat with 0%nat by lia. reflexivity. Qed.
  Lemma start_mid : phase_start Us (S n) = phase_start Ts n + a.
  Proof.
    unfold phase_start, Us, Ts. rewrite !firstn_app, L, Nat.sub_diag. replace (S n - n)%nat with 1%nat by lia.
    rewrite (firstn_all2 (n := S n) A), (firstn_all2 (n := n) A) by lia. cbn [firstn]. rewrite !total_app. cbn. ring.
  Qed.
  Lemma start_high j : phase_start Us (S (S n) + j) = phase_start Ts (S n + j).
  Proof.
    unfold phase_start, Us, Ts. rewrite !firstn_app, L. replace (S (S n) + j - n)%nat with (S (S j)) by lia.
    replace (S n + j - n)%nat with (S j) by lia.
    rewrite (firstn_all2 (n := S (S n) + j) A), (firstn_all2 (n := S n + j) A) by lia. cbn [firstn]. rewrite !total_app. cbn [total]. ring.
  Qed.
  Lemma end_n : phase_end Ts n = phase_start Ts n + d.
  Proof. apply phase_end_nth. apply nth_len, L. Qed.

  (** the two phases together have the samples of the one *)
  Lemma cut_sampled (ca cb : list contact) c : length ca = n ->
    (forall j e t, nth_error (ca ++ c :: c :: cb) j = Some e -> sampled_step Us dt j t -> exists i, nth_error (ca ++ c :: cb) i = Some e /\ sampled_step Ts dt i t) /\
    (forall i e t, nth_error (ca ++ c :: cb) i = Some e -> sampled_step Ts dt i t -> exists j, nth_error (ca ++ c :: c :: cb) j = Some e /\ sampled_step Us dt j t).
  Proof.
    intros LC. assert (LT : length Ts = (n + 1 + length B)%nat) by (unfold Ts; rewrite app_length; cbn; lia).
    assert (LU : length Us = (n + 2 + length B)%nat) by (unfold Us; rewrite app_length; cbn; lia).
    assert (N1 : nth_error (ca ++ c :: cb) n = Some c) by (apply nth_len, LC).
    assert (N2 : nth_error (ca ++ c :: c :: cb) n = Some c) by (apply nth_len, LC).
    assert (N3 : nth_error (ca ++ c :: c :: cb) (S n) = Some c).
    { rewrite nth_error_app2 by lia. replace (S n - length ca)%nat with 1%nat by lia. reflexivity. }
    assert (N4 : forall j, nth_error (ca ++ c :: c :: cb) (S (S n) + j) = nth_error (ca ++ c :: cb) (S n + j)).
    { intros j. rewrite !nth_error_app2 by lia. replace (S (S n) + j - length ca)%nat with (S (S j)) by lia. replace (S n + j - length ca)%nat with (S j) by lia. reflexivity. }
    assert (N0 : forall j, (j < n)%nat -> nth_error (ca ++ c :: c :: cb) j = nth_error (ca ++ c :: cb) j).
    { intros j Hj. rewrite !nth_error_app1 by lia. reflexivity. }
    assert (En : phase_end Us n = phase_start Ts n + a) by (rewrite <- phase_start_S; apply start_mid).
    assert (Em : phase_end Us (S n) = phase_end Ts n).
    { rewrite <- !phase_start_S. pose proof (start_high 0) as E. rewrite !Nat.add_0_r in E. exact E. }
    assert (Eh : forall j, phase_end Us (S (S n) + j) = phase_end Ts (S n + j)).
    { intros j. rewrite <- !phase_start_S. pose proof (start_high (S j)) as E. rewrite !Nat.add_succ_r in E. exact E. }
    pose proof end_n as ET. split.
    - intros j e t He (Hj & Ht). destruct (lt_eq_lt_dec j n) as [[Q|Q]|Q].
      + exists j. split; [rewrite <- N0; assumption|]. split; [lia|]. rewrite start_low in Ht by lia.
        rewrite <- (phase_start_S Us), start_low, phase_start_S in Ht by lia. exact Ht.
      + subst j. rewrite N2 in He. injection He as <-. exists n. split; [exact N1|]. split; [lia|]. right. rewrite start_low, En in Ht by lia.
        destruct Ht as [->|(i & -> & Q)]; [exists k|exists i]; rewrite ET; split; try reflexivity; try lra; rewrite Ha; reflexivity.
      + destruct (Nat.eq_dec j (S n)) as [->|Q'].
        * rewrite N3 in He. injection He as <-. exists n. split; [exact N1|]. split; [lia|]. rewrite start_mid, Em in Ht.
          destruct Ht as [->|(i & -> & Q'')]; [left; reflexivity|right]. exists (k + i)%nat. rewrite plus_INR. split; [rewrite Ha; ring|exact Q''].
        * replace j with (S (S n) + (j - S (S n)))%nat in He, Ht by lia. exists (S n + (j - S (S n)))%nat. rewrite <- N4. split; [exact He|].
          split; [lia|]. rewrite start_high, Eh in Ht. exact Ht.
    - intros i e t He (Hi & Ht). destruct (lt_eq_lt_dec i n) as [[Q|Q]|Q].
      + exists i. split; [rewrite N0; assumption|]. split; [lia|]. rewrite start_low by lia.
        rewrite <- (phase_start_S Us), start_low, phase_start_S by lia. exact Ht.
      + subst i. rewrite N1 in He. injection He as <-. destruct Ht as [->|(i & -> & Q)].
        * exists (S n). split; [exact N3|]. split; [lia|]. left. symmetry. exact Em.
        * destruct (le_lt_dec i k) as [Le|Lt].
          { exists n. split; [exact N2|]. split; [lia|]. rewrite En, start_low by lia. destruct (Nat.eq_dec i k) as [->|NE].
            - left. rewrite Ha. reflexivity.
            - right. exists i. split; [reflexivity|]. rewrite Ha. apply Rplus_lt_compat_l, Rmult_lt_compat_r; [exact Hdt|]. apply lt_INR. lia. }
          { exists (S n). split; [exact N3|]. split; [lia|]. right. exists (i - k)%nat. rewrite start_mid, Em. split; [|exact Q].
            rewrite minus_INR by lia. rewrite Ha. ring. }
      + replace i with (S n + (i - S n))%nat in He, Ht by lia. exists (S (S n) + (i - S n))%nat. rewrite N4. split; [exact He|].
        split; [lia|]. rewrite start_high, Eh. exact Ht.
  Qed.
End Cut.

Lemma gen_dist p q Ts Us T ta ua n : same_motion p q -> costFunction p = DISTANCE_TRAVELED -> genCostFunction p Ts T ta n = genCostFunction q Us T ua n.
Proof.
  intros SM HC. rewrite (gen_same p q Ts T ta n SM). unfold genCostFunction, cost_genCostFunction. destruct SM as (_ & _ & _ & _ & _ & _ & _ & _ & _ & EC).
  rewrite <- EC, HC. reflexivity.
Qed.

Section Plans.
  Variables (scaled wg : bool) (quadprog : qp -> list R -> outcome (Z * list R * R)) (glpk : lp -> outcome (Z * R * list R)).
  Hypothesis QO : qp_solves quadprog.
  Hypothesis QS : qp_sound quadprog.
  Hypothesis LS : lp_sound glpk.

  (** two problems with the same motions, the same feasible ones, and the distance cost *)
  Lemma same_plan p q Ts Us m m' r : plannable p Ts -> plannable q Us -> same_motion p q -> total Us = total Ts ->
    (forall f, plan_feasible p (sampled Ts m) f <-> plan_feasible q (sampled Us m') f) ->
    costFunction p = DISTANCE_TRAVELED -> proper m -> proper m' -> (exists ta, cost_times Ts m ta) -> (exists ua, cost_times Us m' ua) ->
    call scaled wg quadprog glpk p Ts m = Ok r -> rc_success r = true -> call scaled wg quadprog glpk q Us m' = Ok r.
  Proof.
    intros PLp PLq SM ET HF HC PR PR' (ta & CT) (ua & CU) E Hs.
    assert (HC' : costFunction q = DISTANCE_TRAVELED) by (rewrite <- HC; symmetry; apply SM).
    assert (CD : cost_decides p Ts ta) by (left; exact HC). assert (CD' : cost_decides q Us ua) by (left; exact HC').
    destruct (call_feasible scaled wg quadprog glpk p Ts PLp QS LS m r PR E Hs) as ((_ & (x & Ex & Hcv) & _) & FE).
    destruct (call_opt scaled wg quadprog glpk QO p Ts PLp m ta x _ PR CT CD Hcv FE) as (r1 & x1 & H & gg & G1 & E1 & _ & Hx1 & B1 & T1).
    rewrite E in E1. injection E1 as <-. destruct B1 as (Hc1 & F1 & O1).
    assert (B1' : best q Us m' ua x1 (rc_c r)).
    { split; [rewrite ET, <- (curve_same p q _ x1 SM); exact Hc1|]. split; [apply HF; exact F1|].
      intros y cvy s s' Hy Fy C1 C2. apply (O1 y cvy s s'); [rewrite (curve_same p q _ y SM), <- ET; exact Hy|apply HF; exact Fy| |].
      - destruct C1 as [[_ ->]|[X _]]; [left; split; [exact HC|rewrite (mid_same p q SM); reflexivity]|rewrite HC' in X; discriminate X].
      - destruct C2 as [[_ ->]|[X _]]; [left; split; [exact HC|rewrite (mid_same p q SM); reflexivity]|rewrite HC' in X; discriminate X]. }
    destruct (call_opt scaled wg quadprog glpk QO q Us PLq m' ua x1 _ PR' CU CD' (proj1 B1') (proj1 (proj2 B1'))) as (r2 & x2 & H2 & gg2 & G2 & E2 & _ & Hx2 & B2 & T2).
    destruct (best_unique scaled wg quadprog glpk q Us PLq m' ua x1 _ x2 _ PR' CU CD' B1' B2) as [<- _].
    rewrite ET, <- (gen_dist p q Ts Us _ ta ua 3 SM HC) in G2. rewrite G1 in G2. injection G2 as <- <-.
    rewrite ET, <- (traj_same scaled _ p q _ SM) in T2. rewrite T1 in T2. injection T2 as <-. exact E2.
  Qed.
End Plans.

Lemma cut_plannable p Ts n d a : plannable p Ts -> nth_error Ts n = Some d -> 0 < a < d -> plannable (cut n p) (cut_times n a Ts).
Proof.
  intros ((F & C & N & P & L & W) & (g & SG) & Hf) Hn [A1 A2].
  destruct (nth_error_split Ts n Hn) as (A & B & -> & LA).
  destruct (nth_error (contacts p) n) as [c|] eqn:Ec; [|apply nth_error_None in Ec; rewrite L, app_length in Ec; cbn in Ec; lia].
  destruct (nth_error_split _ _ Ec) as (ca & cb & Ep & LC).
  rewrite (cut_times_eq n a A d B LA). unfold cut. rewrite Ep, (cut_list_eq n ca c cb LC). rewrite Ep in L, W.
  apply Forall_app in P. destruct P as [PA PB]. inversion PB; subst. apply Forall_app in W. destruct W as [WA WB]. inversion WB; subst.
  split; [|split; [|exact Hf]].
  - split; [exact F|]. split; [exact C|]. split; [destruct A; discriminate|]. split.
    + apply Forall_app. split; [exact PA|]. constructor; [exact A1|]. constructor; [lra|assumption].
    + split; [cbn [contacts]; rewrite !app_length in *; cbn in *; lia|]. cbn [contacts]. apply Forall_app. split; [exact WA|]. constructor; [assumption|exact WB].
  - exists g. intros e ph He. apply (SG e ph). rewrite Ep. cbn [contacts] in He. apply in_app_or in He. apply in_or_app.
    destruct He as [He|[He|He]]; [left; exact He|right; left; exact He|right; exact He].
Qed.
Lemma cut_same p n : same_motion p (cut n p).
Proof. repeat split. Qed.

Lemma cut_feasible p Ts n d a k dt f : plannable p Ts -> nth_error Ts n = Some d -> 0 < dt -> a = INR k * dt -> a < d ->
  (plan_feasible p (sampled_step Ts dt) f <-> plan_feasible (cut n p) (sampled_step (cut_times n a Ts) dt) f).
Proof.
  intros ((_ & _ & _ & _ & L & _) & _) Hn Hdt Ha Had.
  destruct (nth_error_split Ts n Hn) as (A & B & -> & LA).
  destruct (nth_error (contacts p) n) as [c|] eqn:Ec; [|apply nth_error_None in Ec; rewrite L, app_length in Ec; cbn in Ec; lia].
  destruct (nth_error_split _ _ Ec) as (ca & cb & Ep & LC).
  rewrite (cut_times_eq n a A d B LA). unfold plan_feasible. cbn [cut contacts]. rewrite Ep, (cut_list_eq n ca c cb LC).
  destruct (cut_sampled A B d a dt k n LA Hdt Ha Had ca cb c LC) as [S1 S2]. split.
  - intros H j e t He Ht. destruct (S1 j e t He Ht) as (i & Hi & Hti). exact (H i e t Hi Hti).
  - intros H i e t He Ht. destruct (S2 i e t He Ht) as (j & Hj & Htj). exact (H j e t Hj Htj).
Qed.

Lemma c95_cut p Ts n d a k dt : plannable p Ts -> nth_error Ts n = Some d -> 0 < dt -> a = INR k * dt -> 0 < a < d ->
  costFunction p = DISTANCE_TRAVELED ->
  forall scaled wg quadprog glpk, qp_solves quadprog -> qp_sound quadprog -> lp_sound glpk -> forall r, rc_success r = true ->
  (call scaled wg quadprog glpk p Ts (Every dt) = Ok r <-> call scaled wg quadprog glpk (cut n p) (cut_times n a Ts) (Every dt) = Ok r).
Proof.
  intros PL Hn Hdt Ha A2 HC scaled wg quadprog glpk QO QS LS r Hs. pose proof (cut_plannable p Ts n d a PL Hn A2) as PL'.
  assert (ET : total (cut_times n a Ts) = total Ts).
  { destruct (nth_error_split Ts n Hn) as (A & B & -> & LA). rewrite (cut_times_eq n a A d B LA). apply (cut_total A B d a). }
  assert (CT : forall q Us, plannable q Us -> exists ta, cost_times Us (Every dt) ta).
  { intros q Us ((_ & _ & _ & P & _) & _). destruct (c11_ok Us dt Hdt P) as (bs & E & _). exists (tagged bs). exact E. }
  pose proof (fun f => cut_feasible p Ts n d a k dt f PL Hn Hdt Ha (proj2 A2)) as HF. split; intros E.
  - exact (same_plan scaled wg quadprog glpk QO QS LS p (cut n p) Ts _ (Every dt) (Every dt) r PL PL' (cut_same p n) ET HF HC Hdt Hdt (CT _ _ PL) (CT _ _ PL') E Hs).
  - refine (same_plan scaled wg quadprog glpk QO QS LS (cut n p) p _ Ts (Every dt) (Every dt) r PL' PL (same_sym _ _ (cut_same p n)) (eq_sym ET) _ HC Hdt Hdt (CT _ _ PL') (CT _ _ PL) E Hs).
    intros f. symmetry. apply HF.
Qed.
