(** C91: comparing problems with different constraints. *)
From Verif Require Import Vec SpecBezier SpecTime ModelData ModelDispatch ModelUtils ModelCom ModelNd ModelCont ModelSolver ModelTraj
  SpecCom SpecWp SpecCtr SpecCont SpecSolver SpecTraj SpecEnd SpecBest ProofCurve ProofWaypoints ProofWaypoints2 ProofTraj2 ProofTraj3 ProofBest.
Open Scope R_scope.

(** ** Problems with the same motions *)
Lemma const_same p q T : same_motion p q -> computeConstantWaypoints p T = computeConstantWaypoints q T.
Proof.
  destruct p as [cs1 a1 a2 a3 a4 b1 b2 b3 b4 l1 u1 k1 f1 r1], q as [cs2 a1' a2' a3' a4' b1' b2' b3' b4' l2 u2 k2 f2 r2].
  destruct k1 as [fl1 ? ? ?], k2 as [fl2 ? ? ?]. unfold same_motion, flag_of; cbn [k_flag constr c0 c1 dc0 dc1 ddc0 ddc1 j0 j1 costFunction].
  intros (E1 & E2 & E3 & E4 & E5 & E6 & E7 & E8 & E9 & E10). subst.
  unfold computeConstantWaypoints, compConsWps, flag_of; cbn [find_flag k_flag constr]. repeat (destruct (Z.eqb _ fl2); [reflexivity|]). reflexivity.
Qed.
Lemma curve_same p q T x : same_motion p q -> com_curve p T x = com_curve q T x.
Proof. intros S. unfold com_curve. rewrite (const_same p q T S). destruct S as (-> & _). reflexivity. Qed.
Lemma mid_same p q : same_motion p q -> mid_of p = mid_of q.
Proof. intros (_ & E0 & E1 & _). unfold mid_of. rewrite E0, E1. reflexivity. Qed.
Lemma same_sym p q : same_motion p q -> same_motion q p.
Proof. unfold same_motion. intuition congruence. Qed.
Lemma cost_same p q ta x f s : same_motion p q -> plan_cost p ta x f s -> plan_cost q ta x f s.
Proof.
  intros S. pose proof (mid_same p q S) as EM. destruct S as (_ & _ & _ & _ & _ & _ & _ & _ & _ & EC). unfold plan_cost. rewrite EC, EM. tauto.
Qed.
Lemma depends_same p q Ts ta : same_motion p q -> acc_depends p Ts ta -> acc_depends q Ts ta.
Proof.
  intros S (tp & x & y & cvx & cvy & ax & ay & H1 & H2 & H3 & H4). exists tp, x, y, cvx, cvy, ax, ay.
  rewrite <- !(curve_same p q _ _ S). auto.
Qed.
Lemma decides_same p q Ts ta : same_motion p q -> cost_decides p Ts ta -> cost_decides q Ts ta.
Proof.
  intros S. pose proof S as (_ & _ & _ & _ & _ & _ & _ & _ & _ & EC). unfold cost_decides. rewrite EC. intros [H|[H H']]; [left; exact H|right].
  split; [exact H|exact (depends_same p q Ts ta S H')].
Qed.
Lemma eval_acc_same p q pi T u : flag_of p = flag_of q -> evaluateAccelerationCurveAtTime p pi T u = evaluateAccelerationCurveAtTime q pi T u.
Proof. intros E. unfold evaluateAccelerationCurveAtTime. rewrite E. reflexivity. Qed.
Lemma final_same p q T : same_motion p q -> computeFinalVelocityPoint p T = computeFinalVelocityPoint q T.
Proof.
  destruct p as [cs1 a1 a2 a3 a4 b1 b2 b3 b4 l1 u1 k1 f1 r1], q as [cs2 a1' a2' a3' a4' b1' b2' b3' b4' l2 u2 k2 f2 r2].
  destruct k1 as [fl1 ? ? ?], k2 as [fl2 ? ? ?]. unfold same_motion, flag_of; cbn [k_flag constr c0 c1 dc0 dc1 ddc0 ddc1 j0 j1 costFunction].
  intros (E1 & E2 & E3 & E4 & E5 & E6 & E7 & E8 & E9 & E10). subst.
  unfold computeFinalVelocityPoint, compFinalVelPs, flag_of; cbn [find_flag k_flag constr]. repeat (destruct (Z.eqb _ fl2); [reflexivity|]). reflexivity.
Qed.
Lemma mapM_ext {A B} (f g : A -> outcome B) l : (forall a, f a = g a) -> mapM f l = mapM g l.
Proof. intros H. induction l as [|a l IH]; cbn; [reflexivity|]. rewrite H. destruct (g a); cbn; [|reflexivity..]. rewrite IH. reflexivity. Qed.
Lemma gen_same p q Ts T ta n : same_motion p q -> genCostFunction p Ts T ta n = genCostFunction q Ts T ta n.
Proof.
  intros S. pose proof S as (EF & E0 & E1 & _ & D1 & _ & _ & _ & _ & EC). unfold genCostFunction, cost_genCostFunction. rewrite EC.
  destruct (Z.eqb (costFunction q) ACCELERATION).
  - unfold computeCostMinAcceleration, computeDiscretizedAccelerationWaypoints. rewrite (const_same p q _ S).
    destruct (computeConstantWaypoints q (sumR Ts)) as [pi| |]; cbn [bind]; [|reflexivity..].
    rewrite (mapM_ext _ (fun tp => evaluateAccelerationCurveAtTime q pi (sumR Ts) (Rmin (fst tp / sumR Ts) 1)) ta); [reflexivity|].
    intros a. apply eval_acc_same. exact EF.
  - destruct (Z.eqb (costFunction q) DISTANCE_TRAVELED); [unfold computeCostMidPoint; rewrite E0, E1; reflexivity|].
    destruct (Z.eqb (costFunction q) TARGET_END_VELOCITY); [|reflexivity]. unfold computeCostEndVelocity. rewrite EF, (final_same p q T S), D1. reflexivity.
Qed.
Lemma traj_same scaled res p q T : same_motion p q -> genTraj scaled res p T = genTraj scaled res q T.
Proof. intros S. unfold genTraj. rewrite (const_same p q T S). destruct S as (-> & _). reflexivity. Qed.

(** ** Fewer constraints *)
Lemma dot6_scal s H w : dot6 (vscal s (fst H), vscal s (snd H)) w = s * dot6 H w.
Proof. unfold dot6, vdot, vscal; cbn. ring. Qed.
Lemma norm6_scal s H : 0 < s -> norm6 (vscal s (fst H), vscal s (snd H)) = s * norm6 H.
Proof.
  intros Hs. unfold norm6. replace (dot6 _ _) with (s * s * dot6 H H) by (unfold dot6, vdot, vscal; cbn; ring).
  rewrite sqrt_mult_alt by nra. rewrite sqrt_square by lra. reflexivity.
Qed.
Lemma norm6_nonneg H : 0 <= norm6 H.
Proof. apply sqrt_pos. Qed.
Lemma giw_mass m g c a H : dot6 H (giw m g c a) = m * dot6 H (giw 1 g c a).
Proof. unfold dot6, giw, vdot, vscal, vcross, vsub; cbn. ring. Qed.

Lemma eases_contact_ok p q c d f t : eases_contact c d -> margin q <= margin p -> contact_ok p 0 c f t -> contact_ok q 0 d f t.
Proof.
  intros [HK HP] HM [K1 (ph & acc & E & D & C)]. split; [exact (HK _ K1)|].
  destruct (HP ph E) as (ph' & E' & M1 & M2 & G & R1). exists ph', acc. split; [exact E'|]. split; [exact D|].
  unfold cone_ok in *. rewrite Forall_forall in *. intros [K k] Hin. destruct (R1 K k Hin) as (H & h & HI & (s & Hs & F1 & F2) & Hle).
  specialize (C (H, h) HI). cbn [fst snd] in *. rewrite giw_mass in *. rewrite G.
  replace K with (vscal s (fst H), vscal s (snd H)) by (destruct K; cbn in *; congruence). rewrite dot6_scal, (norm6_scal s H Hs).
  pose proof (norm6_nonneg H) as NN. rewrite Rmult_assoc in C. apply Rmult_le_reg_l in C; [|exact M1].
  assert (C' : dot6 H (giw 1 (cp_gravity ph) (f t) acc) <= norm6 H * (k - margin q + 0)).
  { eapply Rle_trans; [exact C|]. apply Rmult_le_compat_l; [exact NN|lra]. }
  replace (cp_mass ph' * (s * norm6 H) * (k - margin q + 0)) with (cp_mass ph' * (s * (norm6 H * (k - margin q + 0)))) by ring.
  apply Rmult_le_compat_l; [lra|]. apply Rmult_le_compat_l; [lra|exact C'].
Qed.
Lemma eases_accel p q f t : (k_constraintAcceleration (constr q) = true ->
   k_constraintAcceleration (constr p) = true /\ k_maxAcceleration (constr p) <= k_maxAcceleration (constr q)) ->
  accel_ok p f t -> accel_ok q f t.
Proof.
  intros HA A Hq. destruct (HA Hq) as [Hp Hle]. destruct (A Hp) as (acc & D & (X & Y & Z)). exists acc. split; [exact D|].
  repeat split; lra.
Qed.
Lemma finer_sampled Ts m n i t : proper n -> finer m n -> sampled Ts n i t -> sampled Ts m i t.
Proof.
  destruct m as [dt|p], n as [dt'|p']; cbn; try tauto.
  - intros _ (k & Hk & ->) (Hi & [H|(j & H1 & H2)]); (split; [exact Hi|]); [left; exact H|right].
    exists (j * k)%nat. rewrite mult_INR. split; [rewrite H1; ring|exact H2].
  - intros Hp (k & Hk & ->) (j & d & Hj & Hd & Et). exists (k * j)%nat, d. split; [nia|]. split; [exact Hd|]. rewrite Et, !mult_INR.
    assert (0 < INR k) by (apply lt_0_INR; lia). assert (0 < INR p') by (apply lt_0_INR; lia). f_equal. field. lra.
Qed.
Lemma Forall2_nth_r {A B} (P : A -> B -> Prop) l l' i b : Forall2 P l l' -> nth_error l' i = Some b -> exists a, nth_error l i = Some a /\ P a b.
Proof.
  intros F. revert i. induction F as [|x y l l' H _ IH]; intros [|i]; cbn; try discriminate; [|apply IH].
  intros E. injection E as <-. exists x. auto.
Qed.
Lemma eases_feasible p q Ts m n f : eases p q -> proper n -> finer m n ->
  plan_feasible p (sampled Ts m) f -> plan_feasible q (sampled Ts n) f.
Proof.
  intros (_ & F2 & HM & HA) PR FI FE i d t Hd Ht. destruct (Forall2_nth_r _ _ _ i d F2 Hd) as (c & Hc & EC).
  destruct (FE i c t Hc (finer_sampled Ts m n i t PR FI Ht)) as [C A]. split; [exact (eases_contact_ok p q c d f t EC HM C)|exact (eases_accel p q f t HA A)].
Qed.

Section Compare.
  Variable scaled wg : bool.
  Variable quadprog : qp -> list R -> outcome (Z * list R * R).
  Variable glpk : lp -> outcome (Z * R * list R).
  Hypothesis QO : qp_solves quadprog.
  Hypothesis QS : qp_sound quadprog.
  Hypothesis LS : lp_sound glpk.
  Variable p q : problem.
  Variable Ts : list R.
  Hypothesis PLp : plannable p Ts.
  Hypothesis PLq : plannable q Ts.

  Lemma c91_eases m n ta r : eases p q -> proper m -> proper n -> finer m n -> cost_times Ts n ta -> cost_decides q Ts ta ->
    call scaled wg quadprog glpk p Ts m = Ok r -> rc_success r = true -> exists r' x x' s s',
    call scaled wg quadprog glpk q Ts n = Ok r' /\ rc_success r' = true /\ rc_x r = l3 x /\ rc_x r' = l3 x' /\
    plan_cost q ta x (cv_fun (rc_c r)) s /\ plan_cost q ta x' (cv_fun (rc_c r')) s' /\ s' <= s.
  Proof.
    intros EA PRm PRn FI CT CD E Hs. pose proof (proj1 EA) as SM.
    destruct (call_feasible scaled wg quadprog glpk p Ts PLp QS LS m r PRm E Hs) as ((_ & (x & Ex & Hcv) & _) & FE).
    rewrite (curve_same p q _ x SM) in Hcv. pose proof (eases_feasible p q Ts m n _ EA PRn FI FE) as FE'.
    destruct (call_opt scaled wg quadprog glpk QO q Ts PLq n ta x _ PRn CT CD Hcv FE') as (r' & x' & H & gg & _ & E' & Hs' & Hx' & (Hc' & _ & B) & _).
    destruct (call_rows scaled wg quadprog glpk q Ts PLq n ta PRn CT) as (Ab & _ & HT & _).
    destruct (cost_quad q Ts PLq ta HT CD) as (H' & gg' & K & _ & _ & _ & _ & _ & HK).
    pose proof (proj2 (HK x _ _ Hcv) eq_refl) as C1. pose proof (proj2 (HK x' _ _ Hc') eq_refl) as C2.
    exists r', x, x', (quad H' (l3 x) + 2 * rdot gg' (l3 x) + K), (quad H' (l3 x') + 2 * rdot gg' (l3 x') + K).
    repeat (split; [assumption|]). exact (B x _ _ _ Hcv FE' C2 C1).
  Qed.

  Lemma c91_same_1 m ta r : eases p q -> eases q p -> proper m -> cost_times Ts m ta -> cost_decides p Ts ta ->
    call scaled wg quadprog glpk p Ts m = Ok r -> rc_success r = true -> call scaled wg quadprog glpk q Ts m = Ok r.
  Proof.
    intros EA EB PR CT CD E Hs. pose proof (proj1 EA) as SM.
    assert (FI : finer m m). { destruct m as [dt|k]; cbn; exists 1%nat; (split; [lia|]); [cbn; ring|lia]. }
    destruct (call_feasible scaled wg quadprog glpk p Ts PLp QS LS m r PR E Hs) as ((_ & (x & Ex & Hcv) & _) & FE).
    destruct (call_opt scaled wg quadprog glpk QO p Ts PLp m ta x _ PR CT CD Hcv FE) as (r1 & x1 & H & gg & G1 & E1 & _ & Hx1 & B1 & T1).
    rewrite E in E1. injection E1 as <-. destruct B1 as (Hc1 & F1 & O1).
    assert (B1' : best q Ts m ta x1 (rc_c r)).
    { split; [rewrite <- (curve_same p q _ x1 SM); exact Hc1|]. split; [exact (eases_feasible p q Ts m m _ EA PR FI F1)|].
      intros y cvy s s' Hy Fy C1 C2. apply (O1 y cvy s s'); [rewrite (curve_same p q _ y SM); exact Hy|exact (eases_feasible q p Ts m m _ EB PR FI Fy)| |].
      - exact (cost_same q p ta x1 _ s (same_sym _ _ SM) C1).
      - exact (cost_same q p ta y _ s' (same_sym _ _ SM) C2). }
    pose proof (decides_same p q Ts ta SM CD) as CD'.
    destruct (call_opt scaled wg quadprog glpk QO q Ts PLq m ta x1 _ PR CT CD' (proj1 B1') (proj1 (proj2 B1'))) as (r2 & x2 & H2 & gg2 & G2 & E2 & _ & Hx2 & B2 & T2).
    destruct (best_unique scaled wg quadprog glpk q Ts PLq m ta x1 _ x2 _ PR CT CD' B1' B2) as [<- _].
    rewrite <- (gen_same p q _ _ _ _ SM) in G2. rewrite G1 in G2. injection G2 as <- <-.
    rewrite <- (traj_same scaled _ p q _ SM) in T2. rewrite T1 in T2. injection T2 as <-. exact E2.
  Qed.
End Compare.

Lemma c91_same scaled wg quadprog glpk : qp_solves quadprog -> qp_sound quadprog -> lp_sound glpk ->
  forall p q Ts m ta r, plannable p Ts -> plannable q Ts -> eases p q -> eases q p -> proper m -> cost_times Ts m ta -> cost_decides p Ts ta -> rc_success r = true ->
  (call scaled wg quadprog glpk p Ts m = Ok r <-> call scaled wg quadprog glpk q Ts m = Ok r).
Proof.
  intros QO QS LS p q Ts m ta r P1 P2 EA EB PR CT CD Hs. split; intros E.
  - exact (c91_same_1 scaled wg quadprog glpk QO QS LS p q Ts P1 P2 m ta r EA EB PR CT CD E Hs).
  - exact (c91_same_1 scaled wg quadprog glpk QO QS LS q p Ts P2 P1 m ta r EB EA PR CT (decides_same p q Ts ta (proj1 EA) CD) E Hs).
Qed.
