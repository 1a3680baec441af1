(** C96: a cost that does not depend on the free point. *)
From Coq Require Import List Lia Lra.
From Verif Require Import Vec SpecBezier SpecTime SpecWp ModelData ModelDispatch ModelUtils ModelCom ModelCont ModelSolver ModelTraj ModelQp
  SpecCom SpecCtr SpecTraj SpecSolver SpecEnd SpecBest ProofBezier ProofCurve ProofTime ProofWaypoints ProofWaypoints2 ProofSolver ProofCom2 ProofCom3 ProofTraj ProofTraj2 ProofTraj3 ProofBest ProofDepends.
Import ListNotations.
Open Scope R_scope.

Lemma cost_flat p Ts ta x y cvx cvy s s' : well_posed p Ts -> ~ acc_depends p Ts ta ->
  com_curve p (total Ts) x = Ok cvx -> com_curve p (total Ts) y = Ok cvy ->
  sum_acc2 (cv_fun cvx) ta s -> sum_acc2 (cv_fun cvy) ta s' -> s = s'.
Proof.
  intros WP ND Hx Hy (as1 & F1 & ->) (as2 & F2 & ->). f_equal. f_equal.
  assert (G : forall l l1 l2, (forall tp, In tp l -> In tp ta) -> Forall2 (fun (tp : R * Z) a => is_deriv_n 2 (cv_fun cvx) (fst tp) a) l l1 ->
    Forall2 (fun (tp : R * Z) a => is_deriv_n 2 (cv_fun cvy) (fst tp) a) l l2 -> l1 = l2).
  { induction l as [|tp l IH]; intros l1 l2 HI A B; inversion A; inversion B; subst; [reflexivity|]. f_equal; [|apply IH; [intros q Hq; apply HI; right; exact Hq|assumption|assumption]].
    destruct (v3_dec y0 y1) as [E|N]; [exact E|exfalso]. apply ND. exists tp, x, y, cvx, cvy, y0, y1. split; [apply HI; left; reflexivity|]. repeat (split; [assumption|]). exact N. }
  exact (G ta as1 as2 (fun _ h => h) F1 F2).
Qed.
Lemma some_within g : exists G, within G g.
Proof.
  exists (Rmax (Rabs (vx g)) (Rmax (Rabs (vy g)) (Rabs (vz g)))). unfold within.
  pose proof (Rmax_l (Rabs (vx g)) (Rmax (Rabs (vy g)) (Rabs (vz g)))). pose proof (Rmax_r (Rabs (vx g)) (Rmax (Rabs (vy g)) (Rabs (vz g)))).
  pose proof (Rmax_l (Rabs (vy g)) (Rabs (vz g))). pose proof (Rmax_r (Rabs (vy g)) (Rabs (vz g))). lra.
Qed.
Lemma steps_UB q k : steps q k UB = UB.
Proof. destruct k; reflexivity. Qed.

Lemma c96_undefined p Ts m ta : well_posed p Ts -> (exists g, same_gravity p g) -> flag_of p = F_acc_all -> costFunction p = ACCELERATION ->
  proper m -> cost_times Ts m ta -> ~ acc_depends p Ts ta ->
  (forall x y cvx cvy s s', com_curve p (total Ts) x = Ok cvx -> com_curve p (total Ts) y = Ok cvy ->
     plan_cost p ta x (cv_fun cvx) s -> plan_cost p ta y (cv_fun cvy) s' -> s = s') /\
  forall scaled wg mem glpk, call scaled wg (solve_quadprog mem) glpk p Ts m = UB.
Proof.
  intros WP (g & SG) EF HC PR CT ND. destruct (some_within g) as [G HG].
  assert (Hf : In (flag_of p) dec_w_flags) by (rewrite EF; right; left; reflexivity).
  split.
  { intros x y cvx cvy s s' Hx Hy [[E _]|[_ C1]]; [rewrite HC in E; discriminate E|]. intros [[E _]|[_ C2]]; [rewrite HC in E; discriminate E|].
    exact (cost_flat p Ts ta x y cvx cvy s s' WP ND Hx Hy C1 C2). }
  intros scaled wg mem glpk.
  assert (EC : times_of Ts ta /\ exists Ab, call scaled wg (solve_quadprog mem) glpk p Ts m =
    (Hg <- genCostFunction p Ts (total Ts) ta 3 ;;
     res <- solve wg (solve_quadprog mem) glpk (mat3cols Ab) (map snd Ab) (MX 3 []) [] (fst Hg) (snd Hg) (repeat 0 3) [] [] SOLVER_QUADPROG ;;
     genTraj scaled res p (total Ts))).
  { destruct m as [dt|q]; cbn [proper cost_times call] in *.
    - destruct (c15_step_dec p Ts dt g G WP PR SG HG Hf) as (ta' & Ab & Et & EA & _). rewrite CT in Et. injection Et as <-.
      split; [exact (step_times_of Ts dt ta PR (wp_pos _ _ WP) CT)|]. exists Ab. exact (traj_step scaled wg _ glpk p Ts WP dt ta Ab PR CT EA).
    - subst ta. destruct (c15_fixed_dec p Ts q g G WP PR SG HG Hf) as (Ab & EA & _).
      split; [exact (fixed_times_of Ts q PR (wp_ne _ _ WP) (wp_pos _ _ WP))|]. exists Ab. exact (traj_fixed scaled wg _ glpk p Ts WP q Ab EA). }
  destruct EC as (HT & Ab & ->).
  destruct (c22_acc p Ts ta 0 WP HT HC) as (H & gg & K & E & LH & FH & Lg & HK). cbn [Nat.add] in E. rewrite E. cbn [bind fst snd].
  assert (V : forall x, quad H (l3 x) + 2 * rdot gg (l3 x) = 0).
  { intros x. pose proof (total_posd p Ts WP) as TP.
    destruct (com_curve_total p (total Ts) x (proj1 WP) (proj1 (proj2 WP)) TP) as [cvx Hx]. destruct (com_curve_total p (total Ts) vzero (proj1 WP) (proj1 (proj2 WP)) TP) as [cv0 H0].
    destruct (HK x cvx [] Hx eq_refl) as (s & Ss & Es). destruct (HK vzero cv0 [] H0 eq_refl) as (s0 & S0 & E0).
    rewrite app_nil_r in Es, E0. rewrite (cost_flat p Ts ta x vzero cvx cv0 s s0 WP ND Hx H0 Ss S0) in Es. rewrite <- E0 in Es.
    destruct H as [|[|? [|? [|? [|? ?]]]] [|[|? [|? [|? [|? ?]]]] [|[|? [|? [|? [|? ?]]]] [|? ?]]]]; try discriminate LH; try (exfalso; repeat (inversion FH as [|? ? F0 FH0]; subst; try discriminate F0; clear FH; rename FH0 into FH); fail).
    all: cbn [length Nat.add] in *.
    all: destruct gg as [|? [|? [|? [|? ?]]]]; try discriminate Lg.
    all: unfold quad, l3, vzero in *; cbn [map rdot vx vy vz] in *; lra. }
  assert (H00 : nth 0 (nth 0 H []) 0 = 0).
  { pose proof (V (V3 1 0 0)) as A. pose proof (V (V3 (-1) 0 0)) as B.
    destruct H as [|r H]; [discriminate LH|]. inversion FH as [|? ? F0 F1]; subst. destruct r as [|a r]; [discriminate F0|]. destruct gg as [|b gg]; [discriminate Lg|].
    unfold quad, l3 in A, B; cbn [map rdot vx vy vz nth] in *.
    assert (Z1 : forall w, rdot w [0; 0] = 0) by (intros w; destruct w as [|w1 [|w2 [|w3 w]]]; cbn [rdot]; ring).
    rewrite !Z1 in A, B. lra. }
  destruct (c37_ok (mat3cols Ab) (map snd Ab) (MX 3 []) [] H gg (repeat 0 3) []) as (q & EH & Eg & _ & HE).
  { apply mat3cols_wf. } { unfold mat3cols; cbn [mx_rows]. now rewrite !map_length. } { left; reflexivity. }
  rewrite HE. enough (solve_quadprog mem q (repeat 0 3) = UB) as -> by reflexivity.
  unfold solve_quadprog, execution, solve_init, eqp_of; cbn [e_n e_H].
  rewrite Eg, Lg, EH. cbn [chol Nat.add]. change (mat_of H 0%nat 0%nat) with (nth 0 (nth 0 H []) 0). rewrite H00.
  destruct (Rlt_dec 0 0) as [F|_]; [lra|].
  cbn [bind]. rewrite steps_UB. reflexivity.
Qed.

Lemma c96_witness p d : well_posed p [d] -> flag_of p = F_acc_all -> ~ acc_depends p [d] (computeDiscretizedTimeFixed [d] 1).
Proof.
  intros WP EF. rewrite (c96_seventh p [d] _ WP EF). pose proof (total_posd p [d] WP) as HT.
  intros (tp & HI & H). apply H. rewrite (fixed_eq [d] 1 ltac:(lia) ltac:(discriminate)) in HI.
  cbn in HI. cbn [total] in *. destruct HI as [<-|[<-|[]]]; cbn [fst]; field; lra.
Qed.
Lemma c96_ends p d : well_posed p [d] -> (exists g, same_gravity p g) -> flag_of p = F_acc_all -> costFunction p = ACCELERATION ->
  forall scaled wg mem glpk, computeCOMTrajFixedSize scaled wg (solve_quadprog mem) glpk p [d] 1 = UB.
Proof.
  intros WP SG EF HC. exact (proj2 (c96_undefined p [d] (PerPhase 1) _ WP SG EF HC (le_n 1) eq_refl (c96_witness p d WP EF))).
Qed.
Lemma c96_decides p Ts m ta : plannable p Ts -> costFunction p = DISTANCE_TRAVELED \/ costFunction p = ACCELERATION ->
  proper m -> cost_times Ts m ta -> cost_decides p Ts ta.
Proof.
  intros (WP & _ & Hf) [HC|HC] PR CT; [left; exact HC|right; split; [exact HC|]]. apply (c96_six p Ts m ta WP); [|exact PR|exact CT].
  intros E. rewrite E in Hf. cbn [In exact_w_flags] in Hf. repeat (destruct Hf as [Hf|Hf]; [discriminate Hf|]). exact Hf.
Qed.
