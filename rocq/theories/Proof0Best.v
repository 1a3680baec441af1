(** Comparing plans of the zero-step problem (C100, C101). *)
From Coq Require Import List Reals Lra Lia ZArith.
From Verif Require Import Vec SpecBezier ModelData ModelDispatch ModelCont ModelSolver ModelTraj Model0Step
  SpecCom SpecWp SpecCtr SpecSolver SpecTraj Spec0Step SpecMix Spec0Best ProofCurve Proof0Step Proof0Step2.
Import ListNotations.
Open Scope R_scope.

Lemma z_row_mix useAng r l x xL y yL :
  rdot (z_row_list useAng r) (z_vec useAng (mixed l x y) (mixed l xL yL)) =
  (1 - l) * rdot (z_row_list useAng r) (z_vec useAng x xL) + l * rdot (z_row_list useAng r) (z_vec useAng y yL).
Proof.
  unfold z_row_list, z_vec, mixed. destruct useAng; destruct r as [rx rL b], x, xL, y, yL; unfold l3, vadd, vscal; cbn; ring.
Qed.
Lemma z_satX_mix useAng Ab l x xL y yL : 0 <= l <= 1 -> satX (z_ineqs useAng Ab) (z_vec useAng x xL) -> satX (z_ineqs useAng Ab) (z_vec useAng y yL) ->
  satX (z_ineqs useAng Ab) (z_vec useAng (mixed l x y) (mixed l xL yL)).
Proof.
  intros Hl. unfold satX, z_ineqs. rewrite !Forall_map, !Forall_forall. intros A B r Hr. cbn [fst snd]. rewrite z_row_mix.
  specialize (A r Hr). specialize (B r Hr). cbn [fst snd] in A, B. nra.
Qed.
Lemma z_value_mid useAng c0 l0 x xL y yL : z_value useAng c0 l0 (mixed (1/2) x y) (mixed (1/2) xL yL) =
  (z_value useAng c0 l0 x xL + z_value useAng c0 l0 y yL) / 2
  - (z_weight useAng * vnorm2 (vsub x y) + if useAng then 6 / 5 * vnorm2 (vsub xL yL) else 0) / 4.
Proof.
  unfold z_value, mixed, z_weight. destruct useAng, c0, l0, x, xL, y, yL; unfold vnorm2, vdot, vsub, vadd, vscal; cbn; field.
Qed.
Lemma z_value_mix useAng c0 l0 l x xL y yL : z_value useAng c0 l0 (mixed l x y) (mixed l xL yL) =
  (1 - l) * z_value useAng c0 l0 x xL + l * z_value useAng c0 l0 y yL
  - l * (1 - l) * (z_weight useAng * vnorm2 (vsub x y) + if useAng then 6 / 5 * vnorm2 (vsub xL yL) else 0).
Proof.
  unfold z_value, mixed, z_weight. destruct useAng, c0, l0, x, xL, y, yL; unfold vnorm2, vdot, vsub, vadd, vscal; cbn; field.
Qed.
Lemma vn2_pos a : 0 <= vnorm2 a.
Proof. destruct a as [a b c]. unfold vnorm2, vdot; cbn. nra. Qed.
Lemma vn2_eq a b : vnorm2 (vsub a b) <= 0 -> a = b.
Proof.
  destruct a as [a1 a2 a3], b as [b1 b2 b3]. unfold vnorm2, vdot, vsub; cbn. intros H.
  pose proof (Rle_0_sqr (a1 - b1)) as A. pose proof (Rle_0_sqr (a2 - b2)) as B. pose proof (Rle_0_sqr (a3 - b3)) as C. unfold Rsqr in *.
  f_equal; apply Rminus_diag_uniq, Rsqr_0_uniq; unfold Rsqr; lra.
Qed.

Section Best0.
  Variables (p : problem) (Ts : list R) (ct : contact) (ph : cphase) (T : R).
  Hypothesis WP : z_posed p Ts ct ph T.

  Lemma z_feasible_mix dt l x xL y yL : z_sampling T dt -> 0 <= l <= 1 -> z_feasible p ct ph T dt x xL -> z_feasible p ct ph T dt y yL ->
    z_feasible p ct ph T dt (mixed l x y) (mixed l xL yL).
  Proof.
    intros HN Hl A B. destruct (z_ineqs_ok p Ts ct ph T dt WP HN) as (Ab & _ & HS). apply HS. apply z_satX_mix; [exact Hl| |]; apply HS; assumption.
  Qed.
  Lemma z_crit_ex x xL : z_criterion p T x xL (z_value (useAngularMomentum p) (c0 p) (l0 p) x xL).
  Proof. apply z_criterion_iff; [apply WP|reflexivity]. Qed.

  Lemma z_least_unique dt x xL y yL : z_sampling T dt -> z_least p ct ph T dt x xL -> z_least p ct ph T dt y yL ->
    x = y /\ (useAngularMomentum p = true -> xL = yL).
  Proof.
    intros HN [Fx Lx] [Fy Ly]. assert (Hh : 0 <= 1/2 <= 1) by lra. pose proof (z_feasible_mix dt (1/2) x xL y yL HN Hh Fx Fy) as Fm.
    pose proof (Lx _ _ _ _ Fm (z_crit_ex _ _) (z_crit_ex _ _)) as A. pose proof (Ly _ _ _ _ Fm (z_crit_ex _ _) (z_crit_ex _ _)) as B.
    rewrite z_value_mid in A, B. pose proof (vn2_pos (vsub x y)) as P. pose proof (vn2_pos (vsub xL yL)) as Q.
    assert (W : 0 < z_weight (useAngularMomentum p)) by (unfold z_weight; destruct (useAngularMomentum p); lra).
    pose proof (Rmult_le_pos _ _ (Rlt_le _ _ W) P) as P'.
    split; [|intros E; rewrite E in *]; apply vn2_eq.
    - destruct (Rle_lt_dec (vnorm2 (vsub x y)) 0) as [H|H]; [exact H|]. pose proof (Rmult_lt_0_compat _ _ W H). destruct (useAngularMomentum p); lra.
    - lra.
  Qed.

  Lemma z_found dt x xL wg quadprog glpk : qp_solves quadprog -> z_sampling T dt -> z_feasible p ct ph T dt x xL ->
    exists x' xL' r, (cost <- computeRealCost p (z_vec (useAngularMomentum p) x' xL') ;;
     c <- z_C_of_T p T (z_vec (useAngularMomentum p) x' xL') ;;
     dL <- z_dL_of_T p T (z_vec (useAngularMomentum p) x' xL') ;;
     Ok (Result0 true cost (z_vec (useAngularMomentum p) x' xL') c dL)) = Ok r /\
    solve0step wg quadprog glpk p Ts dt = Ok r /\ z_plan p T r x' xL' /\ z_least p ct ph T dt x' xL'.
  Proof.
    intros QO HN [HW HG]. destruct (z_best wg quadprog glpk p Ts ct ph T dt WP x xL QO HN HW HG) as (r & x' & xL' & E & HP & W' & G' & O).
    exists x', xL', r. split; [|split; [exact E|split; [exact HP|]]].
    - pose proof (z_ineqs_ok p Ts ct ph T dt WP HN) as (Ab & EA & _). rewrite (solve0_unfold wg quadprog glpk p Ts ct ph T dt WP Ab EA) in E.
      destruct (solve_noeq _ _ _ _ _ _ _ _ _) as [res| |]; try discriminate E. cbn [bind] in E. destruct HP as (S & X & _).
      destruct (rd_success res); [|injection E as <-; discriminate S].
      destruct (computeRealCost p (rd_x res)) as [cost| |] eqn:E1; try discriminate E. cbn [bind] in E.
      destruct (z_C_of_T p T (rd_x res)) as [c| |] eqn:E2; try discriminate E. cbn [bind] in E.
      destruct (z_dL_of_T p T (rd_x res)) as [dL| |] eqn:E3; try discriminate E. cbn [bind] in E. injection E as <-. cbn [r0_x] in X. rewrite <- X, E1, E2, E3. reflexivity.
    - split; [split; assumption|]. intros y yL v w [F1 F2] C1 C2. exact (O y yL w v F1 F2 C1 C2).
  Qed.
  Lemma z_vec_eq x xL y yL : x = y -> (useAngularMomentum p = true -> xL = yL) -> z_vec (useAngularMomentum p) x xL = z_vec (useAngularMomentum p) y yL.
  Proof. intros <- H. unfold z_vec. destruct (useAngularMomentum p); [rewrite H; reflexivity|reflexivity]. Qed.

  Lemma c100_found dt x xL wg quadprog glpk : qp_solves quadprog -> z_sampling T dt -> z_least p ct ph T dt x xL ->
    exists r, solve0step wg quadprog glpk p Ts dt = Ok r /\ z_plan p T r x xL.
  Proof.
    intros QO HN L. destruct (z_found dt x xL wg quadprog glpk QO HN (proj1 L)) as (x' & xL' & r & _ & E & HP & L').
    destruct (z_least_unique dt x xL x' xL' HN L L') as [<- EL]. exists r. split; [exact E|].
    destruct (useAngularMomentum p) eqn:EA; [rewrite EL by reflexivity; exact HP|].
    revert HP. unfold z_plan. rewrite EA. exact (fun H => H).
  Qed.
  Lemma c100_returned dt r wg quadprog glpk : qp_solves quadprog -> qp_sound quadprog -> z_sampling T dt ->
    solve0step wg quadprog glpk p Ts dt = Ok r -> r0_success r = true -> exists x xL, z_plan p T r x xL /\ z_least p ct ph T dt x xL.
  Proof.
    intros QO QS HN E S. destruct (z_answer wg quadprog glpk p Ts ct ph T dt WP r QS HN E) as [[H _]|(x & xL & HP & HW & HG & _)]; [congruence|].
    destruct (z_found dt x xL wg quadprog glpk QO HN (conj HW HG)) as (x' & xL' & r' & _ & E' & HP' & L'). rewrite E in E'. injection E' as <-.
    exists x', xL'. split; assumption.
  Qed.
  Lemma c100_one dt r wg1 wg2 qp1 qp2 lp1 lp2 : qp_solves qp1 -> qp_sound qp1 -> qp_solves qp2 -> z_sampling T dt -> r0_success r = true ->
    solve0step wg1 qp1 lp1 p Ts dt = Ok r -> solve0step wg2 qp2 lp2 p Ts dt = Ok r.
  Proof.
    intros Q1 S1 Q2 HN S E. destruct (c100_returned dt r wg1 qp1 lp1 Q1 S1 HN E S) as (x & xL & _ & L).
    destruct (z_found dt x xL wg1 qp1 lp1 Q1 HN (proj1 L)) as (x1 & l1 & r1 & B1 & E1 & _ & L1).
    destruct (z_found dt x xL wg2 qp2 lp2 Q2 HN (proj1 L)) as (x2 & l2 & r2 & B2 & E2 & _ & L2).
    destruct (z_least_unique dt x1 l1 x2 l2 HN L1 L2) as [EX EL]. rewrite (z_vec_eq _ _ _ _ EX EL) in B1. rewrite B1 in B2. injection B2 as ->.
    rewrite E in E1. injection E1 as ->. exact E2.
  Qed.
  Lemma c100_iff dt r wg1 wg2 qp1 qp2 lp1 lp2 : qp_solves qp1 -> qp_sound qp1 -> qp_solves qp2 -> qp_sound qp2 -> z_sampling T dt -> r0_success r = true ->
    (solve0step wg1 qp1 lp1 p Ts dt = Ok r <-> solve0step wg2 qp2 lp2 p Ts dt = Ok r).
  Proof. intros Q1 S1 Q2 S2 HN S. split; [apply (c100_one dt r wg1 wg2)|apply (c100_one dt r wg2 wg1)]; assumption. Qed.

  (** samplings *)
  Lemma z_refine du dt x xL : z_refines T du dt -> z_feasible p ct ph T du x xL -> z_feasible p ct ph T dt x xL.
  Proof.
    destruct WP as (_ & _ & HT & WF & Hph). intros HR [[HC HD] HG]. split; [|exact HG]. destruct HR as [H|(N & k & HN & N1 & K1 & HU)].
    - specialize (HC H). split; [intros _; exact HC|]. intros N _ N1 i Hi. apply z_ctrl_stable; [exact HT|exact HC|].
      assert (P : 0 < INR N) by (apply lt_0_INR; lia). pose proof (pos_INR i) as Q. pose proof (le_INR i N Hi) as L. split.
      + apply Rmult_le_pos; [exact Q|]. apply Rmult_le_pos; [lra|apply Rlt_le, Rinv_0_lt_compat, P].
      + apply (Rmult_le_reg_r (INR N)); [exact P|]. replace (INR i * (T / INR N) * INR N) with (INR i * T) by (field; lra). nra.
    - split.
      + intros H0. exfalso. destruct H0 as [H0|H0]; [destruct HN; lra|]. destruct HN as (_ & [A _] & _), H0 as (_ & [_ B] & _). cbn in B.
        apply le_INR in N1. cbn in N1. lra.
      + intros M HM M1 i Hi. assert (M = N) as ->.
        { destruct HN as (_ & [A B] & _), HM as (_ & [C D] & _). assert (L1 : INR N < INR (S M)) by (rewrite S_INR; lra). assert (L2 : INR M < INR (S N)) by (rewrite S_INR; lra).
          apply INR_lt in L1, L2. lia. }
        assert (KN : (1 <= k * N)%nat) by nia. assert (KI : (k * i <= k * N)%nat) by nia. pose proof (HD (k * N)%nat HU KN (k * i)%nat KI) as H.
        replace (INR i * (T / INR N)) with (INR (k * i) * (T / INR (k * N))); [exact H|].
        rewrite !mult_INR. field. split; apply not_0_INR; lia.
  Qed.
  Lemma c101_refined du dt r wg quadprog glpk : qp_solves quadprog -> qp_sound quadprog -> z_sampling T du -> z_sampling T dt -> z_refines T du dt ->
    solve0step wg quadprog glpk p Ts du = Ok r -> r0_success r = true ->
    exists x xL r' x' xL' v v', z_plan p T r x xL /\ z_feasible p ct ph T dt x xL /\
      solve0step wg quadprog glpk p Ts dt = Ok r' /\ z_plan p T r' x' xL' /\ z_criterion p T x xL v /\ z_criterion p T x' xL' v' /\ v' <= v.
  Proof.
    intros QO QS HU HN HR E S. destruct (c100_returned du r wg quadprog glpk QO QS HU E S) as (x & xL & HP & [HF _]). pose proof (z_refine du dt x xL HR HF) as F.
    destruct (z_found dt x xL wg quadprog glpk QO HN F) as (x' & xL' & r' & _ & E' & HP' & [_ O]).
    exists x, xL, r', x', xL'. eexists _, _. split; [exact HP|]. split; [exact F|]. split; [exact E'|]. split; [exact HP'|].
    split; [apply z_crit_ex|]. split; [apply z_crit_ex|]. apply (O x xL); [exact F|apply z_crit_ex|apply z_crit_ex].
  Qed.
  Lemma c101_mix dt l x xL y yL : z_sampling T dt -> 0 <= l <= 1 -> z_feasible p ct ph T dt x xL -> z_feasible p ct ph T dt y yL ->
    (forall t, z_motion (c0 p) (dc0 p) T (mixed l x y) t = mixed l (z_motion (c0 p) (dc0 p) T x t) (z_motion (c0 p) (dc0 p) T y t)) /\
    (forall t, z_momentum (l0 p) T (mixed l xL yL) t = mixed l (z_momentum (l0 p) T xL t) (z_momentum (l0 p) T yL t)) /\
    z_feasible p ct ph T dt (mixed l x y) (mixed l xL yL) /\
    forall u v w, z_criterion p T x xL u -> z_criterion p T y yL v -> z_criterion p T (mixed l x y) (mixed l xL yL) w -> w <= (1 - l) * u + l * v.
  Proof.
    intros HN Hl A B. split; [|split; [|split]].
    - intros t. unfold z_motion, mixed. destruct x, y, (c0 p), (dc0 p). bez_norm. generalize (t / T). intros s. unfold vadd, vscal; cbn. f_equal; ring.
    - intros t. unfold z_momentum, mixed. destruct xL, yL, (l0 p). bez_norm. generalize (t / T). intros s. unfold vadd, vscal, vzero; cbn. f_equal; ring.
    - apply z_feasible_mix; assumption.
    - intros u v w Hu Hv Hw. assert (HT : 0 < T) by apply WP. rewrite z_criterion_iff in Hu, Hv, Hw by exact HT. subst u v w. rewrite z_value_mix.
      assert (0 <= l * (1 - l) * (z_weight (useAngularMomentum p) * vnorm2 (vsub x y) + (if useAngularMomentum p then 6 / 5 * vnorm2 (vsub xL yL) else 0))); [|lra].
      pose proof (vn2_pos (vsub x y)). pose proof (vn2_pos (vsub xL yL)).
      apply Rmult_le_pos; [nra|]. unfold z_weight. destruct (useAngularMomentum p); nra.
  Qed.
End Best0.
