(** The same for the CoM planners. *)
From Coq Require Import FunctionalExtensionality.
From Verif Require Import Vec SpecBezier ModelData ModelDispatch ModelUtils ModelRows ModelCom ModelCont ModelSolver ModelTraj
  SpecCom SpecIgnore.
Open Scope R_scope.

Ltac com_cases p q Hin H :=
  let H1 := fresh in let H2 := fresh in let H3 := fresh in let H4 := fresh in
  destruct H as (H1 & H2 & H3 & H4 & H); cbv zeta in H;
  destruct p as [m1 m2 m3 m4 m5 m6 m7 m8 m9 m10 m11 [k1 k2 k3 k4] m12 m13], q as [n1 n2 n3 n4 n5 n6 n7 n8 n9 n10 n11 [h1 h2 h3 h4] n12 n13];
  unfold flag_of in *; cbn [k_flag constr contacts costFunction representation c0 c1 dc0 dc1 ddc0 ddc1 j0 j1] in *;
  injection H2 as -> -> -> ->; subst;
  unfold com_flags in Hin; cbn [In app] in Hin; repeat (destruct Hin as [Hin|Hin]; [symmetry in Hin|]); [..|contradiction]; subst;
  (let A := fresh "A" in let B := fresh "B" in let C := fresh "C" in let D := fresh "D" in let E := fresh "E" in let F := fresh "F" in
  let I := fresh "I" in let J := fresh "J" in
  destruct H as (A & B & C & D & E & F & I & J); subst;
  try (specialize (C eq_refl); subst); try (specialize (D (or_introl eq_refl)); subst); try (specialize (E eq_refl); subst); try (specialize (F eq_refl); subst); try (specialize (I eq_refl); subst); try (specialize (J eq_refl); subst)).

Lemma com_const p q T : In (flag_of p) (com_flags ++ [F_jerk]) -> same_com p q -> computeConstantWaypoints p T = computeConstantWaypoints q T.
Proof. intros Hin H. com_cases p q Hin H; reflexivity. Qed.
Lemma com_sym p q T : In (flag_of p) (com_flags ++ [F_jerk]) -> same_com p q -> computeConstantWaypointsSymbolic p T = computeConstantWaypointsSymbolic q T.
Proof. intros Hin H. com_cases p q Hin H; reflexivity. Qed.
Lemma com_w p q T : In (flag_of p) (com_flags ++ [F_jerk]) -> same_com p q -> computeWwaypoints p T = computeWwaypoints q T.
Proof. intros Hin H. com_cases p q Hin H; reflexivity. Qed.
Ltac step1 := match goal with |- context [bind ?a _] => destruct a; cbn [bind]; try reflexivity end.
Section Loops.
  Context (p q : problem) (Hc : contacts p = contacts q) (Hk : constr p = constr q).
  Lemma ig_num sw : forall n i cum a b, num_ineq_loop p sw n i cum a b = num_ineq_loop q sw n i cum a b.
  Proof. induction n as [|n IH]; intros; cbn [num_ineq_loop]; [reflexivity|]. rewrite Hc. repeat step1. apply IH. Qed.
  Lemma ig_updateH c : updateH p c = updateH q c.
  Proof. unfold updateH. rewrite Hk. reflexivity. Qed.
  Lemma ig_sw k w : forall sw s, stab_switches p k w sw s = stab_switches q k w sw s.
  Proof.
    induction sw as [|z sw IH]; intros; cbn [stab_switches]; [reflexivity|]. destruct (Z.eqb k z); [|apply IH]. destruct s as [[i m] st].
    rewrite Hc. step1. unfold switchContactPhase. rewrite ig_updateH. step1. apply IH.
  Qed.
  Lemma ig_stab g sw : forall ws k s, stab_loop p g sw k ws s = stab_loop q g sw k ws s.
  Proof.
    induction ws as [|w ws IH]; intros; cbn [stab_loop]; [reflexivity|]. destruct s as [[i m] st]. step1. rewrite ig_sw. step1. apply IH.
  Qed.
  Lemma ig_ksw k co : forall sw i s, kin_switches p k co i sw s = kin_switches q k co i sw s.
  Proof.
    induction sw as [|z sw IH]; intros; cbn [kin_switches]; [reflexivity|]. destruct (Z.eqb k z); [|apply IH]. rewrite Hc. repeat step1. apply IH.
  Qed.
  Lemma ig_kin sw : forall cs k s, kin_loop p sw k cs s = kin_loop q sw k cs s.
  Proof.
    induction cs as [|co cs IH]; intros; cbn [kin_loop]; [reflexivity|]. rewrite Hc. step1. step1. rewrite ig_ksw. step1. apply IH.
  Qed.
  Lemma ig_cont dd c ddc w : forall Ts cs s, cont_loop p dd c ddc w Ts cs s = cont_loop q dd c ddc w Ts cs s.
  Proof.
    induction Ts as [|d Ts IH]; intros; cbn [cont_loop]; [reflexivity|]. do 3 step1. destruct cs as [|ph cs]; [reflexivity|]. step1.
    rewrite ig_updateH, Hk. step1. destruct a3 as [[st f] n]. step1. apply IH.
  Qed.
End Loops.

Section Com.
  Context (p q : problem) (Hin : In (flag_of p) (com_flags ++ [F_jerk])) (H : same_com p q).
  Let Hc : contacts p = contacts q := proj1 H.
  Let Hk : constr p = constr q := proj1 (proj2 H).
  Lemma ig_flag : flag_of p = flag_of q.
  Proof. unfold flag_of. rewrite Hk. reflexivity. Qed.
  Lemma ig_acc T ta : computeDiscretizedAccelerationWaypoints p T ta = computeDiscretizedAccelerationWaypoints q T ta.
  Proof.
    unfold computeDiscretizedAccelerationWaypoints. rewrite (com_const p q T Hin H). step1.
    unfold evaluateAccelerationCurveAtTime. rewrite ig_flag. reflexivity.
  Qed.
  Lemma ig_rows Ts T ta : computeConstraintsOneStep p Ts T ta = computeConstraintsOneStep q Ts T ta.
  Proof.
    unfold computeConstraintsOneStep, constraintsOneStep_raw. destruct (stepIdPerPhase ta) as [sw| |]; cbn [bind]; try reflexivity.
    replace (computeNumIneq p Ts sw) with (computeNumIneq q Ts sw) by (unfold computeNumIneq; rewrite (ig_num p q Hc), Hk; reflexivity).
    destruct (computeNumIneq q Ts sw) as [n| |]; cbn [bind]; try reflexivity. destruct (n <? 0)%Z; [reflexivity|].
    replace (assignStabilityConstraints p ta T sw) with (assignStabilityConstraints q ta T sw).
    2:{ unfold assignStabilityConstraints, computeDiscretizedWwaypoints. rewrite (com_w p q T Hin H), Hc.
        apply functional_extensionality. intros st. do 3 step1. rewrite (ig_updateH p q Hk). step1. rewrite (ig_stab p q Hc Hk). reflexivity. }
    destruct (assignStabilityConstraints q ta T sw _) as [st| |]; cbn [bind]; try reflexivity.
    replace (assignKinematicConstraints p ta T sw st) with (assignKinematicConstraints q ta T sw st).
    2:{ unfold assignKinematicConstraints, computeDiscretizedWaypoints, evaluateCurveAtTime. rewrite (com_const p q T Hin H), ig_flag.
        step1. rewrite (ig_kin p q Hc). reflexivity. }
    destruct (assignKinematicConstraints q ta T sw st) as [st'| |]; cbn [bind]; try reflexivity.
    unfold assignAccelerationConstraints. rewrite ig_acc, Hk. reflexivity.
  Qed.
  Lemma ig_controws scaled Ts : computeConstraintsContinuous scaled p Ts = computeConstraintsContinuous scaled q Ts.
  Proof.
    unfold computeConstraintsContinuous, cont_raw, computeNumIneqContinuous, computeNumEqContinuous. cbv zeta.
    rewrite (com_sym p q _ Hin H), (com_w p q _ Hin H), Hc. replace (representation p) with (representation q) by (symmetry; apply H).
    replace (cont_loop p) with (cont_loop q); [reflexivity|].
    apply functional_extensionality; intros dd. apply functional_extensionality; intros c. apply functional_extensionality; intros ddc.
    apply functional_extensionality; intros w. apply functional_extensionality; intros Us. apply functional_extensionality; intros cs.
    apply functional_extensionality; intros s. symmetry. apply (ig_cont p q Hk).
  Qed.
  Lemma ig_cost Ts T ta n : genCostFunction p Ts T ta n = genCostFunction q Ts T ta n.
  Proof.
    unfold genCostFunction, cost_genCostFunction. pose proof H as H'. destruct H' as (_ & _ & Ef & _ & E0 & _ & _ & E1 & _). rewrite <- Ef.
    destruct (Z.eqb_spec (costFunction p) ACCELERATION); [unfold computeCostMinAcceleration; rewrite ig_acc; reflexivity|].
    destruct (Z.eqb_spec (costFunction p) DISTANCE_TRAVELED); [unfold computeCostMidPoint; rewrite E0, (E1 (or_intror e)); reflexivity|].
    destruct (Z.eqb_spec (costFunction p) TARGET_END_VELOCITY); [|reflexivity].
    unfold computeCostEndVelocity. rewrite <- ig_flag.
    assert (E : (flag_of p =? 0)%Z = false); [|rewrite E; reflexivity]. apply Z.eqb_neq. intros E.
    pose proof Hin as I. rewrite E in I. unfold com_flags in I. cbn [In app] in I. repeat (destruct I as [I|I]; [discriminate I|]). exact I.
  Qed.
  Lemma ig_gen scaled res T : genTraj scaled res p T = genTraj scaled res q T.
  Proof. unfold genTraj. rewrite (com_const p q T Hin H), ig_flag. reflexivity. Qed.
  Lemma c113_fixed scaled wg quadprog glpk Ts n :
    computeCOMTrajFixedSize scaled wg quadprog glpk p Ts n = computeCOMTrajFixedSize scaled wg quadprog glpk q Ts n.
  Proof.
    unfold computeCOMTrajFixedSize. rewrite ig_rows, ig_cost, Hc. destruct (negb _); [reflexivity|]. do 3 step1. apply ig_gen.
  Qed.
  Lemma c113_step scaled wg quadprog glpk Ts dt solver :
    computeCOMTraj scaled wg quadprog glpk p Ts dt solver = computeCOMTraj scaled wg quadprog glpk q Ts dt solver.
  Proof.
    unfold computeCOMTraj. rewrite Hc, ig_controws. destruct (negb _); [reflexivity|].
    destruct (Rlt_dec 0 dt).
    - destruct (computeDiscretizedTime Ts dt) as [ta| |]; cbn [bind]; try reflexivity. rewrite ig_rows. step1.
      destruct a as [[[[[? ?] ?] ?] ?] ?]. rewrite ig_cost. step1. step1. apply ig_gen.
    - step1. destruct a as [[[[[? ?] ?] ?] ?] ?]. rewrite ig_cost. step1. step1. apply ig_gen.
  Qed.
End Com.
