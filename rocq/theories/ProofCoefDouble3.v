(** The coefficients computed in doubles against the curve through the same points. *)
From Flocq Require Import Core BinarySingleNaN.
From Coq Require Import List Lia Lra.
From Verif Require Import Vec SpecBezier ModelData ModelDispatch SpecCom Double ModelPtsDouble ModelCoefDouble SpecDouble SpecPtsDouble
  ProofCurve ProofWaypoints ProofWaypoints2 ProofDouble ProofPtsDouble ProofPtsDouble7 ProofCoefDouble ProofCoefDouble2.
Import ListNotations.
Open Scope R_scope.

Definition npts (flag : Z) : nat :=
  if Z.eqb flag F_dc1_c1 then 5 else if Z.eqb flag F_acc_c1 then 5 else if Z.eqb flag F_acc_dc1_c1 then 6 else if Z.eqb flag F_acc_all then 7 else 4.
Definition axp (fax : fvec -> f64) (pf : list fvec) (i : nat) : f64 := fax (nth i pf fv_zero).
Definition axr (ax : vec3 -> R) (pf : list fvec) (i : nat) : R := ax (fv_R (nth i pf fv_zero)).
Definition Kpos (n : nat) : Z := 3 * 2 ^ (2 * Z.of_nat n + 1).
Definition Kacc (n : nat) : Z := 3 * 2 ^ (3 * Z.of_nat n - 1).

Ltac list_pf H := cbn in H; repeat match type of H with
  | length ?l = S ?n => destruct l as [|? l]; [discriminate H|]; cbn [length] in H; apply eq_add_S in H
  | length ?l = 0%nat => destruct l; [|discriminate H] end; clear H.

Ltac step_flag := cbn [find_flag]; repeat match goal with |- context [Z.eqb ?a ?b] => let v := eval vm_compute in (Z.eqb a b) in change (Z.eqb a b) with v end; cbn [bind].

Definition pos_form (flag : Z) (pf : list fvec) (a b : ex) : Prop :=
  good false (npts flag) (Kpos (npts flag - 1)) a b = true /\
  (forall t, evaluateCurveAtTime_f flag pf t = Ok (evF t f0 (axp fx pf) a, FV (evF t f0 (axp fx pf) b) (evF t f0 (axp fy pf) b) (evF t f0 (axp fz pf) b))) /\
  (forall x, exists P, length P = npts flag /\ (forall T, 0 < T -> computeBezierCurve flag T (map fv_R pf) x = Ok (BCurve P T)) /\
    forall ax s, axis ax -> evR s 0 (axr ax pf) a * ax x + evR s 0 (axr ax pf) b = ax (bez3 P s)).
Definition acc_form (flag : Z) (pf : list fvec) (a b : ex) : Prop :=
  good true (npts flag) (Kacc (npts flag - 1)) a b = true /\
  (forall T t, let al := fdiv (of_Z 1) (fmul T T) in evaluateAccelerationCurveAtTime_f flag pf T t =
     Ok (evF t al (axp fx pf) a, FV (evF t al (axp fx pf) b) (evF t al (axp fy pf) b) (evF t al (axp fz pf) b))) /\
  (forall x, exists P, length P = npts flag /\ (forall T, 0 < T -> computeBezierCurve flag T (map fv_R pf) x = Ok (BCurve P T)) /\
    forall ax s T, T <> 0 -> axis ax -> evR s (/ T ^ 2) (axr ax pf) a * ax x + evR s (/ T ^ 2) (axr ax pf) b = ax (bez3 (hodo_n 2 T P) s)).

Lemma pos_F_c1 pf : length pf = npts F_c1 -> pos_form F_c1 pf pos_c0_dc0_c1_a pos_c0_dc0_c1_b.
Proof.
  intros H. list_pf H. split; [vm_compute; reflexivity|]. split.
  { intros; unfold evaluateCurveAtTime_f; step_flag; cbv beta iota zeta delta [c0_dc0_c1_evaluateCurveAtTime_f get nth_error bind axp nth evF pos_c0_dc0_c1_a pos_c0_dc0_c1_b fv_add fv_sub fv_scal fx fy fz]; reflexivity. }
  intros x. eexists. split; [|split; [intros T HT; cbn; apply mk_bezier_ok, HT|]]; [reflexivity|].
  intros ax s [->|[->| ->]]; unfold axr, pos_c0_dc0_c1_a, pos_c0_dc0_c1_b; cbn [evR nth]; bez_norm; vsimp; ring.
Qed.
Lemma acc_F_c1 pf : length pf = npts F_c1 -> acc_form F_c1 pf acc_c0_dc0_c1_a acc_c0_dc0_c1_b.
Proof.
  intros H. list_pf H. split; [vm_compute; reflexivity|]. split.
  { intros; unfold evaluateAccelerationCurveAtTime_f; step_flag; cbv beta iota zeta delta [c0_dc0_c1_evaluateAccelerationCurveAtTime_f get nth_error bind axp nth evF acc_c0_dc0_c1_a acc_c0_dc0_c1_b fv_add fv_sub fv_scal fx fy fz]; reflexivity. }
  intros x. eexists. split; [|split; [intros T HT; cbn; apply mk_bezier_ok, HT|]]; [reflexivity|].
  intros ax s T HT [->|[->| ->]]; unfold axr, acc_c0_dc0_c1_a, acc_c0_dc0_c1_b; cbn [evR nth]; hodo_vals; bez_norm; vsimp; field; exact HT.
Qed.
Lemma pos_F_capture pf : length pf = npts F_capture -> pos_form F_capture pf pos_c0_dc0_dc1_a pos_c0_dc0_dc1_b.
Proof.
  intros H. list_pf H. split; [vm_compute; reflexivity|]. split.
  { intros; unfold evaluateCurveAtTime_f; step_flag; cbv beta iota zeta delta [c0_dc0_dc1_evaluateCurveAtTime_f get nth_error bind axp nth evF pos_c0_dc0_dc1_a pos_c0_dc0_dc1_b fv_add fv_sub fv_scal fx fy fz]; reflexivity. }
  intros x. eexists. split; [|split; [intros T HT; cbn; apply mk_bezier_ok, HT|]]; [reflexivity|].
  intros ax s [->|[->| ->]]; unfold axr, pos_c0_dc0_dc1_a, pos_c0_dc0_dc1_b; cbn [evR nth]; bez_norm; vsimp; ring.
Qed.
Lemma acc_F_capture pf : length pf = npts F_capture -> acc_form F_capture pf acc_c0_dc0_dc1_a acc_c0_dc0_dc1_b.
Proof.
  intros H. list_pf H. split; [vm_compute; reflexivity|]. split.
  { intros; unfold evaluateAccelerationCurveAtTime_f; step_flag; cbv beta iota zeta delta [c0_dc0_dc1_evaluateAccelerationCurveAtTime_f get nth_error bind axp nth evF acc_c0_dc0_dc1_a acc_c0_dc0_dc1_b fv_add fv_sub fv_scal fx fy fz]; reflexivity. }
  intros x. eexists. split; [|split; [intros T HT; cbn; apply mk_bezier_ok, HT|]]; [reflexivity|].
  intros ax s T HT [->|[->| ->]]; unfold axr, acc_c0_dc0_dc1_a, acc_c0_dc0_dc1_b; cbn [evR nth]; hodo_vals; bez_norm; vsimp; field; exact HT.
Qed.
Lemma pos_F_dc1_c1 pf : length pf = npts F_dc1_c1 -> pos_form F_dc1_c1 pf pos_c0_dc0_dc1_c1_a pos_c0_dc0_dc1_c1_b.
Proof.
  intros H. list_pf H. split; [vm_compute; reflexivity|]. split.
  { intros; unfold evaluateCurveAtTime_f; step_flag; cbv beta iota zeta delta [c0_dc0_dc1_c1_evaluateCurveAtTime_f get nth_error bind axp nth evF pos_c0_dc0_dc1_c1_a pos_c0_dc0_dc1_c1_b fv_add fv_sub fv_scal fx fy fz]; reflexivity. }
  intros x. eexists. split; [|split; [intros T HT; cbn; apply mk_bezier_ok, HT|]]; [reflexivity|].
  intros ax s [->|[->| ->]]; unfold axr, pos_c0_dc0_dc1_c1_a, pos_c0_dc0_dc1_c1_b; cbn [evR nth]; bez_norm; vsimp; ring.
Qed.
Lemma acc_F_dc1_c1 pf : length pf = npts F_dc1_c1 -> acc_form F_dc1_c1 pf acc_c0_dc0_dc1_c1_a acc_c0_dc0_dc1_c1_b.
Proof.
  intros H. list_pf H. split; [vm_compute; reflexivity|]. split.
  { intros; unfold evaluateAccelerationCurveAtTime_f; step_flag; cbv beta iota zeta delta [c0_dc0_dc1_c1_evaluateAccelerationCurveAtTime_f get nth_error bind axp nth evF acc_c0_dc0_dc1_c1_a acc_c0_dc0_dc1_c1_b fv_add fv_sub fv_scal fx fy fz]; reflexivity. }
  intros x. eexists. split; [|split; [intros T HT; cbn; apply mk_bezier_ok, HT|]]; [reflexivity|].
  intros ax s T HT [->|[->| ->]]; unfold axr, acc_c0_dc0_dc1_c1_a, acc_c0_dc0_dc1_c1_b; cbn [evR nth]; hodo_vals; bez_norm; vsimp; field; exact HT.
Qed.
Lemma pos_F_acc pf : length pf = npts F_acc -> pos_form F_acc pf pos_c0_dc0_ddc0_a pos_c0_dc0_ddc0_b.
Proof.
  intros H. list_pf H. split; [vm_compute; reflexivity|]. split.
  { intros; unfold evaluateCurveAtTime_f; step_flag; cbv beta iota zeta delta [c0_dc0_ddc0_evaluateCurveAtTime_f get nth_error bind axp nth evF pos_c0_dc0_ddc0_a pos_c0_dc0_ddc0_b fv_add fv_sub fv_scal fx fy fz]; reflexivity. }
  intros x. eexists. split; [|split; [intros T HT; cbn; apply mk_bezier_ok, HT|]]; [reflexivity|].
  intros ax s [->|[->| ->]]; unfold axr, pos_c0_dc0_ddc0_a, pos_c0_dc0_ddc0_b; cbn [evR nth]; bez_norm; vsimp; ring.
Qed.
Lemma acc_F_acc pf : length pf = npts F_acc -> acc_form F_acc pf acc_c0_dc0_ddc0_a acc_c0_dc0_ddc0_b.
Proof.
  intros H. list_pf H. split; [vm_compute; reflexivity|]. split.
  { intros; unfold evaluateAccelerationCurveAtTime_f; step_flag; cbv beta iota zeta delta [c0_dc0_ddc0_evaluateAccelerationCurveAtTime_f get nth_error bind axp nth evF acc_c0_dc0_ddc0_a acc_c0_dc0_ddc0_b fv_add fv_sub fv_scal fx fy fz]; reflexivity. }
  intros x. eexists. split; [|split; [intros T HT; cbn; apply mk_bezier_ok, HT|]]; [reflexivity|].
  intros ax s T HT [->|[->| ->]]; unfold axr, acc_c0_dc0_ddc0_a, acc_c0_dc0_ddc0_b; cbn [evR nth]; hodo_vals; bez_norm; vsimp; field; exact HT.
Qed.
Lemma pos_F_acc_c1 pf : length pf = npts F_acc_c1 -> pos_form F_acc_c1 pf pos_c0_dc0_ddc0_c1_a pos_c0_dc0_ddc0_c1_b.
Proof.
  intros H. list_pf H. split; [vm_compute; reflexivity|]. split.
  { intros; unfold evaluateCurveAtTime_f; step_flag; cbv beta iota zeta delta [c0_dc0_ddc0_c1_evaluateCurveAtTime_f get nth_error bind axp nth evF pos_c0_dc0_ddc0_c1_a pos_c0_dc0_ddc0_c1_b fv_add fv_sub fv_scal fx fy fz]; reflexivity. }
  intros x. eexists. split; [|split; [intros T HT; cbn; apply mk_bezier_ok, HT|]]; [reflexivity|].
  intros ax s [->|[->| ->]]; unfold axr, pos_c0_dc0_ddc0_c1_a, pos_c0_dc0_ddc0_c1_b; cbn [evR nth]; bez_norm; vsimp; ring.
Qed.
Lemma acc_F_acc_c1 pf : length pf = npts F_acc_c1 -> acc_form F_acc_c1 pf acc_c0_dc0_ddc0_c1_a acc_c0_dc0_ddc0_c1_b.
Proof.
  intros H. list_pf H. split; [vm_compute; reflexivity|]. split.
  { intros; unfold evaluateAccelerationCurveAtTime_f; step_flag; cbv beta iota zeta delta [c0_dc0_ddc0_c1_evaluateAccelerationCurveAtTime_f get nth_error bind axp nth evF acc_c0_dc0_ddc0_c1_a acc_c0_dc0_ddc0_c1_b fv_add fv_sub fv_scal fx fy fz]; reflexivity. }
  intros x. eexists. split; [|split; [intros T HT; cbn; apply mk_bezier_ok, HT|]]; [reflexivity|].
  intros ax s T HT [->|[->| ->]]; unfold axr, acc_c0_dc0_ddc0_c1_a, acc_c0_dc0_ddc0_c1_b; cbn [evR nth]; hodo_vals; bez_norm; vsimp; field; exact HT.
Qed.
Lemma pos_F_acc_dc1_c1 pf : length pf = npts F_acc_dc1_c1 -> pos_form F_acc_dc1_c1 pf pos_c0_dc0_ddc0_dc1_c1_a pos_c0_dc0_ddc0_dc1_c1_b.
Proof.
  intros H. list_pf H. split; [vm_compute; reflexivity|]. split.
  { intros; unfold evaluateCurveAtTime_f; step_flag; cbv beta iota zeta delta [c0_dc0_ddc0_dc1_c1_evaluateCurveAtTime_f get nth_error bind axp nth evF pos_c0_dc0_ddc0_dc1_c1_a pos_c0_dc0_ddc0_dc1_c1_b fv_add fv_sub fv_scal fx fy fz]; reflexivity. }
  intros x. eexists. split; [|split; [intros T HT; cbn; apply mk_bezier_ok, HT|]]; [reflexivity|].
  intros ax s [->|[->| ->]]; unfold axr, pos_c0_dc0_ddc0_dc1_c1_a, pos_c0_dc0_ddc0_dc1_c1_b; cbn [evR nth]; bez_norm; vsimp; ring.
Qed.
Lemma acc_F_acc_dc1_c1 pf : length pf = npts F_acc_dc1_c1 -> acc_form F_acc_dc1_c1 pf acc_c0_dc0_ddc0_dc1_c1_a acc_c0_dc0_ddc0_dc1_c1_b.
Proof.
  intros H. list_pf H. split; [vm_compute; reflexivity|]. split.
  { intros; unfold evaluateAccelerationCurveAtTime_f; step_flag; cbv beta iota zeta delta [c0_dc0_ddc0_dc1_c1_evaluateAccelerationCurveAtTime_f get nth_error bind axp nth evF acc_c0_dc0_ddc0_dc1_c1_a acc_c0_dc0_ddc0_dc1_c1_b fv_add fv_sub fv_scal fx fy fz]; reflexivity. }
  intros x. eexists. split; [|split; [intros T HT; cbn; apply mk_bezier_ok, HT|]]; [reflexivity|].
  intros ax s T HT [->|[->| ->]]; unfold axr, acc_c0_dc0_ddc0_dc1_c1_a, acc_c0_dc0_ddc0_dc1_c1_b; cbn [evR nth]; hodo_vals; bez_norm; vsimp; field; exact HT.
Qed.
Lemma pos_F_acc_all pf : length pf = npts F_acc_all -> pos_form F_acc_all pf pos_c0_dc0_ddc0_ddc1_dc1_c1_a pos_c0_dc0_ddc0_ddc1_dc1_c1_b.
Proof.
  intros H. list_pf H. split; [vm_compute; reflexivity|]. split.
  { intros; unfold evaluateCurveAtTime_f; step_flag; cbv beta iota zeta delta [c0_dc0_ddc0_ddc1_dc1_c1_evaluateCurveAtTime_f get nth_error bind axp nth evF pos_c0_dc0_ddc0_ddc1_dc1_c1_a pos_c0_dc0_ddc0_ddc1_dc1_c1_b fv_add fv_sub fv_scal fx fy fz]; reflexivity. }
  intros x. eexists. split; [|split; [intros T HT; cbn; apply mk_bezier_ok, HT|]]; [reflexivity|].
  intros ax s [->|[->| ->]]; unfold axr, pos_c0_dc0_ddc0_ddc1_dc1_c1_a, pos_c0_dc0_ddc0_ddc1_dc1_c1_b; cbn [evR nth]; bez_norm; vsimp; ring.
Qed.
Lemma acc_F_acc_all pf : length pf = npts F_acc_all -> acc_form F_acc_all pf acc_c0_dc0_ddc0_ddc1_dc1_c1_a acc_c0_dc0_ddc0_ddc1_dc1_c1_b.
Proof.
  intros H. list_pf H. split; [vm_compute; reflexivity|]. split.
  { intros; unfold evaluateAccelerationCurveAtTime_f; step_flag; cbv beta iota zeta delta [c0_dc0_ddc0_ddc1_dc1_c1_evaluateAccelerationCurveAtTime_f get nth_error bind axp nth evF acc_c0_dc0_ddc0_ddc1_dc1_c1_a acc_c0_dc0_ddc0_ddc1_dc1_c1_b fv_add fv_sub fv_scal fx fy fz]; reflexivity. }
  intros x. eexists. split; [|split; [intros T HT; cbn; apply mk_bezier_ok, HT|]]; [reflexivity|].
  intros ax s T HT [->|[->| ->]]; unfold axr, acc_c0_dc0_ddc0_ddc1_dc1_c1_a, acc_c0_dc0_ddc0_ddc1_dc1_c1_b; cbn [evR nth]; hodo_vals; bez_norm; vsimp; field; exact HT.
Qed.

Lemma pos_cases flag pf : In flag com_flags -> length pf = npts flag -> exists a b, pos_form flag pf a b.
Proof.
  intros H L. in_cases H; subst flag.
  - eexists _, _. apply pos_F_c1, L.
  - eexists _, _. apply pos_F_capture, L.
  - eexists _, _. apply pos_F_dc1_c1, L.
  - eexists _, _. apply pos_F_acc, L.
  - eexists _, _. apply pos_F_acc_c1, L.
  - eexists _, _. apply pos_F_acc_dc1_c1, L.
  - eexists _, _. apply pos_F_acc_all, L.
Qed.
Lemma acc_cases flag pf : In flag com_flags -> length pf = npts flag -> exists a b, acc_form flag pf a b.
Proof.
  intros H L. in_cases H; subst flag.
  - eexists _, _. apply acc_F_c1, L.
  - eexists _, _. apply acc_F_capture, L.
  - eexists _, _. apply acc_F_dc1_c1, L.
  - eexists _, _. apply acc_F_acc, L.
  - eexists _, _. apply acc_F_acc_c1, L.
  - eexists _, _. apply acc_F_acc_dc1_c1, L.
  - eexists _, _. apply acc_F_acc_all, L.
Qed.
