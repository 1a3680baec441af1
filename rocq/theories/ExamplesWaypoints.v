(** Concrete inputs meeting the hypotheses of the theorems of
    PropertiesWaypoints.v, and concrete results. *)
From Verif Require Import Vec SpecBezier ModelData ModelWaypoints ModelWaypointsJerk ModelDispatch
  SpecCom ProofCurve ProofWaypoints ProofWaypoints2 ProofWaypointsErr ProofDispatch PropertiesWaypoints.
Open Scope R_scope.

(** Moving start and end, gravity, one contact phase. *)
Definition ex_phase : cphase := CPhase [] 50 (V3 0 0 (-981/100)) [].
Definition ex_contact : contact := Contact (Some ex_phase) [] [] [] [].
Definition ex_problem (flag : Z) (v1 : vec3) : problem :=
  Problem [ex_contact] (V3 1 2 3) (V3 1 0 (-1)) (V3 0 1 2) vzero (V3 4 5 6) v1 (V3 (-1) 0 1) vzero
    vzero false (Constraints flag false 10 0) 1 1.

Example ex_C01_C04 : forall flag, In flag com_flags -> flag <> F_capture ->
  exists cv, com_curve (ex_problem flag (V3 2 1 0)) 2 (V3 7 8 9) = Ok cv.
Proof.
  intros flag H Hne. apply C01_curve_exists; [exact H| |lra].
  intros E. exfalso. apply Hne. exact E.
Qed.

Example ex_C05_capture :
  exists cv, com_curve (ex_problem F_capture vzero) 2 (V3 7 8 9) = Ok cv /\
    front_gravity (ex_problem F_capture vzero) = Ok (V3 0 0 (-981/100)).
Proof.
  destruct (C01_curve_exists (ex_problem F_capture vzero) 2 (V3 7 8 9)) as (cv & H);
    [simpl; tauto|reflexivity|lra|]. exists cv. split; [exact H|reflexivity].
Qed.

(** The control points for the first flag. *)
Example ex_curve_c1 : exists cv, com_curve (ex_problem F_c1 (V3 2 1 0)) 2 (V3 7 8 9) = Ok cv /\
  bc_pts cv = [V3 1 2 3; V3 (5/3) 2 (7/3); V3 7 8 9; V3 4 5 6].
Proof.
  eexists. split.
  - unfold com_curve. cbn. unfold mk_bezier. destruct (Rle_dec 2 0); [lra|reflexivity].
  - cbn [bc_pts]. repeat (apply f_equal2; [apply v3_eq; simpl; lra|]). reflexivity.
Qed.

Example ex_C06 : exists cv, com_curve (ex_problem F_acc_all (V3 2 1 0)) 2 (V3 7 8 9) = Ok cv /\
  Forall (within 10) (bc_pts cv) /\ within 10 (V3 0 0 (-981/100)).
Proof.
  eexists. split.
  - unfold com_curve. cbn. unfold mk_bezier. destruct (Rle_dec 2 0); [lra|reflexivity].
  - cbn [bc_pts]. split.
    + repeat (apply Forall_cons; [apply within_coord; simpl; lra|]). apply Forall_nil.
    + apply within_coord; simpl; lra.
Qed.

Example ex_C07 : computeConstantWaypoints (ex_problem F_capture (V3 1 0 0)) 2 = Throw.
Proof.
  apply C07_capture_throws; [reflexivity|]. cbn. intros H. injection H. lra.
Qed.

(** A flag that is not documented: end position only. *)
Example ex_C08 : ~ In (flag_of (ex_problem END_POS vzero)) (com_flags ++ effector_flags).
Proof. intros H. in_cases H; discriminate H. Qed.

Example ex_C09 : exists pi, computeConstantWaypoints (ex_problem F_x5 (V3 2 1 0)) 2 = Ok pi /\ length pi = 13%nat.
Proof. eexists. split; reflexivity. Qed.
