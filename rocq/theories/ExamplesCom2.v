(** Concrete inputs for the theorems of PropertiesCom2.v: two phases of different gravities; standing still. *)
From Verif Require Import Vec SpecBezier SpecTime ModelData ModelDispatch ModelUtils ModelRows ModelCom ModelCont ModelTraj
  SpecCom SpecCtr SpecCont SpecTraj ProofCom3 PropertiesCom2 ExamplesTraj.
Open Scope R_scope.

Example ex_C46_step : well_posed (w46 (-1)) [1; 1] /\ front_gravity (w46 (-1)) = Ok (V3 0 0 (-1)) /\ In (flag_of (w46 (-1))) exact_w_flags /\
  ~ same_gravity (w46 (-1)) (V3 0 0 (-1)).
Proof.
  split; [apply w46_wp|]. split; [reflexivity|]. split; [cbn; tauto|]. intros H.
  specialize (H _ _ (or_intror (or_introl eq_refl)) eq_refl). injection H; lra.
Qed.
Example ex_C47_step : exists x cv, well_posed (st_pb ACCELERATION) [1; 1/2] /\ same_gravity (st_pb ACCELERATION) (V3 0 0 (-981/100)) /\
  In (flag_of (st_pb ACCELERATION)) exact_w_flags /\ com_curve (st_pb ACCELERATION) (total [1; 1/2]) x = Ok cv /\
  forall i c t, nth_error (contacts (st_pb ACCELERATION)) i = Some c -> sampled_step [1; 1/2] (1/5) i t ->
    contact_ok (st_pb ACCELERATION) 0 c (cv_fun cv) t.
Proof.
  exists st_x, st_cv. split; [apply st_wp|]. split; [apply st_same|]. split; [cbn; tauto|]. split; [apply st_curve|].
  intros i c t Hc Ht. apply (st_feasible ACCELERATION (sampled_step [1; 1/2] (1/5)) i c t Hc Ht).
Qed.
