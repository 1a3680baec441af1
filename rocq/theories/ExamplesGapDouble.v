(** Cases that meet the hypotheses of the theorems of PropertiesGapDouble.v: standing still for phases of 1
    and 1/2, at a time between samples. *)
From Flocq Require Import Core BinarySingleNaN.
From Verif Require Import Vec SpecBezier SpecTime ModelData ModelDispatch SpecCom SpecCtr SpecTraj SpecDec SpecGap Double ModelDouble SpecDouble SpecDouble2 SpecGapDouble
  ProofDouble ProofDouble2 ProofDouble3 ProofDouble5 PropertiesDouble PropertiesDouble2 PropertiesGapDouble ExamplesDouble ExamplesCom ExamplesTraj ExamplesDec ExamplesGapEnd.
Open Scope R_scope.

Definition half_f : f64 := dec_f 1 2.
Definition st_Ts : list f64 := [f1; half_f].
Definition st_T : f64 := fadd f1 half_f.
Definition st_dt : f64 := dec_f 1 10.
Lemma half_val : B2R half_f = 1 / 2.
Proof.
  assert (E : half_f = @B754_finite 53 1024 false 4503599627370496 (-53) eq_refl) by (apply B2SF_inj; vm_compute; reflexivity).
  rewrite E. cbn [B2R cond_Zopp]. unfold F2R. cbn [Fnum Fexp bpow]. change (Z.pow_pos radix2 53) with (4503599627370496 * 2)%Z. rewrite mult_IZR. field.
Qed.
Lemma T_val : B2R st_T = 3 / 2.
Proof.
  assert (E : st_T = @B754_finite 53 1024 false 6755399441055744 (-52) eq_refl) by (apply B2SF_inj; vm_compute; reflexivity).
  rewrite E. cbn [B2R cond_Zopp]. unfold F2R. cbn [Fnum Fexp bpow]. change (Z.pow_pos radix2 52) with (4503599627370496)%Z. lra.
Qed.
Lemma st_end : end_f st_Ts (length st_Ts) = st_T.
Proof. apply B2SF_inj; vm_compute; reflexivity. Qed.
Lemma st_vals : map (fun d : f64 => B2R d) st_Ts = [1; 1 / 2].
Proof. cbn [st_Ts map]. rewrite f1_val, half_val. reflexivity. Qed.
Lemma st_posf : Forall posf st_Ts.
Proof.
  apply Forall_cons; [apply one_tenth|]. apply Forall_cons; [|apply Forall_nil]. split; [vm_compute; reflexivity|]. rewrite half_val. lra.
Qed.
Lemma T_posf : posf st_T.
Proof. split; [vm_compute; reflexivity|]. rewrite T_val. lra. Qed.
Lemma st_run : exists fuel ta, computeDiscretizedTime_f fuel st_Ts st_dt = Some ta.
Proof.
  destruct one_tenth as [_ Q]. pose proof tenth_ge as G. assert (F : is_finite (end_f st_Ts (length st_Ts)) = true) by (rewrite st_end; apply T_posf).
  assert (U : u53 <= / 100) by (unfold u53; apply Rinv_le_contravar; [lra|apply IZR_le; discriminate]).
  destruct (C76_ends st_Ts st_dt st_posf Q F) as (fuel & ta & H); [rewrite st_end, T_val; unfold st_dt; pose proof u53_pos; lra|].
  exists fuel, ta. apply H. lia.
Qed.

Example ex_C84_step : exists fuel ta rows, computeDiscretizedTime_f fuel st_Ts st_dt = Some ta /\
  constraints_f (st_pb ACCELERATION) st_Ts st_T ta = Ok rows /\ sat rows st_x /\
  exists i c, nth_error (contacts (st_pb ACCELERATION)) i = Some c /\
    contact_near (st_pb ACCELERATION) (gap_pos 3 (B2R st_T) 1 (gap_step (B2R st_T) (B2R st_dt)))
      (gap_wrench 10 3 (B2R st_T) 1 (gap_step (B2R st_T) (B2R st_dt))) c (cv_fun st_cv) (123 / 100).
Proof.
  destruct st_run as (fuel & ta & R). destruct one_tenth as [_ Q]. assert (F : is_finite (end_f st_Ts (length st_Ts)) = true) by (rewrite st_end; apply T_posf).
  assert (WP : well_posed (st_pb ACCELERATION) (map (fun d : f64 => B2R d) st_Ts)) by (rewrite st_vals; apply st_wp).
  assert (CV : com_curve (st_pb ACCELERATION) (B2R st_T) st_x = Ok st_cv) by (rewrite T_val, <- st_total; apply st_curve).
  destruct (C84_step (st_pb ACCELERATION) st_Ts st_T st_dt fuel ta WP st_posf T_posf Q F R _ 10 (st_same _) st_grav ltac:(cbn; tauto)) as (ev & rows & Ev & Cov & Er & H).
  destruct (C80_step (st_pb ACCELERATION) st_Ts st_T st_dt fuel ta WP st_posf T_posf Q F R _ (st_same _) ltac:(cbn; tauto)) as (ev' & bs & rows' & _ & _ & _ & _ & Er' & H').
  assert (rows' = rows) by congruence. subst rows'.
  assert (S : sat rows st_x) by (apply (H' st_x st_cv CV); intros i c b t Hc _ _; apply (st_feasible ACCELERATION (fun _ _ => True) i c (ev' t) Hc I)).
  exists fuel, ta, rows. split; [exact R|]. split; [exact Er|]. split; [exact S|].
  destruct (Cov ltac:(rewrite st_end; lra) (123 / 100) ltac:(rewrite T_val; lra)) as (i & Hi & B).
  destruct (nth_error (contacts (st_pb ACCELERATION)) i) as [c|] eqn:Hc; [|apply nth_error_None in Hc; change (length (contacts (st_pb ACCELERATION))) with (length st_Ts) in Hc; lia].
  exists i, c. split; [exact Hc|]. apply (H st_x st_cv 1 CV ltac:(lra) st_pts S i c (123 / 100) Hc B).
Qed.
Example ex_C84_step_decimal : exists fuel ta rows, computeDiscretizedTime_f fuel st_Ts st_dt = Some ta /\
  constraints_f (dc_pb ACCELERATION) st_Ts st_T ta = Ok rows /\ sat rows st_x /\
  exists i c, nth_error (contacts (dc_pb ACCELERATION)) i = Some c /\
    contact_near (dc_pb ACCELERATION) (gap_pos 5 (B2R st_T) 1 (gap_step (B2R st_T) (B2R st_dt)))
      (3 * (err_force 1 (B2R st_T) + err_moment 10 1 (B2R st_T)) + gap_wrench 10 5 (B2R st_T) 1 (gap_step (B2R st_T) (B2R st_dt))) c (cv_fun dc_cv) (123 / 100).
Proof.
  destruct st_run as (fuel & ta & R). destruct one_tenth as [_ Q]. assert (F : is_finite (end_f st_Ts (length st_Ts)) = true) by (rewrite st_end; apply T_posf).
  assert (WP : well_posed (dc_pb ACCELERATION) (map (fun d : f64 => B2R d) st_Ts)) by (rewrite st_vals; apply dc_wp).
  assert (CV : com_curve (dc_pb ACCELERATION) (B2R st_T) st_x = Ok dc_cv) by (rewrite T_val, <- st_total; apply dc_curve).
  pose proof (dc_within st_x st_in) as HM.
  destruct (C84_step_decimal (dc_pb ACCELERATION) st_Ts st_T st_dt fuel ta WP st_posf T_posf Q F R _ 10 (dc_same _) dg_within (dc_flag _)) as (ev & rows & Ev & Cov & Er & H).
  destruct (C80_step_decimal (dc_pb ACCELERATION) st_Ts st_T st_dt fuel ta WP st_posf T_posf Q F R _ 10 (dc_same _) dg_within (dc_flag _)) as (ev' & bs & rows' & _ & _ & _ & _ & Er' & H').
  assert (rows' = rows) by congruence. subst rows'.
  assert (S : sat rows st_x).
  { apply (proj2 (H' st_x dc_cv 1 CV HM)). intros i c b t Hc _ _.
    apply (dc_feasible ACCELERATION (fun _ _ => True) (- dec_slack 10 1 (B2R st_T))) with (i := i); [|exact Hc|exact I].
    pose proof (dc_small (B2R st_T) ltac:(rewrite T_val; lra)). lra. }
  exists fuel, ta, rows. split; [exact R|]. split; [exact Er|]. split; [exact S|].
  destruct (Cov ltac:(rewrite st_end; lra) (123 / 100) ltac:(rewrite T_val; lra)) as (i & Hi & B).
  destruct (nth_error (contacts (dc_pb ACCELERATION)) i) as [c|] eqn:Hc; [|apply nth_error_None in Hc; change (length (contacts (dc_pb ACCELERATION))) with (length st_Ts) in Hc; lia].
  exists i, c. split; [exact Hc|]. apply (H st_x dc_cv 1 CV ltac:(lra) HM S i c (123 / 100) Hc B).
Qed.

Lemma st_sizes : (Z.of_nat (length st_Ts) * Z.of_nat 7 < 2 ^ 53)%Z /\ total (map (fun d : f64 => B2R d) st_Ts) <= IZR (2 ^ 1000) /\
  (forall d, In d st_Ts -> / IZR (2 ^ 1022) <= B2R d / INR 7) /\ Rabs (B2R st_T - total (map (fun d : f64 => B2R d) st_Ts)) <= 0.
Proof.
  assert (N : / IZR (2 ^ 1022) <= / 100) by (apply Rinv_le_contravar; [lra|apply IZR_le; discriminate]).
  assert (N2 : 2 <= IZR (2 ^ 1000)) by (apply IZR_le; discriminate).
  split; [reflexivity|]. rewrite st_vals, T_val, st_total. split; [lra|]. split; [|rewrite Rminus_diag_eq, Rabs_R0; lra].
  intros d [<-|[<-|[]]]; rewrite ?f1_val, ?half_val; cbn [INR]; lra.
Qed.
Example ex_C84_fixed : exists rows, constraints_f (st_pb ACCELERATION) st_Ts st_T (computeDiscretizedTimeFixed_f st_T st_Ts 7) = Ok rows /\ sat rows st_x /\
  exists i c h, nth_error (contacts (st_pb ACCELERATION)) i = Some c /\
    contact_near (st_pb ACCELERATION) (gap_pos 3 (B2R st_T) 1 h) (gap_wrench 10 3 (B2R st_T) 1 h) c (cv_fun st_cv) (123 / 100).
Proof.
  destruct st_sizes as (A1 & A2 & A3 & A4).
  assert (WP : well_posed (st_pb ACCELERATION) (map (fun d : f64 => B2R d) st_Ts)) by (rewrite st_vals; apply st_wp).
  assert (CV : com_curve (st_pb ACCELERATION) (B2R st_T) st_x = Ok st_cv) by (rewrite T_val, <- st_total; apply st_curve).
  destruct (C84_fixed (st_pb ACCELERATION) st_Ts st_T 7 0 WP st_posf T_posf ltac:(lia) A1 A2 A3 A4 _ 10 (st_same _) st_grav ltac:(cbn; tauto)) as (ev & rows & Ev & Cov & Er & H).
  destruct (C80_fixed (st_pb ACCELERATION) st_Ts st_T 7 WP st_posf T_posf ltac:(lia) A1 A2 A3 _ (st_same _) ltac:(cbn; tauto)) as (ev' & rows' & _ & Er' & H').
  assert (rows' = rows) by congruence. subst rows'.
  assert (S : sat rows st_x) by (apply (H' st_x st_cv CV); intros i c j t z Hc _ _; apply (st_feasible ACCELERATION (fun _ _ => True) i c (ev' t) Hc I)).
  exists rows. split; [exact Er|]. split; [exact S|].
  destruct (Cov (123 / 100) ltac:(rewrite T_val; lra)) as (i & s & zs & e & ze & Hi & Es & Ee & B).
  destruct (nth_error (contacts (st_pb ACCELERATION)) i) as [c|] eqn:Hc; [|apply nth_error_None in Hc; change (length (contacts (st_pb ACCELERATION))) with (length st_Ts) in Hc; lia].
  destruct (nth_error st_Ts i) as [d|] eqn:Hd; [|apply nth_error_None in Hd; lia].
  eexists i, c, _. split; [exact Hc|]. apply (H st_x st_cv 1 CV ltac:(lra) st_pts S i c d s zs e ze (123 / 100) Hc Hd Es Ee B).
Qed.
Example ex_C84_fixed_decimal : exists rows, constraints_f (dc_pb ACCELERATION) st_Ts st_T (computeDiscretizedTimeFixed_f st_T st_Ts 7) = Ok rows /\ sat rows st_x.
Proof.
  destruct st_sizes as (A1 & A2 & A3 & A4).
  assert (WP : well_posed (dc_pb ACCELERATION) (map (fun d : f64 => B2R d) st_Ts)) by (rewrite st_vals; apply dc_wp).
  assert (CV : com_curve (dc_pb ACCELERATION) (B2R st_T) st_x = Ok dc_cv) by (rewrite T_val, <- st_total; apply dc_curve).
  destruct (C84_fixed_decimal (dc_pb ACCELERATION) st_Ts st_T 7 0 WP st_posf T_posf ltac:(lia) A1 A2 A3 A4 _ 10 (dc_same _) dg_within (dc_flag _)) as (ev & rows & _ & _ & Er & _).
  destruct (C80_fixed_decimal (dc_pb ACCELERATION) st_Ts st_T 7 WP st_posf T_posf ltac:(lia) A1 A2 A3 _ 10 (dc_same _) dg_within (dc_flag _)) as (ev' & rows' & _ & Er' & H').
  assert (rows' = rows) by congruence. subst rows'. exists rows. split; [exact Er|].
  apply (proj2 (H' st_x dc_cv 1 CV (dc_within st_x st_in))). intros i c j t z Hc _ _.
  apply (dc_feasible ACCELERATION (fun _ _ => True) (- dec_slack 10 1 (B2R st_T))) with (i := i); [|exact Hc|exact I].
  pose proof (dc_small (B2R st_T) ltac:(rewrite T_val; lra)). lra.
Qed.
