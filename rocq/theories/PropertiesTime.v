(** Property theorems C10-C13 and C48.  Vocabulary: SpecTime.v, SpecWp.v. *)
From Coq Require Import Permutation.
From Verif Require Import Vec ModelData ModelUtils ModelRows ModelCom SpecTime SpecWp ProofTime ProofTime2 ProofWp.
Open Scope R_scope.

(** C10 *)
Theorem C10_fixed_discretisation : forall Ts p, (1 <= p)%nat -> Ts <> [] ->
  length (computeDiscretizedTimeFixed Ts p) = (length Ts * p + 1)%nat /\
  nth_error (computeDiscretizedTimeFixed Ts p) 0 = Some (0, 0%Z) /\
  (forall i j d, nth_error Ts i = Some d -> (1 <= j <= p)%nat ->
     nth_error (computeDiscretizedTimeFixed Ts p) (i * p + j) =
     Some (phase_start Ts i + INR j / INR p * d, Z.of_nat i)) /\
  nth_error (computeDiscretizedTimeFixed Ts p) (length Ts * p) =
    Some (total Ts, (Z.of_nat (length Ts) - 1)%Z) /\
  (Forall (Rle 0) Ts -> forall k a b,
     nth_error (computeDiscretizedTimeFixed Ts p) k = Some a ->
     nth_error (computeDiscretizedTimeFixed Ts p) (S k) = Some b -> fst a <= fst b).
Proof. exact c10_ok. Qed.
Print Assumptions C10_fixed_discretisation.

(** C11: the loop ends (any iteration budget from [enough Ts dt] on gives the
    same result) and the result is, phase by phase, [step_samples]. *)
Theorem C11_step_discretisation : forall Ts dt, 0 < dt -> Forall (Rlt 0) Ts -> exists bs,
  computeDiscretizedTime Ts dt = Ok (tagged bs) /\ length bs = length Ts /\
  (forall i b, nth_error bs i = Some b ->
     (exists n, steps_to (phase_start Ts i) (phase_end Ts i) dt n /\
        b = step_samples (phase_start Ts i) (phase_end Ts i) dt n) /\
     (forall t, In t b -> phase_start Ts i <= t <= phase_end Ts i) /\
     (forall k t t', nth_error b k = Some t -> nth_error b (S k) = Some t' -> t < t' <= t + dt)) /\
  (forall fuel, (enough Ts dt <= fuel)%nat -> computeDiscretizedTime_fuel fuel Ts dt = Some (tagged bs)).
Proof. exact c11_full. Qed.
Print Assumptions C11_step_discretisation.

(** With dt <= 0 and a phase of positive duration no budget is enough. *)
Theorem C11_nonpositive_step_diverges : forall Ts dt, dt <= 0 -> Exists (Rlt 0) Ts ->
  forall fuel, computeDiscretizedTime_fuel fuel Ts dt = None.
Proof. exact c11_diverges. Qed.
Print Assumptions C11_nonpositive_step_diverges.

(** C12 *)
Theorem C12_switches_fixed : forall Ts p, (1 <= p)%nat -> Ts <> [] -> exists sw,
  stepIdPerPhase (computeDiscretizedTimeFixed Ts p) = Ok sw /\ length sw = length Ts /\
  forall i s, nth_error sw i = Some s -> last_tagged (computeDiscretizedTimeFixed Ts p) i s.
Proof. exact c12_fixed. Qed.
Print Assumptions C12_switches_fixed.

Theorem C12_switches_step : forall Ts dt, 0 < dt -> Forall (Rlt 0) Ts -> Ts <> [] -> exists ta sw,
  computeDiscretizedTime Ts dt = Ok ta /\ stepIdPerPhase ta = Ok sw /\ length sw = length Ts /\
  forall i s, nth_error sw i = Some s -> last_tagged ta i s.
Proof. exact c12_step. Qed.
Print Assumptions C12_switches_step.

(** C13 *)
Theorem C13_normalize : forall l : list (list R * R), exists z l', NormalizeX l = Ok (z, l') /\
  length l' = length l /\ (forall x, satX l x <-> satX l' x) /\
  (z = (-1)%Z /\ (forall x, ~ satX l x) \/
   exists m l0, z = Z.of_nat m /\ Permutation l l0 /\ Forall2 unit_row l0 l' /\
     Forall (fun r => rdot (fst r) (fst r) = 1) (firstn m l') /\
     Forall (fun r => Forall (eq 0) (fst r) /\ 0 <= snd r) (skipn m l')).
Proof. exact c13_ok. Qed.
Print Assumptions C13_normalize.

(** C48 *)
Theorem C48_skew : forall x v, mvmul (skew x) v = vcross x v.
Proof. exact skew_cross. Qed.
Print Assumptions C48_skew.

Theorem C48_waypoint_add : forall w1 w2, wt_wf w1 -> wt_wf w2 ->
  (same_dims w1 w2 -> exists w, wt_add w1 w2 = Ok w /\ entrywise Rplus w w1 w2) /\
  (~ same_dims w1 w2 -> wt_add w1 w2 = Throw).
Proof. exact c48_add. Qed.
Print Assumptions C48_waypoint_add.

Theorem C48_waypoint_sub : forall w1 w2, wt_wf w1 -> wt_wf w2 ->
  (same_dims w1 w2 -> exists w, wt_sub w1 w2 = Ok w /\ entrywise Rminus w w1 w2) /\
  (~ same_dims w1 w2 -> wt_sub w1 w2 = Throw).
Proof. exact c48_sub. Qed.
Print Assumptions C48_waypoint_sub.

Theorem C48_waypoint_scale : forall k w, wt_wf w -> entrywise (fun a _ => k * a) (wt_scal k w) w w.
Proof. exact c48_scal. Qed.
Print Assumptions C48_waypoint_scale.

Theorem C48_initwp : forall r c, wt_wf (initwp r c) /\ wt_rows (initwp r c) = r /\ wt_cols (initwp r c) = c /\
  forall x i, (i < r)%nat -> wt_at (initwp r c) x i = 0.
Proof. exact c48_init. Qed.
Print Assumptions C48_initwp.
