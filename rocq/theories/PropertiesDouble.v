(** Property theorems C75 to C79: the times of the planners in IEEE double arithmetic.
    Vocabulary: Double.v (the operations), SpecDouble.v, SpecTime.v. *)
From Flocq Require Import Core BinarySingleNaN.
From Verif Require Import Vec SpecTime Double ModelDouble SpecDouble ProofDouble ProofDouble2 ProofDouble3 ProofDouble4 ProofDouble5.
Open Scope R_scope.

(** C75: the parameters at which curves over [0,1] are sampled, i * (1/n) for i = 0..n, are accepted by
    the Bernstein polynomials, never decrease, start at 0, and are i/n up to two roundings. *)
Theorem C75_samples : forall n, (1 <= n <= 2147483647)%Z ->
  (forall i, (0 <= i <= n)%Z ->
     is_finite (sample_f n i) = true /\ bern_accepts (sample_f n i) = true /\
     Rabs (B2R (sample_f n i) - IZR i / IZR n) <= 2 * u53) /\
  B2R (sample_f n 0) = 0 /\
  (forall i j, (0 <= i <= j)%Z -> (j <= n)%Z -> B2R (sample_f n i) <= B2R (sample_f n j)) /\
  1 - u53 <= B2R (sample_f n n) <= 1.
Proof. exact samples_ok. Qed.
Print Assumptions C75_samples.
(** The normalised time of a sample of a motion of duration [T] is accepted. *)
Theorem C75_unit : forall T t : f64, posf T -> is_finite t = true -> 0 <= B2R t ->
  is_finite (unit_time T t) = true /\ bern_accepts (unit_time T t) = true.
Proof. exact (fun T t HT Ft Pt => unit_time_ok T t (proj1 HT) Ft (proj2 HT) Pt). Qed.
Print Assumptions C75_unit.
(** The last parameter need not be 1. *)
Theorem C75_refuted : exists n, (1 <= n <= 2147483647)%Z /\ B2R (sample_f n n) < 1.
Proof. exact samples_refuted. Qed.
Print Assumptions C75_refuted.

(** C76: computeDiscretizedTime.  Whenever it returns, each phase is sampled from its start to its end. *)
Theorem C76_samples : forall Ts dt fuel arr, Forall posf Ts -> posf dt -> is_finite (end_f Ts (length Ts)) = true ->
  computeDiscretizedTime_f fuel Ts dt = Some arr ->
  exists bs, arr = tagged_f 0 bs /\ length bs = length Ts /\
    forall k b, nth_error bs k = Some b -> walk (start_f Ts k) (end_f Ts k) dt b.
Proof. exact steps_f_ok. Qed.
Print Assumptions C76_samples.
(** It returns if the step is at least 2^-52 times the duration ... *)
Theorem C76_ends : forall Ts dt, Forall posf Ts -> posf dt -> is_finite (end_f Ts (length Ts)) = true ->
  B2R (end_f Ts (length Ts)) * (2 * u53) <= B2R dt ->
  exists fuel arr, forall fuel', (fuel <= fuel')%nat -> computeDiscretizedTime_f fuel' Ts dt = Some arr.
Proof. exact steps_f_ends. Qed.
Print Assumptions C76_ends.
(** ... and never if adding the step to the start of a phase changes nothing ... *)
Theorem C76_stuck : forall Ts dt k, (k < length Ts)%nat -> fadd (start_f Ts k) dt = start_f Ts k ->
  flt (start_f Ts k) (end_f Ts k) = true -> forall fuel, computeDiscretizedTime_f fuel Ts dt = None.
Proof. exact steps_f_stuck. Qed.
Print Assumptions C76_stuck.
(** ... which happens with a positive step that meets the precondition asserted in the code. *)
Theorem C76_refuted : exists Ts dt, Forall posf Ts /\ posf dt /\ (forall d, In d Ts -> 2 * B2R dt <= B2R d) /\
  forall fuel, computeDiscretizedTime_f fuel Ts dt = None.
Proof. exact steps_refuted. Qed.
Print Assumptions C76_refuted.
(** Two samples of a phase may almost coincide. *)
Theorem C76_close : exists d dt arr t t', posf d /\ posf dt /\ 2 * B2R dt <= B2R d /\
  computeDiscretizedTime_f 12 [d] dt = Some arr /\ nth_error arr 10 = Some (t, 0%Z) /\ nth_error arr 11 = Some (t', 0%Z) /\
  B2R t' - B2R t <= 11 * u53 * B2R dt.
Proof. exact steps_close. Qed.
Print Assumptions C76_close.

(** C77: computeDiscretizedTimeFixed: the number of samples and their phases are as intended, the first
    time is 0 and the last the given total; the j-th time of phase i is the exact one up to a relative
    error of 2^-52 for each addition made so far. *)
Theorem C77_samples : forall (t_total : f64) (Ts : list f64) (p : nat), Ts <> [] -> (1 <= p)%nat ->
  (Z.of_nat (length Ts) * Z.of_nat p < 2 ^ 53)%Z -> Forall posf Ts ->
  total (map B2R Ts) <= IZR (2 ^ 1000) -> (forall d, In d Ts -> / IZR (2 ^ 1022) <= B2R d / INR p) ->
  let arr := computeDiscretizedTimeFixed_f t_total Ts p in
  length arr = (length Ts * p + 1)%nat /\
  nth_error arr 0 = Some (f0, 0%Z) /\
  nth_error arr (length Ts * p) = Some (t_total, Z.of_nat (length Ts) - 1)%Z /\
  forall i j d, nth_error Ts i = Some d -> (1 <= j <= p)%nat -> (i * p + j < length Ts * p)%nat ->
    exists t, nth_error arr (i * p + j) = Some (t, Z.of_nat i) /\ is_finite t = true /\
      let e := phase_start (map B2R Ts) i + INR j / INR p * B2R d in
      Rabs (B2R t - e) <= 2 * INR (i * p + j + 1) * u53 * e.
Proof. exact fixed_f_ok. Qed.
Print Assumptions C77_samples.

(** C78: the continuous planner cuts its curve, defined over [0, T], at the ends of the phases.  This
    succeeds exactly if the durations added one after the other do not exceed T ... *)
Theorem C78_iff : forall (T : f64) Ts, Ts <> [] -> Forall posf Ts -> is_finite (end_f Ts (length Ts)) = true -> is_finite T = true ->
  if Rle_dec (B2R (end_f Ts (length Ts))) (B2R T) then
    exists rs, phases_f T Ts = Ok rs /\ length rs = length Ts /\
      forall i a b, nth_error rs i = Some (a, b) -> a = start_f Ts i /\ is_finite b = true /\ B2R b = B2R (end_f Ts i)
  else phases_f T Ts = Throw.
Proof. exact phases_iff. Qed.
Print Assumptions C78_iff.
(** ... as they do when T is their sum from left to right ... *)
Theorem C78_left : forall Ts, Ts <> [] -> Forall posf Ts -> is_finite (seq_sum Ts) = true ->
  exists rs, phases_f (seq_sum Ts) Ts = Ok rs /\ length rs = length Ts /\
    (forall i a b, nth_error rs i = Some (a, b) -> a = start_f Ts i /\ is_finite b = true /\ B2R b = B2R (end_f Ts i)).
Proof. exact phases_left. Qed.
Print Assumptions C78_left.
(** ... but not always when it is their sum in the order of Eigen's vectorised code. *)
Theorem C78_refuted : exists a b c d, Forall posf [a; b; c; d] /\ phases_f (packet_sum4 a b c d) [a; b; c; d] = Throw /\
  phases_f (packet_sum4_avx a b c d) [a; b; c; d] = Throw.
Proof. exact phases_refuted. Qed.
Print Assumptions C78_refuted.

(** C79: the number of steps of the discretised zero-step planner is the number of whole steps that fit,
    or one more when the quotient is within rounding of it ... *)
Theorem C79_count : forall (T dt : f64) m, is_finite T = true -> posf dt -> (0 <= m < 2147483647)%Z ->
  IZR m <= B2R T / B2R dt < IZR m + 1 ->
  exists n, computeNumSteps_f T dt = Ok n /\
    (n = m \/ (n = m + 1)%Z /\ IZR n * (1 - u53) <= B2R T / B2R dt).
Proof. exact numsteps_floor. Qed.
Print Assumptions C79_count.
(** ... undefined from 2^31 steps on ... *)
Theorem C79_undefined : forall T dt : f64, is_finite T = true -> posf dt -> 2147483648 <= B2R T / B2R dt -> computeNumSteps_f T dt = UB.
Proof. exact (fun T dt FT Hd L => numsteps_big T dt FT (proj1 Hd) (proj2 Hd) L). Qed.
Print Assumptions C79_undefined.
(** ... and the steps may not fit. *)
Theorem C79_refuted : exists T dt n, posf T /\ posf dt /\ computeNumSteps_f T dt = Ok n /\ B2R T / B2R dt < IZR n.
Proof. exact numsteps_refuted. Qed.
Print Assumptions C79_refuted.
