(** Property theorems C84: the constraints of the discretised planner between its samples, when the times
    are computed in IEEE double arithmetic (points and rows exact).
    Vocabulary: Double.v, SpecDouble.v, SpecDouble2.v, SpecCtr.v, SpecGap.v, SpecGapDouble.v. *)
From Flocq Require Import Core BinarySingleNaN.
From Verif Require Import Vec SpecBezier SpecTime ModelData ModelDispatch SpecCom SpecCtr SpecGap Double ModelDouble SpecDouble SpecDouble2
  SpecGapDouble ProofGapDouble.
Open Scope R_scope.

(** C84, steps of [dt]: a free point that satisfies the rows gives a curve that meets the constraints of each
    phase throughout it, up to terms proportional to [gap_step]^2.  The phases cover [0, T] unless T is past
    the end of the last. *)
Theorem C84_step : forall pData Ts T dt fuel ta, well_posed pData (map (fun d : f64 => B2R d) Ts) ->
  Forall posf Ts -> posf T -> posf dt -> is_finite (end_f Ts (length Ts)) = true ->
  computeDiscretizedTime_f fuel Ts dt = Some ta ->
  forall g G, same_gravity pData g -> within G g -> In (flag_of pData) exact_w_flags -> exists ev rows,
  evaluates T ev /\
  (B2R T <= B2R (end_f Ts (length Ts)) ->
     forall t, 0 <= t <= B2R T -> exists i, (i < length Ts)%nat /\ ev (start_f Ts i) <= t <= ev (end_f Ts i)) /\
  constraints_f pData Ts T ta = Ok rows /\
  forall x cv M, com_curve pData (B2R T) x = Ok cv -> 0 <= M -> Forall (within M) (bc_pts cv) -> sat rows x ->
    let n := Nat.pred (length (bc_pts cv)) in
    let h := gap_step (B2R T) (B2R dt) in
    forall i c t, nth_error (contacts pData) i = Some c -> ev (start_f Ts i) <= t <= ev (end_f Ts i) ->
      contact_near pData (gap_pos n (B2R T) M h) (gap_wrench G n (B2R T) M h) c (cv_fun cv) t /\
      accel_near pData (gap_acc n (B2R T) M h) (cv_fun cv) t.
Proof. exact step_between_exact. Qed.
Print Assumptions C84_step.
(** The same for the two flags whose wrench formulas use decimals, with their tolerance. *)
Theorem C84_step_decimal : forall pData Ts T dt fuel ta, well_posed pData (map (fun d : f64 => B2R d) Ts) ->
  Forall posf Ts -> posf T -> posf dt -> is_finite (end_f Ts (length Ts)) = true ->
  computeDiscretizedTime_f fuel Ts dt = Some ta ->
  forall g G, same_gravity pData g -> within G g -> In (flag_of pData) dec_w_flags -> exists ev rows,
  evaluates T ev /\
  (B2R T <= B2R (end_f Ts (length Ts)) ->
     forall t, 0 <= t <= B2R T -> exists i, (i < length Ts)%nat /\ ev (start_f Ts i) <= t <= ev (end_f Ts i)) /\
  constraints_f pData Ts T ta = Ok rows /\
  forall x cv M, com_curve pData (B2R T) x = Ok cv -> 0 <= M -> Forall (within M) (bc_pts cv) -> sat rows x ->
    let n := Nat.pred (length (bc_pts cv)) in
    let h := gap_step (B2R T) (B2R dt) in
    forall i c t, nth_error (contacts pData) i = Some c -> ev (start_f Ts i) <= t <= ev (end_f Ts i) ->
      contact_near pData (gap_pos n (B2R T) M h)
        (3 * (err_force M (B2R T) + err_moment G M (B2R T)) + gap_wrench G n (B2R T) M h) c (cv_fun cv) t /\
      accel_near pData (gap_acc n (B2R T) M h) (cv_fun cv) t.
Proof. exact step_between_dec. Qed.
Print Assumptions C84_step_decimal.

(** C84, [p] points per phase, T being within [del] of the exact total of the durations: the phases, from
    sample i*p to sample i*p+p, cover [0, T], and the constraints hold throughout each. *)
Theorem C84_fixed : forall pData (Ts : list f64) T p del, well_posed pData (map (fun d : f64 => B2R d) Ts) ->
  Forall posf Ts -> posf T -> (1 <= p)%nat -> (Z.of_nat (length Ts) * Z.of_nat p < 2 ^ 53)%Z ->
  total (map (fun d : f64 => B2R d) Ts) <= IZR (2 ^ 1000) -> (forall d, In d Ts -> / IZR (2 ^ 1022) <= B2R d / INR p) ->
  Rabs (B2R T - total (map (fun d : f64 => B2R d) Ts)) <= del ->
  let arr := computeDiscretizedTimeFixed_f T Ts p in
  forall g G, same_gravity pData g -> within G g -> In (flag_of pData) exact_w_flags -> exists ev rows,
  evaluates T ev /\
  (forall t, 0 <= t <= B2R T -> exists i s zs e ze, (i < length Ts)%nat /\
     nth_error arr (i * p) = Some (s, zs) /\ nth_error arr (i * p + p) = Some (e, ze) /\ ev s <= t <= ev e) /\
  constraints_f pData Ts T arr = Ok rows /\
  forall x cv M, com_curve pData (B2R T) x = Ok cv -> 0 <= M -> Forall (within M) (bc_pts cv) -> sat rows x ->
    let n := Nat.pred (length (bc_pts cv)) in
    forall i c d s zs e ze t, nth_error (contacts pData) i = Some c -> nth_error Ts i = Some d ->
      nth_error arr (i * p) = Some (s, zs) -> nth_error arr (i * p + p) = Some (e, ze) -> ev s <= t <= ev e ->
      let h := gap_fixed (length Ts) p (total (map (fun d : f64 => B2R d) Ts)) del (B2R T) (B2R d) in
      contact_near pData (gap_pos n (B2R T) M h) (gap_wrench G n (B2R T) M h) c (cv_fun cv) t /\
      accel_near pData (gap_acc n (B2R T) M h) (cv_fun cv) t.
Proof. exact fixed_between_exact. Qed.
Print Assumptions C84_fixed.
Theorem C84_fixed_decimal : forall pData (Ts : list f64) T p del, well_posed pData (map (fun d : f64 => B2R d) Ts) ->
  Forall posf Ts -> posf T -> (1 <= p)%nat -> (Z.of_nat (length Ts) * Z.of_nat p < 2 ^ 53)%Z ->
  total (map (fun d : f64 => B2R d) Ts) <= IZR (2 ^ 1000) -> (forall d, In d Ts -> / IZR (2 ^ 1022) <= B2R d / INR p) ->
  Rabs (B2R T - total (map (fun d : f64 => B2R d) Ts)) <= del ->
  let arr := computeDiscretizedTimeFixed_f T Ts p in
  forall g G, same_gravity pData g -> within G g -> In (flag_of pData) dec_w_flags -> exists ev rows,
  evaluates T ev /\
  (forall t, 0 <= t <= B2R T -> exists i s zs e ze, (i < length Ts)%nat /\
     nth_error arr (i * p) = Some (s, zs) /\ nth_error arr (i * p + p) = Some (e, ze) /\ ev s <= t <= ev e) /\
  constraints_f pData Ts T arr = Ok rows /\
  forall x cv M, com_curve pData (B2R T) x = Ok cv -> 0 <= M -> Forall (within M) (bc_pts cv) -> sat rows x ->
    let n := Nat.pred (length (bc_pts cv)) in
    forall i c d s zs e ze t, nth_error (contacts pData) i = Some c -> nth_error Ts i = Some d ->
      nth_error arr (i * p) = Some (s, zs) -> nth_error arr (i * p + p) = Some (e, ze) -> ev s <= t <= ev e ->
      let h := gap_fixed (length Ts) p (total (map (fun d : f64 => B2R d) Ts)) del (B2R T) (B2R d) in
      contact_near pData (gap_pos n (B2R T) M h)
        (3 * (err_force M (B2R T) + err_moment G M (B2R T)) + gap_wrench G n (B2R T) M h) c (cv_fun cv) t /\
      accel_near pData (gap_acc n (B2R T) M h) (cv_fun cv) t.
Proof. exact fixed_between_dec. Qed.
Print Assumptions C84_fixed_decimal.
