(** Property theorems C80: what the constraints of the discretised planner mean when the times are
    computed in IEEE double arithmetic (points and rows exact).
    Vocabulary: Double.v, SpecDouble.v, SpecDouble2.v, SpecCtr.v. *)
From Flocq Require Import Core BinarySingleNaN.
From Verif Require Import Vec SpecBezier SpecTime ModelData ModelDispatch SpecCom SpecCtr Double ModelDouble SpecDouble SpecDouble2 ProofDouble7.
Open Scope R_scope.

(** C80, steps of [dt]: the constraints of each phase hold at the samples of the phase, from its start to
    its end, and nowhere else are they imposed. *)
Theorem C80_step : forall pData Ts T dt fuel ta, well_posed pData (map (fun d : f64 => B2R d) Ts) ->
  Forall posf Ts -> posf T -> posf dt -> is_finite (end_f Ts (length Ts)) = true ->
  computeDiscretizedTime_f fuel Ts dt = Some ta ->
  forall g, same_gravity pData g -> In (flag_of pData) exact_w_flags -> exists ev bs rows,
  evaluates T ev /\ ta = tagged_f 0 bs /\ length bs = length Ts /\
  (forall k b, nth_error bs k = Some b -> walk (start_f Ts k) (end_f Ts k) dt b) /\
  constraints_f pData Ts T ta = Ok rows /\
  forall x cv, com_curve pData (B2R T) x = Ok cv ->
    (sat rows x <-> forall i c b t, nth_error (contacts pData) i = Some c -> nth_error bs i = Some b -> In t b ->
       contact_ok pData 0 c (cv_fun cv) (ev t) /\ accel_ok pData (cv_fun cv) (ev t)).
Proof. exact step_exact. Qed.
Print Assumptions C80_step.
(** The same for the two flags whose wrench formulas use decimals, with their tolerance. *)
Theorem C80_step_decimal : forall pData Ts T dt fuel ta, well_posed pData (map (fun d : f64 => B2R d) Ts) ->
  Forall posf Ts -> posf T -> posf dt -> is_finite (end_f Ts (length Ts)) = true ->
  computeDiscretizedTime_f fuel Ts dt = Some ta ->
  forall g G, same_gravity pData g -> within G g -> In (flag_of pData) dec_w_flags -> exists ev bs rows,
  evaluates T ev /\ ta = tagged_f 0 bs /\ length bs = length Ts /\
  (forall k b, nth_error bs k = Some b -> walk (start_f Ts k) (end_f Ts k) dt b) /\
  constraints_f pData Ts T ta = Ok rows /\
  forall x cv M, com_curve pData (B2R T) x = Ok cv -> Forall (within M) (bc_pts cv) ->
    let sl := 3 * (err_force M (B2R T) + err_moment G M (B2R T)) in
    let ok sl := forall i c b t, nth_error (contacts pData) i = Some c -> nth_error bs i = Some b -> In t b ->
       contact_ok pData sl c (cv_fun cv) (ev t) /\ accel_ok pData (cv_fun cv) (ev t) in
    (sat rows x -> ok sl) /\ (ok (- sl) -> sat rows x).
Proof. exact step_dec. Qed.
Print Assumptions C80_step_decimal.

(** C80, [p] points per phase: the constraints of phase i hold at samples i*p to i*p+p. *)
Theorem C80_fixed : forall pData (Ts : list f64) T p, well_posed pData (map (fun d : f64 => B2R d) Ts) ->
  Forall posf Ts -> posf T -> (1 <= p)%nat -> (Z.of_nat (length Ts) * Z.of_nat p < 2 ^ 53)%Z ->
  total (map (fun d : f64 => B2R d) Ts) <= IZR (2 ^ 1000) -> (forall d, In d Ts -> / IZR (2 ^ 1022) <= B2R d / INR p) ->
  forall g, same_gravity pData g -> In (flag_of pData) exact_w_flags -> exists ev rows,
  evaluates T ev /\
  constraints_f pData Ts T (computeDiscretizedTimeFixed_f T Ts p) = Ok rows /\
  forall x cv, com_curve pData (B2R T) x = Ok cv ->
    (sat rows x <-> forall i c j t z, nth_error (contacts pData) i = Some c -> (j <= p)%nat ->
       nth_error (computeDiscretizedTimeFixed_f T Ts p) (i * p + j) = Some (t, z) ->
       contact_ok pData 0 c (cv_fun cv) (ev t) /\ accel_ok pData (cv_fun cv) (ev t)).
Proof. exact fixed_exact. Qed.
Print Assumptions C80_fixed.
Theorem C80_fixed_decimal : forall pData (Ts : list f64) T p, well_posed pData (map (fun d : f64 => B2R d) Ts) ->
  Forall posf Ts -> posf T -> (1 <= p)%nat -> (Z.of_nat (length Ts) * Z.of_nat p < 2 ^ 53)%Z ->
  total (map (fun d : f64 => B2R d) Ts) <= IZR (2 ^ 1000) -> (forall d, In d Ts -> / IZR (2 ^ 1022) <= B2R d / INR p) ->
  forall g G, same_gravity pData g -> within G g -> In (flag_of pData) dec_w_flags -> exists ev rows,
  evaluates T ev /\
  constraints_f pData Ts T (computeDiscretizedTimeFixed_f T Ts p) = Ok rows /\
  forall x cv M, com_curve pData (B2R T) x = Ok cv -> Forall (within M) (bc_pts cv) ->
    let sl := 3 * (err_force M (B2R T) + err_moment G M (B2R T)) in
    let ok sl := forall i c j t z, nth_error (contacts pData) i = Some c -> (j <= p)%nat ->
       nth_error (computeDiscretizedTimeFixed_f T Ts p) (i * p + j) = Some (t, z) ->
       contact_ok pData sl c (cv_fun cv) (ev t) /\ accel_ok pData (cv_fun cv) (ev t) in
    (sat rows x -> ok sl) /\ (ok (- sl) -> sat rows x).
Proof. exact fixed_dec. Qed.
Print Assumptions C80_fixed_decimal.
