(** Property theorems C14, C15, C45, C46, C49: constraints of the discretised
    formulation.  Vocabulary: SpecBezier.v, SpecTime.v, SpecCom.v, SpecCtr.v. *)
From Verif Require Import Vec SpecBezier SpecTime ModelData ModelDispatch ModelUtils ModelRows ModelCom
  SpecCom SpecCtr ProofCom3.
Open Scope R_scope.

(** C14: [n] rows are allocated, the write index ends at [n], and every
    right-hand side has been written (none is [None]). *)
Theorem C14_rows_fixed : forall pData Ts p, well_posed pData Ts -> (1 <= p)%nat -> exists n rows,
  n = (rows_needed (contacts pData) (fun _ => S p) 0 + acc_needed pData (length Ts * p + 1))%nat /\
  length rows = n /\
  constraintsOneStep_raw pData Ts (total Ts) (computeDiscretizedTimeFixed Ts p) =
    Ok (n, map (fun rb => (fst rb, Some (snd rb))) rows) /\
  computeConstraintsOneStep pData Ts (total Ts) (computeDiscretizedTimeFixed Ts p) = Ok rows.
Proof. exact c14_fixed. Qed.
Print Assumptions C14_rows_fixed.

Theorem C14_rows_step : forall pData Ts dt, well_posed pData Ts -> 0 < dt -> exists ta ns n rows,
  computeDiscretizedTime Ts dt = Ok ta /\
  length ns = length Ts /\
  (forall i k, nth_error ns i = Some k -> steps_to (phase_start Ts i) (phase_end Ts i) dt k) /\
  n = (rows_needed (contacts pData) (fun i => nth i ns 0 + (if Nat.eqb i 0 then 1 else 2)) 0
       + acc_needed pData (fold_right Nat.add 0 (map S ns)))%nat /\
  length rows = n /\
  constraintsOneStep_raw pData Ts (total Ts) ta = Ok (n, map (fun rb => (fst rb, Some (snd rb))) rows) /\
  computeConstraintsOneStep pData Ts (total Ts) ta = Ok rows.
Proof. exact c14_step. Qed.
Print Assumptions C14_rows_step.

(** C15, flags with exact wrench waypoints. *)
Theorem C15_meaning_fixed : forall pData Ts p g, well_posed pData Ts -> (1 <= p)%nat ->
  same_gravity pData g -> In (flag_of pData) exact_w_flags -> exists rows,
  computeConstraintsOneStep pData Ts (total Ts) (computeDiscretizedTimeFixed Ts p) = Ok rows /\
  forall x cv, com_curve pData (total Ts) x = Ok cv ->
    (sat rows x <-> forall i c t, nth_error (contacts pData) i = Some c -> sampled_fixed Ts p i t ->
       contact_ok pData 0 c (cv_fun cv) t /\ accel_ok pData (cv_fun cv) t).
Proof. exact c15_fixed. Qed.
Print Assumptions C15_meaning_fixed.

Theorem C15_meaning_step : forall pData Ts dt g, well_posed pData Ts -> 0 < dt ->
  same_gravity pData g -> In (flag_of pData) exact_w_flags -> exists ta rows,
  computeDiscretizedTime Ts dt = Ok ta /\
  computeConstraintsOneStep pData Ts (total Ts) ta = Ok rows /\
  forall x cv, com_curve pData (total Ts) x = Ok cv ->
    (sat rows x <-> forall i c t, nth_error (contacts pData) i = Some c -> sampled_step Ts dt i t ->
       contact_ok pData 0 c (cv_fun cv) t /\ accel_ok pData (cv_fun cv) t).
Proof. exact c15_step. Qed.
Print Assumptions C15_meaning_step.

(** C15, the two flags whose wrench waypoints use decimals: sound with the
    slack [sl], complete with the slack [- sl]. *)
Theorem C15_meaning_fixed_decimal : forall pData Ts p g G, well_posed pData Ts -> (1 <= p)%nat ->
  same_gravity pData g -> within G g -> In (flag_of pData) dec_w_flags -> exists rows,
  computeConstraintsOneStep pData Ts (total Ts) (computeDiscretizedTimeFixed Ts p) = Ok rows /\
  forall x cv M, com_curve pData (total Ts) x = Ok cv -> Forall (within M) (bc_pts cv) ->
    let sl := 3 * (err_force M (total Ts) + err_moment G M (total Ts)) in
    (sat rows x -> forall i c t, nth_error (contacts pData) i = Some c -> sampled_fixed Ts p i t ->
       contact_ok pData sl c (cv_fun cv) t /\ accel_ok pData (cv_fun cv) t) /\
    ((forall i c t, nth_error (contacts pData) i = Some c -> sampled_fixed Ts p i t ->
       contact_ok pData (- sl) c (cv_fun cv) t /\ accel_ok pData (cv_fun cv) t) -> sat rows x).
Proof. exact c15_fixed_dec. Qed.
Print Assumptions C15_meaning_fixed_decimal.

Theorem C15_meaning_step_decimal : forall pData Ts dt g G, well_posed pData Ts -> 0 < dt ->
  same_gravity pData g -> within G g -> In (flag_of pData) dec_w_flags -> exists ta rows,
  computeDiscretizedTime Ts dt = Ok ta /\
  computeConstraintsOneStep pData Ts (total Ts) ta = Ok rows /\
  forall x cv M, com_curve pData (total Ts) x = Ok cv -> Forall (within M) (bc_pts cv) ->
    let sl := 3 * (err_force M (total Ts) + err_moment G M (total Ts)) in
    (sat rows x -> forall i c t, nth_error (contacts pData) i = Some c -> sampled_step Ts dt i t ->
       contact_ok pData sl c (cv_fun cv) t /\ accel_ok pData (cv_fun cv) t) /\
    ((forall i c t, nth_error (contacts pData) i = Some c -> sampled_step Ts dt i t ->
       contact_ok pData (- sl) c (cv_fun cv) t /\ accel_ok pData (cv_fun cv) t) -> sat rows x).
Proof. exact c15_step_dec. Qed.
Print Assumptions C15_meaning_step_decimal.

(** C45: what a row of the polytope becomes, and when that is H w <= h. *)
Theorem C45_offsets_not_rescaled : forall pData c ph g, cd_phase c = Some ph -> 0 < cp_mass ph ->
  k_reduce_h (constr pData) <= 0 -> Forall (fun Hh => fst Hh <> (vzero, vzero)) (cp_poly ph) -> exists rows,
  updateH pData c = Ok rows /\
  Forall2 (fun Hh r =>
    (forall W, dot6 (fst r) (v6sub W (g, vzero)) <= snd r <->
               dot6 (fst Hh) (v6_scal (cp_mass ph) (v6sub (g, vzero) W)) <= cp_mass ph * norm6 (fst Hh) * snd Hh) /\
    ((forall W, dot6 (fst r) (v6sub W (g, vzero)) <= snd r <->
                dot6 (fst Hh) (v6_scal (cp_mass ph) (v6sub (g, vzero) W)) <= snd Hh)
     <-> snd Hh = 0 \/ cp_mass ph * norm6 (fst Hh) = 1)) (cp_poly ph) rows.
Proof. exact c45_ok. Qed.
Print Assumptions C45_offsets_not_rescaled.

(** C46: the gravity each sampled time uses: [g], and phase 0's gravity [g0] in
    the moment. *)
Theorem C46_gravity_used : forall pData Ts p g0, well_posed pData Ts -> (1 <= p)%nat ->
  front_gravity pData = Ok g0 -> In (flag_of pData) exact_w_flags -> exists rows,
  computeConstraintsOneStep pData Ts (total Ts) (computeDiscretizedTimeFixed Ts p) = Ok rows /\
  forall x cv, com_curve pData (total Ts) x = Ok cv ->
    (sat rows x <-> forall i c ph j d, nth_error (contacts pData) i = Some c -> cd_phase c = Some ph ->
       nth_error Ts i = Some d -> (j <= p)%nat ->
       let t := phase_start Ts i + INR j / INR p * d in
       let g := if (Nat.eqb j 0 && negb (Nat.eqb i 0))%bool then cp_gravity ph else g0 in
       kin_ok c (cv_fun cv t) /\ accel_ok pData (cv_fun cv) t /\
       exists acc, is_deriv_n 2 (cv_fun cv) t acc /\
         cone_ok (margin pData) 0 ph (giw2 (cp_mass ph) g g0 (cv_fun cv t) acc)).
Proof. exact c46_fixed. Qed.
Print Assumptions C46_gravity_used.

(** Without [same_gravity], C15 fails in both directions. *)
Theorem C46_own_gravity_soundness_refuted : exists pData Ts p rows x cv, well_posed pData Ts /\
  computeConstraintsOneStep pData Ts (total Ts) (computeDiscretizedTimeFixed Ts p) = Ok rows /\
  com_curve pData (total Ts) x = Ok cv /\ sat rows x /\
  ~ (forall i c t, nth_error (contacts pData) i = Some c -> sampled_fixed Ts p i t ->
       contact_ok pData 0 c (cv_fun cv) t /\ accel_ok pData (cv_fun cv) t).
Proof. exact c46_unsound. Qed.
Print Assumptions C46_own_gravity_soundness_refuted.

Theorem C46_own_gravity_completeness_refuted : exists pData Ts p rows x cv, well_posed pData Ts /\
  computeConstraintsOneStep pData Ts (total Ts) (computeDiscretizedTimeFixed Ts p) = Ok rows /\
  com_curve pData (total Ts) x = Ok cv /\ ~ sat rows x /\
  (forall i c t, nth_error (contacts pData) i = Some c -> sampled_fixed Ts p i t ->
       contact_ok pData 0 c (cv_fun cv) t /\ accel_ok pData (cv_fun cv) t).
Proof. exact c46_incomplete. Qed.
Print Assumptions C46_own_gravity_completeness_refuted.

(** C49 *)
Theorem C49_zero_points_per_phase : forall pData Ts, (2 <= length Ts)%nat ->
  computeConstraintsOneStep pData Ts (total Ts) (computeDiscretizedTimeFixed Ts 0) = UB.
Proof. exact c49_ok. Qed.
Print Assumptions C49_zero_points_per_phase.
