(** Property theorems C17 - C21, C47, C50: constraints of the continuous
    formulation.  Vocabulary: SpecBezier.v, SpecTime.v, SpecCom.v, SpecCtr.v,
    SpecCont.v.  [scaled] is the behaviour of the curve library's derivative;
    the theorems hold for both. *)
From Verif Require Import Vec SpecBezier SpecTime ModelData ModelDispatch ModelUtils ModelRows ModelCom ModelNd ModelCont
  SpecCom SpecWp SpecCtr SpecCont ProofCont ProofCont5 ProofCont8 ProofCont9 ProofCont10 ProofCont11.
Open Scope R_scope.

(** C17: kinematic and acceleration constraints, both representations.
    [beta] are the force variables, if any. *)
Theorem C17_kinematics_acceleration : forall scaled pData Ts, well_posed pData Ts -> splittable Ts -> exists out,
  computeConstraintsContinuous scaled pData Ts = Ok out /\
  forall x beta cv, com_curve pData (total Ts) x = Ok cv -> no_zero_point cv x -> satX (co_A out) (l3 x ++ beta) ->
  forall i c t, nth_error (contacts pData) i = Some c -> in_phase Ts i t ->
    kin_ok c (cv_fun cv t) /\ accel_within (acc_bound scaled pData Ts) (cv_fun cv) t.
Proof. exact c17_kin. Qed.
Print Assumptions C17_kinematics_acceleration.

(** C17: kinematic and stability constraints, double description. *)
Theorem C17_double_description : forall scaled pData Ts g, well_posed pData Ts -> splittable Ts -> same_gravity pData g ->
  representation pData = DOUBLE_DESCRIPTION -> In (flag_of pData) exact_w_flags -> exists out,
  computeConstraintsContinuous scaled pData Ts = Ok out /\ co_D out = [] /\ co_min out = [] /\ co_cols out = 3%nat /\
  forall x cv, com_curve pData (total Ts) x = Ok cv -> no_zero_point cv x -> satX (co_A out) (l3 x) ->
  forall i c t, nth_error (contacts pData) i = Some c -> in_phase Ts i t -> contact_ok pData 0 c (cv_fun cv) t.
Proof. exact c17_dd. Qed.
Print Assumptions C17_double_description.

Theorem C17_double_description_decimal : forall scaled pData Ts g G,
  well_posed pData Ts -> splittable Ts -> same_gravity pData g -> within G g ->
  representation pData = DOUBLE_DESCRIPTION -> In (flag_of pData) dec_w_flags -> exists out,
  computeConstraintsContinuous scaled pData Ts = Ok out /\ co_D out = [] /\ co_min out = [] /\ co_cols out = 3%nat /\
  forall x cv M, com_curve pData (total Ts) x = Ok cv -> no_zero_point cv x -> Forall (within M) (bc_pts cv) ->
  satX (co_A out) (l3 x) ->
  forall i c t, nth_error (contacts pData) i = Some c -> in_phase Ts i t ->
    contact_ok pData (3 * (err_force M (total Ts) + err_moment G M (total Ts))) c (cv_fun cv) t.
Proof. exact c17_dd_dec. Qed.
Print Assumptions C17_double_description_decimal.

(** C17, exactly: x satisfies the inequalities iff the control points of the
    trajectory on every phase satisfy the constraints of the phase.  (The
    control points are unique, see below.) *)
Theorem C17_exact : forall scaled pData Ts, well_posed pData Ts -> forall g,
  long_phases Ts -> same_gravity pData g -> In (flag_of pData) exact_w_flags ->
  exists out ws, computeConstraintsContinuous scaled pData Ts = Ok out /\ computeWwaypoints pData (total Ts) = Ok ws /\
  forall x cv, com_curve pData (total Ts) x = Ok cv -> no_zero_point cv x ->
  exists (Pc Pa : nat -> list vec3) (Pw : nat -> list v6),
    (forall i c ph, nth_error (contacts pData) i = Some c -> cd_phase c = Some ph ->
       (length (Pc i) = length (bc_pts cv) /\ ctrl_pos (Pc i) (phase_start Ts i) (phase_end Ts i) (cv_fun cv)) /\
       (length (Pa i) = length (bc_pts cv) - 2 /\ ctrl_acc (Pa i) (phase_start Ts i) (phase_end Ts i) (cv_fun cv))%nat /\
       (length (Pw i) = length ws /\ ctrl_giw (Pw i) (phase_start Ts i) (phase_end Ts i) ph (cv_fun cv))) /\
    forall beta, satX (co_A out) (l3 x ++ beta) <->
      forall i c ph, nth_error (contacts pData) i = Some c -> cd_phase c = Some ph ->
        Forall (kin_ok c) (Pc i) /\ Forall (within (acc_bound scaled pData Ts)) (Pa i) /\
        (representation pData = DOUBLE_DESCRIPTION -> Forall (cone_ok (margin pData) 0 ph) (Pw i)).
Proof. exact c17_exact. Qed.
Print Assumptions C17_exact.

Theorem C17_position_points_unique : forall P Q a b f,
  a < b -> length P = length Q -> ctrl_pos P a b f -> ctrl_pos Q a b f -> P = Q.
Proof. exact ctrl_pos_uniq. Qed.
Theorem C17_acceleration_points_unique : forall P Q a b cv,
  a < b -> length P = length Q -> ctrl_acc P a b (cv_fun cv) -> ctrl_acc Q a b (cv_fun cv) -> P = Q.
Proof. exact ctrl_acc_uniq. Qed.
Theorem C17_wrench_points_unique : forall P Q a b ph cv,
  a < b -> length P = length Q -> ctrl_giw P a b ph (cv_fun cv) -> ctrl_giw Q a b ph (cv_fun cv) -> P = Q.
Proof. exact ctrl_giw_uniq. Qed.
Print Assumptions C17_wrench_points_unique.

(** With [scaled = false] and T < 1 the acceleration bound is not enforced. *)
Theorem C17_unscaled_acceleration_refuted : exists pData Ts out x cv t,
  well_posed pData Ts /\ long_phases Ts /\ k_constraintAcceleration (constr pData) = true /\
  computeConstraintsContinuous false pData Ts = Ok out /\ com_curve pData (total Ts) x = Ok cv /\ no_zero_point cv x /\
  satX (co_A out) (l3 x) /\ in_phase Ts 0 t /\ ~ accel_within (k_maxAcceleration (constr pData)) (cv_fun cv) t.
Proof. exact c17_unscaled_refuted. Qed.
Print Assumptions C17_unscaled_acceleration_refuted.

(** A last phase shorter than 1/1000 (after at least 1/1000) makes the
    continuous formulation fail. *)
Theorem C17_short_last_phase_fails : forall scaled pData Ts d,
  well_posed pData (Ts ++ [d]) -> 1 / 1000 <= total Ts -> d < 1 / 1000 ->
  forall out, computeConstraintsContinuous scaled pData (Ts ++ [d]) <> Ok out.
Proof. exact c17_short. Qed.
Print Assumptions C17_short_last_phase_fails.

(** C18: phases none of whose control points were left to a neighbour. *)
Theorem C18_undropped_phase : forall scaled pData Ts, well_posed pData Ts -> representation pData <> DOUBLE_DESCRIPTION ->
  forall g, splittable Ts -> same_gravity pData g -> In (flag_of pData) exact_w_flags ->
  exists out, computeConstraintsContinuous scaled pData Ts = Ok out /\
  forall x cv beta, com_curve pData (total Ts) x = Ok cv -> ge_forces out beta -> eqX (co_D out) (l3 x ++ beta) ->
  forall i c ph t acc, nth_error (contacts pData) i = Some c -> cd_phase c = Some ph ->
    ~ left_to_prev (contacts pData) i -> ~ left_to_next (contacts pData) i ->
    in_phase Ts i t -> is_deriv_n 2 (cv_fun cv) t acc ->
    in_cone (cp_G ph) (giw (cp_mass ph) (cp_gravity ph) (cv_fun cv t) acc).
Proof. exact c18_phase. Qed.
Print Assumptions C18_undropped_phase.

(** C18: all phases, when the cones are nested where a point is dropped. *)
Theorem C18_nested_cones : forall scaled pData Ts, well_posed pData Ts -> representation pData <> DOUBLE_DESCRIPTION ->
  forall g, long_phases Ts -> same_gravity pData g -> In (flag_of pData) exact_w_flags -> cones_nested (contacts pData) ->
  exists out, computeConstraintsContinuous scaled pData Ts = Ok out /\
  forall x cv beta, com_curve pData (total Ts) x = Ok cv -> ge_forces out beta -> eqX (co_D out) (l3 x ++ beta) ->
  forall i c ph t acc, nth_error (contacts pData) i = Some c -> cd_phase c = Some ph ->
    in_phase Ts i t -> is_deriv_n 2 (cv_fun cv) t acc ->
    in_cone (cp_G ph) (giw (cp_mass ph) (cp_gravity ph) (cv_fun cv t) acc).
Proof. exact c18_nested. Qed.
Print Assumptions C18_nested_cones.

Theorem C18_nested_cones_decimal : forall scaled pData Ts, well_posed pData Ts -> representation pData <> DOUBLE_DESCRIPTION ->
  forall g G, long_phases Ts -> same_gravity pData g -> within G g -> In (flag_of pData) dec_w_flags -> cones_nested (contacts pData) ->
  exists out, computeConstraintsContinuous scaled pData Ts = Ok out /\
  forall x cv beta M, com_curve pData (total Ts) x = Ok cv -> Forall (within M) (bc_pts cv) ->
  ge_forces out beta -> eqX (co_D out) (l3 x ++ beta) ->
  forall i c ph t acc, nth_error (contacts pData) i = Some c -> cd_phase c = Some ph ->
    in_phase Ts i t -> is_deriv_n 2 (cv_fun cv) t acc ->
    exists w, in_cone (cp_G ph) w /\
      let d := v6sub w (giw (cp_mass ph) (cp_gravity ph) (cv_fun cv t) acc) in
      within (cp_mass ph * err_force M (total Ts)) (fst d) /\ within (cp_mass ph * err_moment G M (total Ts)) (snd d).
Proof. exact c18_nested_dec. Qed.
Print Assumptions C18_nested_cones_decimal.

(** C18, exactly: forces exist iff every control point that is not left to a
    neighbour is in the cone of its phase. *)
Theorem C18_exact : forall scaled pData Ts, well_posed pData Ts -> representation pData <> DOUBLE_DESCRIPTION ->
  forall g, long_phases Ts -> same_gravity pData g -> In (flag_of pData) exact_w_flags ->
  exists out ws, computeConstraintsContinuous scaled pData Ts = Ok out /\ computeWwaypoints pData (total Ts) = Ok ws /\
  forall x cv, com_curve pData (total Ts) x = Ok cv ->
  exists Pw : nat -> list v6,
    (forall i c ph, nth_error (contacts pData) i = Some c -> cd_phase c = Some ph ->
       length (Pw i) = length ws /\ ctrl_giw (Pw i) (phase_start Ts i) (phase_end Ts i) ph (cv_fun cv)) /\
    ((exists beta, geX (co_min out) (l3 x ++ beta) /\ eqX (co_D out) (l3 x ++ beta)) <->
     (-100000 <= vx x /\ -100000 <= vy x /\ -100000 <= vz x) /\
     forall i c ph j q, nth_error (contacts pData) i = Some c -> cd_phase c = Some ph -> nth_error (Pw i) j = Some q ->
       (j = 0%nat -> ~ left_to_prev (contacts pData) i) -> (S j = length ws -> ~ left_to_next (contacts pData) i) ->
       in_cone (cp_G ph) q).
Proof. exact c18_exact. Qed.
Print Assumptions C18_exact.

(** Without nested cones a plan satisfying everything can leave the cone. *)
Theorem C18_refuted : forall scaled, exists pData Ts g out x cv beta i c ph t acc,
  well_posed pData Ts /\ long_phases Ts /\ same_gravity pData g /\ In (flag_of pData) exact_w_flags /\
  representation pData = FORCE /\
  computeConstraintsContinuous scaled pData Ts = Ok out /\ com_curve pData (total Ts) x = Ok cv /\ no_zero_point cv x /\
  satX (co_A out) (l3 x ++ beta) /\ geX (co_min out) (l3 x ++ beta) /\ eqX (co_D out) (l3 x ++ beta) /\
  nth_error (contacts pData) i = Some c /\ cd_phase c = Some ph /\ in_phase Ts i t /\ is_deriv_n 2 (cv_fun cv) t acc /\
  ~ in_cone (cp_G ph) (giw (cp_mass ph) (cp_gravity ph) (cv_fun cv t) acc).
Proof. exact c18_refuted. Qed.
Print Assumptions C18_refuted.

(** C19: write indices end at the allocated sizes, which are the numbers of
    control points and forces. *)
Theorem C19_sizes : forall scaled pData Ts, well_posed pData Ts -> splittable Ts -> exists ws st fdim out,
  computeWwaypoints pData (total Ts) = Ok ws /\
  cont_raw scaled pData Ts = Ok (fdim, st) /\ computeConstraintsContinuous scaled pData Ts = Ok out /\
  let counts := if Z.eqb (representation pData) DOUBLE_DESCRIPTION then [] else force_counts (length ws) 0 (contacts pData) in
  let n := (6 * force_points counts)%nat in
  fdim = force_vars counts /\
  fs_row (cs_force st) = n /\ fs_col (cs_force st) = (3 + fdim)%nat /\
  length (fs_D (cs_force st)) = n /\ length (fs_d (cs_force st)) = n /\
  Forall (fun r => length r = (3 + fdim)%nat) (fs_D (cs_force st)) /\
  length (co_D out) = n /\ co_cols out = (3 + fdim)%nat /\
  Forall (fun r => length (fst r) = (3 + fdim)%nat) (co_A out) /\ Forall (fun r => length (fst r) = (3 + fdim)%nat) (co_D out).
Proof. exact c19_ok. Qed.
Print Assumptions C19_sizes.

(** C20: the write index ends at the number of allocated rows. *)
Theorem C20_rows : forall scaled pData Ts, well_posed pData Ts -> splittable Ts -> exists pi ws rows st fdim,
  computeConstantWaypoints pData (total Ts) = Ok pi /\ computeWwaypoints pData (total Ts) = Ok ws /\
  length rows = cont_rows_needed (Z.eqb (representation pData) DOUBLE_DESCRIPTION) (length pi) (length ws) (contacts pData) /\
  cont_raw scaled pData Ts = Ok (fdim, st) /\
  cs_rows st = (length rows, map (fun rb => (fst rb, Some (snd rb))) rows) /\
  exists out, computeConstraintsContinuous scaled pData Ts = Ok out /\
    co_A out = map (fun rb => (l3 (fst rb) ++ repeat 0 fdim, snd rb)) rows.
Proof. exact c20_ok. Qed.
Print Assumptions C20_rows.

(** C21 *)
Theorem C21_symbolic_iff : forall pData T x cv, In (flag_of pData) com_flags -> com_curve pData T x = Ok cv ->
  exists ws, computeConstantWaypointsSymbolic pData T = Ok ws /\
    (map (fun w => ev_sym w x) ws = bc_pts cv <-> no_zero_point cv x).
Proof. exact c21_ok. Qed.
Print Assumptions C21_symbolic_iff.

Theorem C21_starts_elsewhere_refuted : exists pData T x cv ws, well_posed pData [T] /\
  com_curve pData T x = Ok cv /\ computeConstantWaypointsSymbolic pData T = Ok ws /\
  hd vzero (bc_pts cv) = c0 pData /\ hd vzero (map (fun w => ev_sym w x) ws) = x /\ x <> c0 pData.
Proof. exact c21_refuted. Qed.
Print Assumptions C21_starts_elsewhere_refuted.

(** C47 *)
Theorem C47_continuous_ignores_flag : forall scaled pData Ts b,
  computeConstraintsContinuous scaled (with_acc_flag pData b) Ts = computeConstraintsContinuous scaled pData Ts.
Proof. exact c47_cont. Qed.
Print Assumptions C47_continuous_ignores_flag.

Theorem C47_discretised_uses_flag : forall pData Ts p g,
  well_posed pData Ts -> (1 <= p)%nat -> same_gravity pData g -> In (flag_of pData) exact_w_flags ->
  exists rows1 rows0,
  computeConstraintsOneStep (with_acc_flag pData true) Ts (total Ts) (computeDiscretizedTimeFixed Ts p) = Ok rows1 /\
  computeConstraintsOneStep (with_acc_flag pData false) Ts (total Ts) (computeDiscretizedTimeFixed Ts p) = Ok rows0 /\
  forall x cv, com_curve pData (total Ts) x = Ok cv ->
    (sat rows0 x <-> forall i c t, nth_error (contacts pData) i = Some c -> sampled_fixed Ts p i t -> contact_ok pData 0 c (cv_fun cv) t) /\
    (sat rows1 x <-> sat rows0 x /\ forall i c t, nth_error (contacts pData) i = Some c -> sampled_fixed Ts p i t ->
       accel_within (k_maxAcceleration (constr pData)) (cv_fun cv) t).
Proof. exact c47_disc. Qed.
Print Assumptions C47_discretised_uses_flag.

(** C50 *)
Theorem C50_plain_points : forall (cv : ndc vec3) t1 t2, nd_pts cv <> [] -> nd_min cv <= t1 -> t1 < t2 -> t2 <= nd_max cv ->
  (t1 - nd_min cv < 1 / 1000 \/ 1 / 1000 <= nd_max cv - t1) ->
  exists cv', nd_extract vec3 vadd vscal cv t1 t2 = Ok cv' /\
    length (nd_pts cv') = length (nd_pts cv) /\ nd_mult cv' = nd_mult cv /\ nd_min cv' <= t1 /\ t2 <= nd_max cv' /\
    (t1 = nd_min cv \/ 1 / 1000 <= t1 - nd_min cv -> nd_min cv' = t1) /\
    (t2 = nd_max cv \/ 1 / 1000 <= nd_max cv - t2 -> nd_max cv' = t2) /\
    forall t, curve (nd_pts cv') (nd_max cv' - nd_min cv') (t - nd_min cv') = curve (nd_pts cv) (nd_max cv - nd_min cv) (t - nd_min cv) /\
      (t1 <= t <= t2 -> convex_comb (nd_pts cv') (curve (nd_pts cv) (nd_max cv - nd_min cv) (t - nd_min cv))).
Proof. exact c50_plain. Qed.
Print Assumptions C50_plain_points.

Theorem C50_affine_points : forall (cv : ndc aff) t1 t2, nd_pts cv <> [] -> nd_min cv <= t1 -> t1 < t2 -> t2 <= nd_max cv ->
  (t1 - nd_min cv < 1 / 1000 \/ 1 / 1000 <= nd_max cv - t1) ->
  exists cv', nd_extract aff aff_add aff_scal cv t1 t2 = Ok cv' /\
    length (nd_pts cv') = length (nd_pts cv) /\ nd_mult cv' = nd_mult cv /\ nd_min cv' <= t1 /\ t2 <= nd_max cv' /\
    (t1 = nd_min cv \/ 1 / 1000 <= t1 - nd_min cv -> nd_min cv' = t1) /\
    (t2 = nd_max cv \/ 1 / 1000 <= nd_max cv - t2 -> nd_max cv' = t2) /\
    forall x t, let at_x P := map (fun p => ev_aff p x) P in
      curve (at_x (nd_pts cv')) (nd_max cv' - nd_min cv') (t - nd_min cv') = curve (at_x (nd_pts cv)) (nd_max cv - nd_min cv) (t - nd_min cv) /\
      (t1 <= t <= t2 -> convex_comb (at_x (nd_pts cv')) (curve (at_x (nd_pts cv)) (nd_max cv - nd_min cv) (t - nd_min cv))).
Proof. exact c50_affine. Qed.
Print Assumptions C50_affine_points.
