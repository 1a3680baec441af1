(** Specification vocabulary for the CoM waypoint formulas. *)
From Verif Require Import Vec SpecBezier ModelData ModelDispatch.
Open Scope R_scope.

(** The seven flags documented for CoM trajectories. *)
Definition F_c1          : Z := fl_or (fl_or INIT_POS INIT_VEL) END_POS.
Definition F_capture     : Z := fl_or (fl_or INIT_POS INIT_VEL) END_VEL.
Definition F_dc1_c1      : Z := fl_or (fl_or (fl_or INIT_POS INIT_VEL) END_POS) END_VEL.
Definition F_acc         : Z := fl_or (fl_or INIT_POS INIT_VEL) INIT_ACC.
Definition F_acc_c1      : Z := fl_or F_acc END_POS.
Definition F_acc_dc1_c1  : Z := fl_or (fl_or F_acc END_POS) END_VEL.
Definition F_acc_all     : Z := fl_or (fl_or (fl_or F_acc END_POS) END_VEL) END_ACC.
Definition com_flags : list Z :=
  [F_c1; F_capture; F_dc1_c1; F_acc; F_acc_c1; F_acc_dc1_c1; F_acc_all].
Definition exact_w_flags : list Z := [F_c1; F_capture; F_dc1_c1; F_acc; F_acc_c1].

(** Value of the curve object [cv] at time [t]. *)
Definition cv_fun (cv : bcurve) : R -> vec3 := curve (bc_pts cv) (bc_T cv).

(** The curve for free point [x], as genTraj builds it
    (/repo/src/computeCOMTraj.cpp:333-335). *)
Definition com_curve (pData : problem) (T : R) (x : vec3) : outcome bcurve :=
  pi <- computeConstantWaypoints pData T ;;
  computeBezierCurve (flag_of pData) T pi x.

(** Every state component selected by the flag is met at the ends of [0,T]. *)
Definition meets_boundary (pData : problem) (T : R) (f : R -> vec3) : Prop :=
  let has b := fl_has (flag_of pData) b = true in
  (has INIT_POS -> f 0 = c0 pData) /\
  (has INIT_VEL -> is_deriv_n 1 f 0 (dc0 pData)) /\
  (has INIT_ACC -> is_deriv_n 2 f 0 (ddc0 pData)) /\
  (has END_POS -> f T = c1 pData) /\
  (has END_VEL -> is_deriv_n 1 f T (dc1 pData)) /\
  (has END_ACC -> is_deriv_n 2 f T (ddc1 pData)).

(** Value at [x] of an affine expression [first * x + second]. *)
Definition ev_coefs (co : coefs) (x : vec3) : vec3 := vadd (vscal (fst co) x) (snd co).
Definition ev_w6 (w : wp6) (x : vec3) : v6 :=
  (vadd (mvmul (w_top w) x) (w_head w), vadd (mvmul (w_bot w) x) (w_tail w)).

(** 6-dimensional Bezier curve. *)
Definition curve6 (P : list v6) (T t : R) : v6 :=
  (curve (map fst P) T t, curve (map snd P) T t).

(** The wrench map of the module documentation: w = (ddc, c x ddc + g x c). *)
Definition wrench (g c acc : vec3) : v6 := (acc, vadd (vcross c acc) (vcross g c)).

(** Every coordinate is at most [B] in absolute value. *)
Definition within (B : R) (v : vec3) : Prop :=
  Rabs (vx v) <= B /\ Rabs (vy v) <= B /\ Rabs (vz v) <= B.

(** Tolerances for the two flags whose wrench formulas use decimals. *)
Definition dec_w_flags : list Z := [F_acc_dc1_c1; F_acc_all].
Definition e13 : R := 1 / 10000000000000.
Definition e15 : R := 1 / 1000000000000000.
Definition err_force (M T : R) : R := e13 * M / (T * T).
Definition err_moment (G M T : R) : R := 3 * e13 * (M * M) / (T * T) + 3 * e15 * (G * M).
Definition v6sub (a b : v6) : v6 := (vsub (fst a) (fst b), vsub (snd a) (snd b)).

(** The three end-effector flags: all eight state constraints, and one, three
    or five free points. *)
Definition F_jerk : Z := fl_or (fl_or F_acc_all INIT_JERK) END_JERK.
Definition F_x3 : Z := fl_or F_jerk THREE_FREE_VAR.
Definition F_x5 : Z := fl_or F_jerk FIVE_FREE_VAR.
Definition effector_flags : list Z := [F_jerk; F_x3; F_x5].
