(** Specification vocabulary for end-effector trajectories planned with the bundled QP
    solver. *)
From Verif Require Import Vec SpecBezier ModelData ModelDispatch ModelCont ModelSolver ModelTraj ModelEff ModelQp
  SpecCom SpecWp SpecTraj Spec0Step SpecEff SpecEnd3.
Open Scope R_scope.

(** Lower bound of the Hessian of the velocity cost, which has norm one. *)
Definition eff_convexity (flag : Z) : R :=
  if Z.eqb flag F_jerk then 1 / 2 else if Z.eqb flag F_x3 then 1 / 100 else 1 / 5000.
(** Upper bound of the norms of the constraint rows for a duration of one second. *)
Definition eff_slope (flag : Z) : R :=
  if Z.eqb flag F_jerk then 1008 else if Z.eqb flag F_x3 then 3200 else 6000.
(** Upper bound of the number of constraint rows. *)
Definition eff_rowcount (flag : Z) : nat :=
  if Z.eqb flag F_jerk then 129 else if Z.eqb flag F_x3 then 177 else 219.
(** The duration and the weight of the distance to the path are on the scale of the
    solver. *)
Definition eff_on_scale (flag : Z) (T wd : R) : Prop :=
  let lam := (1 - wd) * eff_convexity flag in
  let s := eff_slope flag in let j := eff_slope flag / (T * T * T) in
  eps52 * (s * s) < lam * lam /\ eps52 * (j * j) < lam * lam.
(** The tolerance of the plan. *)
Definition eff_tol (flag : Z) (wd : R) : R :=
  accuracy (3 * eff_free flag) (eff_rowcount flag) (INR (3 * eff_free flag)) ((1 - wd) * eff_convexity flag).
(** [y] has the least value of the documented criterion [x'Hx + 2g'x] among all
    points. *)
Definition unconstrained_best (H : list (list R)) (g y : list R) : Prop :=
  forall v, length v = length y -> quad H y + 2 * rdot g y <= quad H v + 2 * rdot g v.
