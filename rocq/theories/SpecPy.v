(** Specification vocabulary for the python module. *)
From Coq Require Import List.
From Verif Require Import Vec SpecBezier ModelData ModelDispatch ModelCont ModelSolver ModelTraj Model0Step ModelQp ModelPy
  SpecCom SpecWp SpecCtr SpecTraj Spec0Step SpecEnd3.
Import ListNotations.
Open Scope R_scope.

(** The matrices that the program hands over for Kin x <= kin. *)
Definition kin_matrix (K : list vec3) : matX := MX 3 (map l3 K).
Definition kin_vector (k : list R) : matX := MX 1 (map (fun v => [v]) k).

(** What zeroStepCapturability relies on: a positive duration and mass, no zero row
    in the contact cone, not more entries in kin than rows in Kin. *)
Definition py_valid (ph : cphase) (T : R) (K : list vec3) (k : list R) : Prop :=
  0 < T /\ 0 < cp_mass ph /\ Forall (fun Hh => fst Hh <> (vzero, vzero)) (cp_poly ph) /\ (length k <= length K)%nat.
(** The data are on the scale of the solver: [M] bounds the initial position and the
    position a third of the duration later at the initial velocity, [kap] the rows of
    Kin. *)
Definition py_on_scale (ph : cphase) (com dCom : vec3) (useAng : bool) (T : R) (K : list vec3) (M kap : R) : Prop :=
  let lam := if useAng then 1 / 10000 else 1 in
  let B := cp_mass ph * (6 * (1 + M) / (T * T) + vnorm (cp_gravity ph)) + (if useAng then 3 / T else 0) in
  vnorm com <= M /\ vnorm (vadd com (vscal (T / 3) dCom)) <= M /\ (forall v, In v K -> vnorm v <= kap) /\
  eps52 * (B * B) < lam * lam /\ eps52 * (2 * (kap * kap)) < lam * lam.
(** [v] meets the rows up to [tau]. *)
Definition rows_near (tau : R) (K : list vec3) (k : list R) (v : vec3) : Prop :=
  forall i a b, nth_error K i = Some a -> nth_error k i = Some b -> vdot a v <= b + tau.
(** The two ends of the curve of a result. *)
Definition captured (r : result0) (com dCom : vec3) (T : R) (x : vec3) : Prop :=
  bc_T (r0_c r) = T /\ cv_fun (r0_c r) 0 = com /\ is_deriv_n 1 (cv_fun (r0_c r)) 0 dCom /\
  cv_fun (r0_c r) T = x /\ is_deriv_n 1 (cv_fun (r0_c r)) T vzero.
(** The wrench at time [t] is in the cone up to [tau]. *)
Definition wrench_near (tau : R) (ph : cphase) (r : result0) (t : R) : Prop :=
  forall acc, is_deriv_n 2 (cv_fun (r0_c r)) t acc ->
    cone0_near tau ph (giwL (cp_mass ph) (cp_gravity ph) (cv_fun (r0_c r) t) acc (dL_fun (r0_dL r) t)).
(** The shortest duration for which computeEndEffector is on the scale of the solver. *)
Definition shortest (flag : Z) : R :=
  if Z.eqb flag F_jerk then 1 / 20 else if Z.eqb flag F_x3 then 1 / 5 else 4 / 5.
