(** Specification vocabulary for planned trajectories. *)
From Verif Require Import Vec SpecBezier SpecTime ModelData ModelDispatch ModelCont ModelSolver ModelTraj
  SpecCom SpecWp SpecCtr SpecSolver.
Open Scope R_scope.

(** v' H v *)
Definition quad (H : list (list R)) (v : list R) : R := rdot (map (fun r => rdot r v) H) v.
Definition sumsq (v : list R) : R := rdot v v.

(** What is asked of the back ends: an answer reported as optimal has the size
    of the problem and is feasible. *)
Definition qp_sound (quadprog : qp -> list R -> outcome (Z * list R * R)) : Prop :=
  forall q init x obj, quadprog q init = Ok (EIQUADPROG_FAST_OPTIMAL, x, obj) ->
    length x = length init /\ qp_feasible q x.
Definition lp_sound (glpk : lp -> outcome (Z * R * list R)) : Prop :=
  forall p obj x, glpk p = Ok (GLP_OPT, obj, x) -> length x = length (lp_cols p) /\ lp_feasible p x.
(** Strictly convex problems: a feasible one is reported as optimal, with a
    minimiser of 0.5 x'Hx + g'x. *)
Definition qp_convex (q : qp) (n : nat) : Prop :=
  forall v, length v = n -> v <> repeat 0 n -> 0 < quad (qp_H q) v.
Definition qp_value (q : qp) (x : list R) : R := 1 / 2 * quad (qp_H q) x + rdot (qp_g q) x.
Definition qp_solves (quadprog : qp -> list R -> outcome (Z * list R * R)) : Prop :=
  forall q init, qp_convex q (length init) ->
    (exists y, length y = length init /\ qp_feasible q y) ->
    exists x, quadprog q init = Ok (EIQUADPROG_FAST_OPTIMAL, x, qp_value q x) /\
      length x = length init /\ qp_feasible q x /\
      forall y, length y = length init -> qp_feasible q y -> qp_value q x <= qp_value q y.

(** The result [r] is a motion of the right duration, for some free point, with
    the boundary conditions of the flag; the reported final velocity and
    acceleration are its derivatives. *)
Definition plan_curve (pData : problem) (Ts : list R) (r : resultCOM) : Prop :=
  let f := cv_fun (rc_c r) in
  bc_T (rc_c r) = total Ts /\
  (exists x, rc_x r = l3 x /\ com_curve pData (total Ts) x = Ok (rc_c r)) /\
  meets_boundary pData (total Ts) f /\
  is_deriv_n 1 f (total Ts) (rc_dc1 r) /\ is_deriv_n 2 f (total Ts) (rc_ddc1 r) /\
  rc_dL r = BCurve [vzero] (total Ts).

(** No control point other than the free one is numerically zero. *)
Definition plan_no_zero_point (r : resultCOM) : Prop :=
  forall p, In p (bc_pts (rc_c r)) -> vec_isZero p = true -> l3 p = rc_x r.

(** Times handed to the cost function, phase by phase. *)
Definition times_of (Ts : list R) (ta : list (R * Z)) : Prop :=
  Forall (fun tp => 0 <= fst tp <= total Ts) ta.
Definition sum_list (l : list R) : R := fold_right Rplus 0 l.
(** sum over the times [ta] of |f''|^2 *)
Definition sum_acc2 (f : R -> vec3) (ta : list (R * Z)) (s : R) : Prop :=
  exists accs, Forall2 (fun tp a => is_deriv_n 2 f (fst tp) a) ta accs /\ s = sum_list (map vnorm2 accs).

(** The result [r] is the default one and the back end did not report an
    optimum, or it is made of the optimum it reported: its first three
    components and its objective value. *)
Definition answered (quadprog : qp -> list R -> outcome (Z * list R * R)) (glpk : lp -> outcome (Z * R * list R))
  (init : list R) (r : resultCOM) (pData : problem) (Ts : list R) : Prop :=
  (rc_success r = false /\ r = default_result /\
     ((exists q st x obj, quadprog q init = Ok (st, x, obj) /\ st <> EIQUADPROG_FAST_OPTIMAL) \/
      (exists p st x obj, glpk p = Ok (st, obj, x) /\ st <> GLP_OPT))) \/
  (rc_success r = true /\ exists x beta, rc_x r = l3 x /\ com_curve pData (total Ts) x = Ok (rc_c r) /\
     ((exists q, quadprog q init = Ok (EIQUADPROG_FAST_OPTIMAL, l3 x ++ beta, rc_cost r)) \/
      (exists p, glpk p = Ok (GLP_OPT, rc_cost r, l3 x ++ beta)))).

(** All constraints of a discretised plan, at the times [sampled]. *)
Definition plan_feasible (pData : problem) (sampled : nat -> R -> Prop) (f : R -> vec3) : Prop :=
  forall i c t, nth_error (contacts pData) i = Some c -> sampled i t -> contact_ok pData 0 c f t /\ accel_ok pData f t.
(** At some of the times the acceleration depends on the free point. *)
Definition acc_depends (pData : problem) (Ts : list R) (ta : list (R * Z)) : Prop :=
  exists tp x y cvx cvy ax ay, In tp ta /\ com_curve pData (total Ts) x = Ok cvx /\ com_curve pData (total Ts) y = Ok cvy /\
    is_deriv_n 2 (cv_fun cvx) (fst tp) ax /\ is_deriv_n 2 (cv_fun cvy) (fst tp) ay /\ ax <> ay.
(** middle of the initial and final positions *)
Definition mid_of (pData : problem) : vec3 := vscal (1 / 2) (vadd (c0 pData) (c1 pData)).
