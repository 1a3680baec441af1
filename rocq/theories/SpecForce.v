(** Specification vocabulary for force plans made with the bundled QP solver. *)
From Verif Require Import Vec SpecBezier SpecTime ModelData ModelDispatch ModelCont ModelSolver ModelTraj ModelQp
  SpecCom SpecCtr SpecCont SpecTraj SpecEnd3.
Open Scope R_scope.

(** Sum of the squared products of [u] with the generators, |G'u|^2; the singular
    values of the matrix of the generators are between [s] and [Gam]. *)
Definition gen_sq (G : list v6) (u : v6) : R := sum_list (map (fun g => dot6 u g * dot6 u g) G).
Definition singular_values (s Gam : R) (G : list v6) : Prop :=
  forall u, s * s * dot6 u u <= gen_sq G u <= Gam * Gam * dot6 u u.
(** Sum of the lengths of the generators. *)
Definition gen_len (G : list v6) : R := sum_list (map norm6 G).

(** The weight of the forces in the cost. *)
Definition force_weight : R := 1 / 1000000.
(** The problem is on the scale of the solver.  [lam] is the weight of the free point
    in the cost, [B] bounds the rate of the wrench, [kap] the length of the rows of
    the kinematic constraints, [s] the singular values of the generators from below. *)
Definition force_scale (pData : problem) (lam B kap s : R) : Prop :=
  1 <= B /\ 1 <= kap /\ force_weight <= lam /\
  eps52 * (B * B) < lam * force_weight /\ eps52 * (kap * kap) < lam * force_weight /\ eps52 * (lam * lam) < s * s /\
  (forall c K, In c (contacts pData) -> In K (cd_Kin c) -> vnorm K <= kap) /\
  (forall c ph, In c (contacts pData) -> cd_phase c = Some ph -> exists Gam, singular_values s Gam (cp_G ph) /\
     eps52 * (cp_mass ph * B * (cp_mass ph * B) / lam + Gam * Gam / force_weight) < force_weight).
(** The tolerance of the solver for [F] forces and [n] rows besides their bounds. *)
Definition force_tol (F n : nat) (lam : R) : R :=
  accuracy (3 + F) (n + (3 + F)) (3 * lam + INR F * force_weight) force_weight.

(** The wrench [w] is at most [e] away from the cone of the generators. *)
Definition near_cone (e : R) (G : list v6) (w : v6) : Prop := exists v, in_cone G v /\ norm6 (v6sub v w) <= e.
