(** Specification vocabulary for the cheapest force plans (C74). *)
From Coq Require Import List.
From Verif Require Import Vec SpecBezier SpecTime ModelData ModelDispatch ModelCont ModelSolver ModelTraj
  SpecCom SpecCtr SpecCont SpecTraj.
Import ListNotations.
Open Scope R_scope.

(** The control points of the wrench that get forces, [k] control points in a phase:
    pairs of a phase, numbered from [i], and a control point of it.  [prev] is the
    number of generators of the phase before (0: none).  A phase leaves its first
    control point to a previous phase with fewer generators, and its last one to a
    next phase with as many or fewer. *)
Fixpoint force_places (k prev i : nat) (cs : list contact) : list (nat * nat) :=
  match cs with
  | [] => []
  | c :: cs' =>
      let n := gen_count c in
      let first := if (Nat.ltb 0 prev && Nat.ltb prev n)%bool then 1%nat else 0%nat in
      let last := match cs' with c2 :: _ => if Nat.leb (gen_count c2) n then 1%nat else 0%nat | [] => 0%nat end in
      map (pair i) (seq first (k - first - last)) ++ force_places k n (S i) cs'
  end.
(** The forces [Bl], a list for every such control point, balance the motion [f]:
    combining the generators of the phase they give the control point of its wrench.
    Forces may be negative here. *)
Definition balances (pData : problem) (Ts : list R) (k : nat) (f : R -> vec3) (Bl : list (list R)) : Prop :=
  Forall2 (fun ij b => exists c ph Pw w,
    nth_error (contacts pData) (fst ij) = Some c /\ cd_phase c = Some ph /\
    length Pw = k /\ ctrl_giw Pw (phase_start Ts (fst ij)) (phase_end Ts (fst ij)) ph f /\
    nth_error Pw (snd ij) = Some w /\ length b = length (cp_G ph) /\ comb (cp_G ph) b = w)
  (force_places k 0 0 (contacts pData)) Bl.
(** No force pulls. *)
Definition no_pull (Bl : list (list R)) : Prop := Forall (Forall (Rle 0)) Bl.
(** Sum of the squares of the forces. *)
Definition force_sq (Bl : list (list R)) : R := sum_list (map (fun b => sum_list (map (fun x => x * x) b)) Bl).

(** On every phase the control points of the motion [cv] and of its acceleration
    meet the kinematic constraints and the acceleration bound. *)
Definition ctrl_moves (scaled : bool) (pData : problem) (Ts : list R) (cv : bcurve) : Prop :=
  forall i c Pc Pa, nth_error (contacts pData) i = Some c ->
    length Pc = length (bc_pts cv) -> ctrl_pos Pc (phase_start Ts i) (phase_end Ts i) (cv_fun cv) ->
    length Pa = (length (bc_pts cv) - 2)%nat -> ctrl_acc Pa (phase_start Ts i) (phase_end Ts i) (cv_fun cv) ->
    Forall (kin_ok c) Pc /\ Forall (within (acc_bound scaled pData Ts)) Pa.
