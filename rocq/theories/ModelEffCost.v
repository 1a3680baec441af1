(** /repo/include/hpp/bezier-com-traj/solve_end_effector.hh, lines 282-310 *)
From Verif Require Import Vec ModelData ModelDispatch ModelUtils ModelRows ModelCont ModelSolver ModelTraj ModelEff.
Open Scope R_scope.

(** [ckcit->first(0, i * 3)] for i = 0, ..., dimVar/3 - 1; past the last column is
    out of range. *)
Definition first_coefs (w : wpn) (nf : nat) : outcome (list R) :=
  mapM (fun i => b <- get (wn_blocks w) i ;; Ok (vx (row0 b))) (seq 0 nf).
(** The matrix with the blocks [Identity() * a] on its diagonal, one for each [a] in [cs]. *)
Definition diag_blocks (cs : list R) : list (list R) :=
  let n := (3 * length cs)%nat in
  concat (map (fun p => [identity_row n (3 * fst p) (snd p); identity_row n (3 * fst p + 1) (snd p); identity_row n (3 * fst p + 2) (snd p)])
              (combine (seq 0 (length cs)) cs)).

(** lines 292-303, the two nested loops.  The inner one writes to disjoint blocks: the
    blocks are added at once. *)
Fixpoint vel_sum (nf : nat) (ws : list wpn) (H : list (list R)) (g : list R) : outcome (list (list R) * list R) :=
  match ws with
  | [] => Ok (H, g)
  | w :: ws' =>
      cs <- first_coefs w nf ;;
      vel_sum nf ws' (matx_add H (diag_blocks (map (fun a => a * a) cs)))
        (vecx_add g (concat (map (fun a => l3 (vscal a (wn_pt w))) cs)))
  end.
(** lines 282-310, computeVelCostFunctionDiscretized.  [numPoints] is an int; one point
    makes [step] infinite and [0 * step] NaN: undefined. *)
Definition computeVelCostFunctionDiscretized (numPoints : nat) (pData : problem) (T : R) : outcome (list (list R) * list R) :=
  if Nat.eqb numPoints 1 then UB else
  let step := 1 / (INR numPoints - 1) in
  pi <- computeConstantWaypoints pData T ;;
  ws <- mapM (fun i => evaluateVelocityCurveWaypointAtTime pData T pi (INR i * step)) (seq 0 numPoints) ;;
  vel_sum (dimVar pData / 3) ws (matx_zero (dimVar pData)) (repeat 0 (dimVar pData)).
