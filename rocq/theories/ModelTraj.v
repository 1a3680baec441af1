(** /repo/src/costfunction_definition.cpp and the end of
    /repo/src/computeCOMTraj.cpp: costs, solving, resulting trajectory. *)
From Verif Require Import Vec SpecBezier ModelData ModelDispatch ModelUtils ModelRows ModelCom ModelNd ModelCont ModelSolver.
Open Scope R_scope.

(** [H.block<3,3>(0,0) = M; g.head<3>() = v;] *)
Definition set_Hg (M : mat3) (v : vec3) (Hg : list (list R) * list R) : outcome (list (list R) * list R) :=
  H <- write_block (fst Hg) 0 0 (m_rows M) ;;
  g <- write_rows (snd Hg) 0 (l3 v) ;;
  Ok (H, g).

(** costfunction_definition.cpp:13-21, computeCostMidPoint. *)
Definition computeCostMidPoint (pData : problem) (Hg : list (list R) * list R) :=
  let midPoint := vdivs (vadd (c0 pData) (c1 pData)) 2 in
  set_Hg mid (vopp midPoint) Hg.

(** costfunction_definition.cpp:24-34, computeCostEndVelocity.  The guard is
    [flag_ && END_VEL] (logical and): true for every non-zero flag. *)
Definition computeCostEndVelocity (pData : problem) (T : R) (Hg : list (list R) * list R) :=
  if (negb (Z.eqb (flag_of pData) 0) && negb (Z.eqb END_VEL 0))%bool then Throw else
  v <- computeFinalVelocityPoint pData T ;;
  set_Hg (mscal (fst v) (mscal (fst v) mid)) (vscal (fst v) (vsub (snd v) (dc1 pData))) Hg.

(** costfunction_definition.cpp:37-53, computeCostMinAcceleration; the block and
    the head that are set to zero and then accumulated are local here. *)
Fixpoint sum_acc (ws : list coefs) (M : mat3) (v : vec3) : mat3 * vec3 :=
  match ws with
  | [] => (M, v)
  | w :: ws' => sum_acc ws' (madd M (mscal (fst w) (mscal (fst w) mid))) (vadd v (vscal (fst w) (snd w)))
  end.
Definition computeCostMinAcceleration (pData : problem) (Ts : list R) (ta : T_time) (Hg : list (list R) * list R) :=
  ws <- computeDiscretizedAccelerationWaypoints pData (sumR Ts) ta ;;
  let '(M, v) := sum_acc ws mzero vzero in
  set_Hg M v Hg.

(** costfunction_definition.cpp:55-73, cost::genCostFunction. *)
Definition cost_genCostFunction (pData : problem) (Ts : list R) (T : R) (ta : T_time) (Hg : list (list R) * list R)
  : outcome (list (list R) * list R) :=
  if Z.eqb (costFunction pData) ACCELERATION then computeCostMinAcceleration pData Ts ta Hg
  else if Z.eqb (costFunction pData) DISTANCE_TRAVELED then computeCostMidPoint pData Hg
  else if Z.eqb (costFunction pData) TARGET_END_VELOCITY then computeCostEndVelocity pData T Hg
  else Throw.

(** computeCOMTraj.cpp:316-324, genCostFunction. *)
Definition genCostFunction (pData : problem) (Ts : list R) (T : R) (ta : T_time) (dim : nat)
  : outcome (list (list R) * list R) :=
  cost_genCostFunction pData Ts T ta (identity dim (1 / 1000000), repeat 0 dim).

(** operator() of an ndcurves Bezier curve of 3-vectors (external): throws
    outside of its interval. *)
Definition nd_value (cv : ndc vec3) (t : R) : outcome vec3 :=
  if Rlt_dec t (nd_min cv) then Throw else if Rlt_dec (nd_max cv) t then Throw else
  Ok (vscal (nd_mult cv) (bez3 (nd_pts cv) ((t - nd_min cv) / (nd_max cv - nd_min cv)))).
(** derivate(t, k) is compute_derivate(k) at t *)
Definition bc_derivate (scaled : bool) (cv : bcurve) (t : R) (k : nat) : outcome vec3 :=
  d <- nd_derivate vec3 vsub vscal vzero scaled k (NDC (bc_pts cv) 0 (bc_T cv) 1) ;;
  nd_value d t.

(** data.hh:121-136, ResultDataCOMTraj, and its default value. *)
Record resultCOM := ResultCOM { rc_success : bool; rc_cost : R; rc_x : list R;
  rc_c : bcurve; rc_dL : bcurve; rc_dc1 : vec3; rc_ddc1 : vec3 }.
Definition default_result : resultCOM :=
  ResultCOM false (-1) [] (BCurve [vzero] 1) (BCurve [vzero] 1) vzero vzero.

(** [v.head<3>()] *)
Definition head3 (v : list R) : outcome vec3 :=
  match v with a :: b :: c :: _ => Ok (V3 a b c) | _ => UB end.

(** computeCOMTraj.cpp:326-341, genTraj (308-314 inlined). *)
Definition genTraj (scaled : bool) (resQp : resultData) (pData : problem) (T : R) : outcome resultCOM :=
  if rd_success resQp then
    x <- head3 (rd_x resQp) ;;
    pis <- computeConstantWaypoints pData T ;;
    cv <- computeBezierCurve (flag_of pData) T pis x ;;
    v <- bc_derivate scaled cv (bc_T cv) 1 ;;
    a <- bc_derivate scaled cv (bc_T cv) 2 ;;
    dL <- mk_bezier [vzero] T ;;
    Ok (ResultCOM true (rd_cost resQp) (l3 x) cv dL v a)
  else Ok default_result.

Section Traj.
  Variable scaled : bool.
  Variable with_glpk : bool.
  Variable quadprog : qp -> list R -> outcome (Z * list R * R).
  Variable glpk : lp -> outcome (Z * R * list R).

  (** A matrix of three columns with its right-hand side, as rows. *)
  Definition mat3cols (rows : list (vec3 * R)) : matX := MX 3 (map (fun r => l3 (fst r)) rows).

  (** computeCOMTraj.cpp:530-550, computeCOMTrajFixedSize. *)
  Definition computeCOMTrajFixedSize (pData : problem) (Ts : list R) (pointsPerPhase : nat) : outcome resultCOM :=
    if negb (Nat.eqb (length Ts) (length (contacts pData))) then Throw else
    let T := sumR Ts in
    let ta := computeDiscretizedTimeFixed Ts pointsPerPhase in
    Ab <- computeConstraintsOneStep pData Ts T ta ;;
    Hg <- genCostFunction pData Ts T ta 3 ;;
    res <- solve_noeq with_glpk quadprog glpk (mat3cols Ab) (map snd Ab) (fst Hg) (snd Hg) (repeat 0 3) SOLVER_QUADPROG ;;
    genTraj scaled res pData T.

  (** computeCOMTraj.cpp:552-585, computeCOMTraj. *)
  Definition computeCOMTraj (pData : problem) (Ts : list R) (timeStep : R) (solver : Z) : outcome resultCOM :=
    if negb (Nat.eqb (length Ts) (length (contacts pData))) then Throw else
    let T := sumR Ts in
    pb <- (if Rlt_dec 0 timeStep then
             ta <- computeDiscretizedTime Ts timeStep ;;
             Ab <- computeConstraintsOneStep pData Ts T ta ;;
             Ok (ta, mat3cols Ab, map snd Ab, MX 3 [], [], [])
           else
             out <- computeConstraintsContinuous scaled pData Ts ;;
             Ok (computeDiscretizedTimeFixed Ts 7,
                 MX (co_cols out) (map fst (co_A out)), map snd (co_A out),
                 MX (co_cols out) (map fst (co_D out)), map snd (co_D out), co_min out)) ;;
    let '(ta, A, b, D, d, minBounds) := pb in
    Hg <- genCostFunction pData Ts T ta (mx_cols A) ;;
    res <- solve with_glpk quadprog glpk A b D d (fst Hg) (snd Hg) (repeat 0 (mx_cols A)) minBounds [] solver ;;
    genTraj scaled res pData T.
End Traj.
