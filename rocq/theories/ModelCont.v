(** /repo/src/computeCOMTraj.cpp, continuous formulation. *)
From Verif Require Import Vec ModelData ModelWaypoints ModelDispatch ModelUtils ModelRows ModelCom ModelNd.
Open Scope R_scope.

(** waypoint_t with a 3x3 matrix and a 3-vector, and its operators (utils.cpp
    operator+, -, *; all points of the curve have the same size). *)
Definition aff : Type := (mat3 * vec3)%type.
Definition aff_add (a b : aff) : aff := (madd (fst a) (fst b), vadd (snd a) (snd b)).
Definition aff_sub (a b : aff) : aff := (msub (fst a) (fst b), vsub (snd a) (snd b)).
Definition aff_scal (k : R) (a : aff) : aff := (mscal k (fst a), vscal k (snd a)).
Definition aff_zero : aff := (mzero, vzero).
(** The constraints are written in blocks of three columns: a waypoint with
    more columns is a size mismatch. *)
Definition wpn_aff (w : wpn) : outcome aff :=
  match wn_blocks w with [m] => Ok (m, wn_pt w) | _ => UB end.

Definition w6_sub (a b : wp6) : wp6 := w6_add a (w6_scal (-1) b).

(** computeCOMTraj.cpp:355-374, computeNumIneqContinuous. *)
Fixpoint num_ineq_cont_loop (cs : list contact) (degree w_degree : Z) (useDD : bool) (acc : Z)
  : outcome Z :=
  match cs with
  | [] => Ok acc
  | c :: cs' =>
      let acc := (acc + Z.of_nat (length (cd_kin c)) * (degree + 1))%Z in
      if useDD then
        ph <- deref (cd_phase c) ;;
        num_ineq_cont_loop cs' degree w_degree useDD
          (acc + Z.of_nat (length (cp_poly ph)) * (w_degree + 1))%Z
      else num_ineq_cont_loop cs' degree w_degree useDD acc
  end.
Definition computeNumIneqContinuous (pData : problem) (Ts : list R) (degree w_degree : Z) (useDD : bool)
  : outcome Z :=
  n <- num_ineq_cont_loop (contacts pData) degree w_degree useDD 0 ;;
  Ok (n + (degree - 1) * 6 * Z.of_nat (length Ts))%Z.

(** [contactPhase_->m_G_centr.cols()] *)
Definition g_cols (c : contact) : outcome nat :=
  ph <- deref (cd_phase c) ;; Ok (length (cp_G ph)).
(** computeCOMTraj.cpp:387-410, computeNumEqContinuous: (numEq, forceVarDim).
    [++it2] on an empty vector is undefined. *)
Fixpoint num_eq_loop (cs : list contact) (w_degree : Z) (cSize : nat) (numEq forceVarDim : Z)
  : outcome (Z * Z) :=
  match cs with
  | [] => Ok (numEq, forceVarDim)
  | c :: cs' =>
      cols <- g_cols c ;;
      let cur := (w_degree + 1)%Z in
      let cur := if (negb (Nat.eqb cSize 0) && Nat.ltb cSize cols)%bool then (cur - 1)%Z else cur in
      cur <- (match cs' with
              | [] => Ok cur
              | c2 :: _ => cols2 <- g_cols c2 ;;
                           Ok (if Nat.leb cols2 cols then (cur - 1)%Z else cur)
              end) ;;
      num_eq_loop cs' w_degree cols (numEq + 6 * cur)%Z (forceVarDim + Z.of_nat cols * cur)%Z
  end.
Definition computeNumEqContinuous (pData : problem) (w_degree : Z) (useForce : bool)
  : outcome (Z * Z) :=
  if useForce then
    match contacts pData with
    | [] => UB
    | cs => num_eq_loop cs w_degree 0 0 0
    end
  else Ok (0, 0)%Z.

(** [M.block(r, c, rows, cols) = B]: undefined when the block does not fit. *)
Definition put_row (row : list R) (c : nat) (b : list R) : outcome (list R) :=
  if Nat.leb (c + length b) (length row)
  then Ok (firstn c row ++ b ++ skipn (c + length b) row) else UB.
Fixpoint put_rows (M : list (list R)) (c : nat) (B : list (list R)) : outcome (list (list R)) :=
  match B, M with
  | [], _ => Ok M
  | b :: B', row :: M' => row' <- put_row row c b ;; M'' <- put_rows M' c B' ;; Ok (row' :: M'')
  | _ :: _, [] => UB
  end.
Fixpoint set_block (M : list (list R)) (r c : nat) (B : list (list R)) : outcome (list (list R)) :=
  match r, M with
  | O, _ => put_rows M c B
  | S r', row :: M' => M'' <- set_block M' r' c B ;; Ok (row :: M'')
  | S _, [] => UB
  end.

Definition l3 (v : vec3) : list R := [vx v; vy v; vz v].
Definition l6 (v : v6) : list R := l3 (fst v) ++ l3 (snd v).
Definition m_rows (m : mat3) : list (list R) := [l3 (row0 m); l3 (row1 m); l3 (row2 m)].
(** the six rows of a matrix given by its columns *)
Definition G_rows (G : list v6) : list (list R) :=
  map (fun r => map (fun col => nth r (l6 col) 0) G) (seq 0 6).

(** The matrix D, the vector d, and the indices rowIdx and id_cols. *)
Record force_st := FS { fs_row : nat; fs_col : nat; fs_D : list (list R); fs_d : list R }.

(** computeCOMTraj.cpp:149-160, assignStabilityConstraintsForTimeStepForce,
    with the increment of rowIdx by the caller (line 493). *)
Definition assignForce (w : wp6) (ph : cphase) (s : force_st) : outcome force_st :=
  let m := cp_mass ph in
  D <- set_block (fs_D s) (fs_row s) (fs_col s) (G_rows (cp_G ph)) ;;
  D <- set_block D (fs_row s) 0 (m_rows (mscal m (w_top w)) ++ m_rows (mscal m (w_bot w))) ;;
  d <- write_rows (fs_d s) (fs_row s)
         (l6 (vscal m (vsub (cp_gravity ph) (w_head w)), vscal m (vsub vzero (w_tail w)))) ;;
  Ok (FS (fs_row s + 6) (fs_col s + length (cp_G ph)) D d).
Fixpoint force_loop (ws : list wp6) (ph : cphase) (s : force_st) : outcome force_st :=
  match ws with
  | [] => Ok s
  | w :: ws' => s' <- assignForce w ph s ;; force_loop ws' ph s'
  end.

(** lines 472-479: kinematic rows of one control point *)
Definition kin_row_aff (p : aff) (K : vec3) (k : R) : vec3 * R :=
  (vmmul K (fst p), k - vdot K (snd p)).
Fixpoint cont_kin (phase : contact) (ps : list aff) (st : st_rows) : outcome st_rows :=
  match ps with
  | [] => Ok st
  | p :: ps' =>
      rows <- kin_rows (kin_row_aff p) (cd_Kin phase) (cd_kin phase) ;;
      st' <- emit rows st ;; cont_kin phase ps' st'
  end.
(** lines 481-486 *)
Fixpoint cont_stab (mHh : list (v6 * R)) (g : vec3) (ws : list wp6) (st : st_rows) : outcome st_rows :=
  match ws with
  | [] => Ok st
  | w :: ws' => st' <- assignStabilityConstraintsForTimeStep mHh w g st ;; cont_stab mHh g ws' st'
  end.
(** lines 500-507 *)
Fixpoint cont_acc (amax : R) (ps : list aff) (st : st_rows) : outcome st_rows :=
  match ps with
  | [] => Ok st
  | p :: ps' => st' <- emit (acc_rows (fst p) (snd p) amax) st ;; cont_acc amax ps' st'
  end.

(** lines 488-492: the control points kept by the force formulation.  [--stop]
    on an empty range cannot occur: a curve has at least one control point. *)
Definition kept (drop_first drop_last : bool) (ws : list wp6) : list wp6 :=
  let ws := if drop_last then removelast ws else ws in
  if drop_first then tl ws else ws.

(** lines 461-508, the loop over the phases; [cs] are the contacts from
    id_phase on ([pData.contacts_[id_phase]] out of range is undefined). *)
Record cont_st := CS { cs_t : R; cs_rows : st_rows; cs_force : force_st; cs_cSize : nat }.
Definition ex_c := nd_extract aff aff_add aff_scal.
Definition ex_w := nd_extract wp6 w6_add w6_scal.
Fixpoint cont_loop (pData : problem) (useDD : bool) (c ddc : ndc aff) (w : ndc wp6)
  (Ts : list R) (cs : list contact) (s : cont_st) : outcome cont_st :=
  match Ts with
  | [] => Ok s
  | d :: Ts' =>
      let t := cs_t s in
      pc <- ex_c c t (d + t) ;;
      pa <- ex_c ddc t (d + t) ;;
      pw <- ex_w w t (d + t) ;;
      match cs with
      | [] => UB
      | phase :: cs' =>
          st <- cont_kin phase (nd_pts pc) (cs_rows s) ;;
          r <- (if useDD then
                  mHh <- updateH pData phase ;;
                  ph <- deref (cd_phase phase) ;;
                  st' <- cont_stab mHh (cp_gravity ph) (nd_pts pw) st ;;
                  Ok (st', cs_force s, cs_cSize s)
                else
                  ph <- deref (cd_phase phase) ;;
                  let cols := length (cp_G ph) in
                  drop_last <- (match Ts', cs' with
                                | [], _ => Ok false
                                | _ :: _, [] => UB
                                | _ :: _, c2 :: _ => cols2 <- g_cols c2 ;; Ok (Nat.leb cols2 cols)
                                end) ;;
                  let drop_first := (Nat.ltb 0 (cs_cSize s) && Nat.ltb (cs_cSize s) cols)%bool in
                  f <- force_loop (kept drop_first drop_last (nd_pts pw)) ph (cs_force s) ;;
                  Ok (st, f, cols)) ;;
          let '(st, f, cSize) := r in
          st <- cont_acc (k_maxAcceleration (constr pData)) (nd_pts pa) st ;;
          cont_loop pData useDD c ddc w Ts' cs' (CS (t + d) st f cSize)
      end
  end.

(** The result: rows of A with b, rows of D with d, minBounds, and the number
    of columns (of A and D). *)
Record cont_out := CO {
  co_A : list (list R * R); co_D : list (list R * R); co_min : list R; co_cols : nat }.

Definition UNBOUNDED_DOWN : R := -100000.

(** computeCOMTraj.cpp:412-528, computeConstraintsContinuous.  The buffer for A
    has the three columns that are written; [pad] adds the forceVarDim columns
    that stay zero.  [scaled]: see ModelNd.nd_derivate1. *)
Definition pad (n : nat) (rb : vec3 * option R) : outcome (list R * R) :=
  b <- deref (snd rb) ;; Ok (l3 (fst rb) ++ repeat 0 n, b).
Definition cont_raw (scaled : bool) (pData : problem) (Ts : list R)
  : outcome (nat * cont_st) :=
  let useDD := Z.eqb (representation pData) DOUBLE_DESCRIPTION in
  let T := sumR Ts in
  wps_c <- computeConstantWaypointsSymbolic pData T ;;
  wps_w <- computeWwaypoints pData T ;;
  wps_c <- mapM wpn_aff wps_c ;;
  c <- nd_make aff wps_c 0 T 1 ;;
  ddc <- nd_derivate aff aff_sub aff_scal aff_zero scaled 2 c ;;
  w <- nd_make wp6 wps_w 0 T 1 ;;
  let degree := (Z.of_nat (length (nd_pts c)) - 1)%Z in
  let w_degree := (Z.of_nat (length (nd_pts w)) - 1)%Z in
  num_ineq <- computeNumIneqContinuous pData Ts degree w_degree useDD ;;
  ne <- computeNumEqContinuous pData w_degree (negb useDD) ;;
  if (num_ineq <? 0)%Z then UB else if (fst ne <? 0)%Z then UB else if (snd ne <? 0)%Z then UB else
  let fdim := Z.to_nat (snd ne) in
  let D := repeat (repeat 0 (3 + fdim)) (Z.to_nat (fst ne)) in
  let d := repeat 0 (Z.to_nat (fst ne)) in
  s <- cont_loop pData useDD c ddc w Ts (contacts pData)
         (CS 0 (0%nat, repeat (vzero, Some 0) (Z.to_nat num_ineq)) (FS 0 3 D d) 0) ;;
  Ok (fdim, s).
Definition computeConstraintsContinuous (scaled : bool) (pData : problem) (Ts : list R)
  : outcome cont_out :=
  r <- cont_raw scaled pData Ts ;;
  let fdim := fst r in
  let s := snd r in
  A <- mapM (pad fdim) (snd (cs_rows s)) ;;
  Ok (CO A (combine (fs_D (cs_force s)) (fs_d (cs_force s)))
         (if Z.eqb (representation pData) DOUBLE_DESCRIPTION then []
          else repeat UNBOUNDED_DOWN 3 ++ repeat 0 fdim)
         (3 + fdim)).
