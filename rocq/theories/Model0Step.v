(** /repo/src/solve_0_step.cpp and the parts of
    /repo/src/common_solve_methods.cpp it uses. *)
From Verif Require Import Vec SpecBezier ModelData ModelDispatch ModelUtils ModelRows ModelCom ModelNd ModelCont ModelSolver ModelTraj.
Open Scope R_scope.

Definition mx3 (k : R) : mat3 := mscal k mid.

(** solve_0_step.cpp:12-65: w0 .. w4.  initwp (utils.hh) is the zero waypoint. *)
Definition z_w0 (p0 p1 g : vec3) (alpha : R) : wp6 :=
  W6 (mx3 (6 * alpha)) (mscal (6 * alpha) (skew p0))
     (vscal (6 * alpha) (vsub p0 (vscal 2 p1)))
     (vcross (vopp p0) (vadd (vscal (12 * alpha) p1) g)).
Definition z_w1 (p0 p1 g : vec3) (alpha : R) : wp6 :=
  W6 (mx3 (3 * alpha)) (mscal alpha (skew (vscal (3 / 2) (vsub (vscal 3 p1) p0))))
     (vscal (3 / 2 * alpha) (vsub (vscal 3 p0) (vscal 5 p1)))
     (vadd (vcross (vscal (3 * alpha) p0) (vopp p1)) (vscal (1 / 4) (mvmul (skew g) (vadd (vscal 3 p1) p0)))).
Definition z_w2 (p0 p1 g : vec3) (alpha : R) : wp6 :=
  W6 mzero (skew (vadd (vsub (vscal (1 / 2) g) (vscal (3 * alpha) p0)) (vscal (3 * alpha) p1)))
     (vscal (3 * alpha) (vsub p0 p1))
     (mvmul (mscal (1 / 2) (skew g)) p1).
Definition z_w3 (p0 p1 g : vec3) (alpha : R) : wp6 :=
  W6 (mx3 (-3 * alpha)) (skew (vsub g (vscal (3 / 2 * alpha) (vadd p1 p0))))
     (vscal (3 / 2 * alpha) (vadd p1 p0)) vzero.
Definition z_w4 (p0 p1 g : vec3) (alpha : R) : wp6 :=
  W6 (mx3 (-6 * alpha)) (skew (vsub g (vscal (6 * alpha) p1)))
     (vscal (6 * alpha) p1) vzero.
(** solve_0_step.cpp:67-109: u0 .. u4. *)
Definition z_u0 (l0 : vec3) (alpha : R) : wp6 := W6 mzero (mx3 (3 * alpha)) vzero (vscal (-3 * alpha) l0).
Definition z_u1 (l0 : vec3) (alpha : R) : wp6 := W6 mzero mzero vzero (vscal (-(3 / 2) * alpha) l0).
Definition z_u2 (l0 : vec3) (alpha : R) : wp6 :=
  W6 mzero (mx3 (-(3 / 2) * alpha)) vzero (vscal alpha (vdivs (vopp l0) 2)).
Definition z_u3 (l0 : vec3) (alpha : R) : wp6 := W6 mzero (mx3 (-(3 / 2) * alpha)) vzero vzero.
Definition z_u4 (l0 : vec3) (alpha : R) : wp6 := w6_zero.

(** Conversion of a double to int: towards zero, undefined if it does not fit. *)
Definition to_int (v : R) : outcome Z :=
  let z := if Rle_dec 0 v then Int_part v else (- Int_part (- v))%Z in
  if ((-2147483648 <=? z)%Z && (z <=? 2147483647)%Z)%bool then Ok z else UB.
(** solve_0_step.cpp:111-113 *)
Definition computeNumSteps (T timeStep : R) : outcome Z :=
  if Rlt_dec 0 timeStep then to_int (T / timeStep) else Ok (-1)%Z.

(** common_solve_methods.cpp:8-23, ComputeDiscretizedWaypoints for the five
    waypoints and the five Bernstein polynomials of degree 4 it is given. *)
Definition z_discretize (wps : list wp6) (numSteps : Z) : outcome (list wp6) :=
  let dt := 1 / IZR numSteps in
  mapM (fun i => combine_w 4 0 (INR i * dt) wps w6_zero) (seq 0 (Z.to_nat (numSteps + 1))).

(** solve_0_step.cpp:115-136.  1/(T*T) for T = 0 is not a number: undefined. *)
Definition ComputeAllWaypoints (p0 dc0 g : vec3) (T timeStep : R) : outcome (list wp6) :=
  numSteps <- computeNumSteps T timeStep ;;
  let p1 := vadd (vdivs (vscal T dc0) 3) p0 in
  if Req_EM_T T 0 then UB else
  let alpha := 1 / (T * T) in
  let wps := [z_w0 p0 p1 g alpha; z_w1 p0 p1 g alpha; z_w2 p0 p1 g alpha; z_w3 p0 p1 g alpha; z_w4 p0 p1 g alpha] in
  if (0 <? numSteps)%Z then z_discretize wps numSteps else Ok wps.
(** solve_0_step.cpp:138-153 *)
Definition ComputeAllWaypointsAngularMomentum (l0 : vec3) (T timeStep : R) : outcome (list wp6) :=
  numSteps <- computeNumSteps T timeStep ;;
  if Req_EM_T T 0 then UB else
  let alpha := 1 / T in
  let wps := [z_u0 l0 alpha; z_u1 l0 alpha; z_u2 l0 alpha; z_u3 l0 alpha; z_u4 l0 alpha] in
  if (0 <? numSteps)%Z then z_discretize wps numSteps else Ok wps.

(** A row of A with its right-hand side: columns 0-2, columns 3-5 (not used
    without angular momentum), entry of b.  All blocks of A that are written
    cover whole triples of columns, and b is always written on the same rows. *)
Record zrow := ZRow { zr_x : vec3; zr_l : vec3; zr_b : R }.
Definition zrow0 : zrow := ZRow vzero vzero 0.
(** Apply [fs] to the rows from [i] on: undefined if there are not enough. *)
Definition patch (buf : list zrow) (i : nat) (fs : list (zrow -> zrow)) : outcome (list zrow) :=
  if Nat.leb (i + length fs) (length buf) then
    Ok (firstn i buf ++ map (fun fr => fst fr (snd fr)) (combine fs (firstn (length fs) (skipn i buf)))
        ++ skipn (i + length fs) buf)
  else UB.

(** common_solve_methods.cpp:101-103: normalised rows of -H; a null row
    would be divided by zero. *)
Definition z_unit (Hh : v6 * R) : outcome v6 :=
  let H := v6_scal (-1) (fst Hh) in
  if Req_EM_T (v6_norm H) 0 then UB else Ok (v6_div H (v6_norm H)).
(** common_solve_methods.cpp:105, 111-112, 117-118 ([z_lin]) and 120-121
    ([z_ang]) for one row [H] *)
Definition z_lin (m : R) (g : vec3) (w : wp6) (H : v6) (r : zrow) : zrow :=
  let mH := v6_scal m H in
  ZRow (v6_mmul mH w) (zr_l r) (v6_dot mH (vsub g (w_head w), vsub vzero (w_tail w))).
Definition z_ang (u : wp6) (H : v6) (r : zrow) : zrow :=
  ZRow (zr_x r) (v6_mmul H u) (zr_b r + v6_dot H (vopp (w_head u), vopp (w_tail u))).
(** common_solve_methods.cpp:113-125: the loop over the waypoints *)
Fixpoint z_fill (useAng : bool) (m : R) (g : vec3) (Hs : list v6) (i : nat) (wps wpL : list wp6) (buf : list zrow)
  : outcome (list zrow) :=
  match wps with
  | [] => Ok buf
  | w :: wps' =>
      buf <- patch buf (i * length Hs) (map (z_lin m g w) Hs) ;;
      if useAng then
        match wpL with
        | [] => UB
        | u :: wpL' =>
            buf <- patch buf (i * length Hs) (map (z_ang u) Hs) ;;
            z_fill useAng m g Hs (S i) wps' wpL' buf
        end
      else z_fill useAng m g Hs (S i) wps' wpL buf
  end.
(** common_solve_methods.cpp:39-45, addKinematic; 47-54, addAngularMomentum.
    As many rows of the matrix as the vector has are read: fewer is undefined. *)
Definition addKinematic (Kin : list vec3) (kin : list R) (other : nat) (buf : list zrow) : outcome (list zrow) :=
  match kin with
  | [] => Ok buf
  | _ =>
      if Nat.ltb (length Kin) (length kin) then UB else
      if Nat.ltb (length buf) (length kin + other) then UB else
      patch buf (length buf - length kin - other)
        (map (fun Kk r => ZRow (fst Kk) (zr_l r) (snd Kk)) (combine Kin kin))
  end.
Definition addAngularMomentum (Ang : list vec3) (ang : list R) (buf : list zrow) : outcome (list zrow) :=
  match ang with
  | [] => Ok buf
  | _ =>
      if Nat.ltb (length Ang) (length ang) then UB else
      if Nat.ltb (length buf) (length ang) then UB else
      patch buf (length buf - length ang)
        (map (fun Aa r => ZRow (zr_x r) (fst Aa) (snd Aa)) (combine Ang ang))
  end.
(** common_solve_methods.cpp:88-141.  Line 127 hands Kin_ and kin_ to
    addAngularMomentum.  The normalisation is commented out in the source;
    [fail] is always false. *)
Definition compute6d (cData : contact) (wps wpL : list wp6) (useAng : bool) : outcome (list zrow) :=
  ph <- deref (cd_phase cData) ;;
  Hs <- mapM z_unit (cp_poly ph) ;;
  let dimKin := length (cd_kin cData) in
  let dimAng := if useAng then length (cd_ang cData) else 0%nat in
  let buf := repeat zrow0 (length Hs * length wps + (dimKin + dimAng)) in
  buf <- z_fill useAng (cp_mass ph) (cp_gravity ph) Hs 0 wps wpL buf ;;
  buf <- addKinematic (cd_Kin cData) (cd_kin cData) dimAng buf ;;
  if useAng then addAngularMomentum (cd_Kin cData) (cd_kin cData) buf else Ok buf.

(** solve_0_step.cpp:165-175 *)
Definition compute6dControlPointInequalities (cData : contact) (c0 dc0 l0 : vec3) (useAng : bool) (T timeStep : R)
  : outcome (list zrow) :=
  ph <- deref (cd_phase cData) ;;
  wps <- ComputeAllWaypoints c0 dc0 (cp_gravity ph) T timeStep ;;
  wpL <- (if useAng then ComputeAllWaypointsAngularMomentum l0 T timeStep else Ok []) ;;
  compute6d cData wps wpL useAng.

(** The matrix and the vector, 3 or 6 columns. *)
Definition z_dim (useAng : bool) : nat := if useAng then 6 else 3.
Definition z_row_list (useAng : bool) (r : zrow) : list R :=
  if useAng then l3 (zr_x r) ++ l3 (zr_l r) else l3 (zr_x r).

(** solve_0_step.cpp:177-197, computeCostFunction. *)
Definition z_cost (p0 l0 : vec3) (useAng : bool) : outcome (list (list R) * list R) :=
  let dimPb := z_dim useAng in
  let weightDist := if useAng then 1 / 10000 else 1 in
  let H := identity dimPb 0 in
  let g := repeat 0 dimPb in
  H <- write_block H 0 0 (m_rows (mx3 weightDist)) ;;
  g <- write_rows g 0 (l3 (vscal weightDist (vopp p0))) ;;
  if useAng then
    H <- write_block H 3 3 (m_rows (mdivs (mscal 6 mid) 5)) ;;
    g <- write_rows g 3 (l3 (vscal (1 / 2) (vopp (vdivs (vscal 9 l0) 5)))) ;;
    Ok (H, g)
  else Ok (H, g).

(** data.hh:121-136, the members of ResultDataCOMTraj that are set here (dc1_,
    ddc1_ keep their default); dL_of_t_ with its multiplier. *)
Record result0 := Result0 { r0_success : bool; r0_cost : R; r0_x : list R; r0_c : bcurve; r0_dL : ndc vec3 }.
Definition default_result0 : result0 := Result0 false (-1) [] (BCurve [vzero] 1) (NDC [vzero] 0 1 1).

(** [x.tail(3)] *)
Definition tail3 (v : list R) : outcome vec3 := if Nat.ltb (length v) 3 then UB else head3 (skipn (length v - 3) v).
(** solve_0_step.cpp:199-206, computeRealCost. *)
Definition computeRealCost (pData : problem) (x : list R) : outcome R :=
  if useAngularMomentum pData then
    xL <- tail3 x ;;
    Ok (1 / 5 * (9 * vdot (l0 pData) (l0 pData) - 9 * vdot (l0 pData) xL + 6 * vdot xL xL))
  else if Nat.eqb (length x) 3 then
    x3 <- head3 x ;; Ok (vnorm (vsub (c0 pData) x3))
  else UB.
(** solve_0_step.cpp:208-216, computeC_of_T. *)
Definition z_C_of_T (pData : problem) (T : R) (x : list R) : outcome bcurve :=
  x3 <- head3 x ;;
  mk_bezier [c0 pData; vadd (vdivs (vscal T (dc0 pData)) 3) (c0 pData); x3; x3] T.
(** solve_0_step.cpp:218-228, computedL_of_T. *)
Definition z_dL_of_T (pData : problem) (T : R) (x : list R) : outcome (ndc vec3) :=
  if useAngularMomentum pData then
    xL <- tail3 x ;;
    nd_make vec3 [vscal 3 (vsub xL (l0 pData)); vscal 3 (vopp xL); vzero] 0 T (1 / T)
  else nd_make vec3 [vzero] 0 T 1.

Section Solve0.
  Variable with_glpk : bool.
  Variable quadprog : qp -> list R -> outcome (Z * list R * R).
  Variable glpk : lp -> outcome (Z * R * list R).

  (** solve_0_step.cpp:231-259, solve0step (asserts off). *)
  Definition solve0step (pData : problem) (Ts : list R) (timeStep : R) : outcome result0 :=
    c <- get (contacts pData) 0 ;;
    T <- get Ts 0 ;;
    let useAng := useAngularMomentum pData in
    Ab <- compute6dControlPointInequalities c (c0 pData) (dc0 pData) (l0 pData) useAng T timeStep ;;
    Hg <- z_cost (c0 pData) (l0 pData) useAng ;;
    let init := if useAng then l3 (c0 pData) ++ l3 (l0 pData) else l3 (c0 pData) in
    res <- solve_noeq with_glpk quadprog glpk (MX (z_dim useAng) (map (z_row_list useAng) Ab)) (map zr_b Ab)
             (fst Hg) (snd Hg) init SOLVER_QUADPROG ;;
    if rd_success res then
      cost <- computeRealCost pData (rd_x res) ;;
      c <- z_C_of_T pData T (rd_x res) ;;
      dL <- z_dL_of_T pData T (rd_x res) ;;
      Ok (Result0 true cost (rd_x res) c dL)
    else Ok default_result0.
End Solve0.
