(** /repo/src/computeCOMTraj.cpp, discretised formulation. *)
From Verif Require Import Vec ModelData ModelDispatch ModelUtils ModelRows.
Open Scope R_scope.

(** common_solve_methods.inl:5-17, computeDiscretizedWaypoints; the two
    versions (curve, acceleration) differ by the evaluation function. *)
Definition computeDiscretizedWaypoints (pData : problem) (T : R) (ta : T_time)
  : outcome (list coefs) :=
  pi <- computeConstantWaypoints pData T ;;
  mapM (fun tp => evaluateCurveAtTime pData pi (Rmin (fst tp / T) 1)) ta.
(** common_solve_methods.inl:19-31 *)
Definition computeDiscretizedAccelerationWaypoints (pData : problem) (T : R) (ta : T_time)
  : outcome (list coefs) :=
  pi <- computeConstantWaypoints pData T ;;
  mapM (fun tp => evaluateAccelerationCurveAtTime pData pi T (Rmin (fst tp / T) 1)) ta.

(** computeCOMTraj.cpp:21-41, computeDiscretizedWwaypoints.  [combine_w] is
    the loop over [j] of lines 33-37, [n] the degree.  DIM_VAR is always 3:
    computeWwaypoints throws for the flags with more free variables. *)
Fixpoint combine_w (n j : nat) (u : R) (wps : list wp6) (acc : wp6) : outcome wp6 :=
  match wps with
  | [] => Ok acc
  | w :: wps' => b <- bern_eval n j u ;; combine_w n (S j) u wps' (w6_add acc (w6_scal b w))
  end.
Definition computeDiscretizedWwaypoints (pData : problem) (T : R) (ta : T_time)
  : outcome (list wp6) :=
  wps <- computeWwaypoints pData T ;;
  mapM (fun tp => combine_w (length wps - 1) 0 (Rmin (fst tp / T) 1) wps w6_zero) ta.

(** 6-vectors *)
Definition v6_dot (a b : v6) : R := vdot (fst a) (fst b) + vdot (snd a) (snd b).
Definition v6_scal (k : R) (a : v6) : v6 := (vscal k (fst a), vscal k (snd a)).
Definition v6_norm (a : v6) : R := sqrt (v6_dot a a).
Definition v6_div (a : v6) (k : R) : v6 := (vdivs (fst a) k, vdivs (snd a) k).
(** row vector times 3x3 matrix *)
Definition vmmul (v : vec3) (m : mat3) : vec3 :=
  vadd (vadd (vscal (vx v) (row0 m)) (vscal (vy v) (row1 m))) (vscal (vz v) (row2 m)).
(** row of 6 times a 6x3 matrix *)
Definition v6_mmul (r : v6) (w : wp6) : vec3 := vadd (vmmul (fst r) (w_top w)) (vmmul (snd r) (w_bot w)).

(** computeCOMTraj.cpp:62-75, dynamicStabilityConstraints: rows (mH, h). *)
Definition dynamicStabilityConstraints (mHh : list (v6 * R)) (g : vec3) (w : wp6)
  : outcome (list (vec3 * R)) :=
  r <- Normalize3 (map (fun Hh =>
         (v6_mmul (fst Hh) w,
          snd Hh + v6_dot (fst Hh) (vsub g (w_head w), vsub vzero (w_tail w)))) mHh) ;;
  Ok (snd r).

(** computeCOMTraj.cpp:77-91, stepIdPerPhase; [i] counts from the first pair.
    An empty array makes [begin() + 1] pass [end()]: undefined. *)
Fixpoint step_ids (i : Z) (prev : Z) (ta : T_time) : list Z :=
  match ta with
  | [] => [i]
  | (_, ph) :: ta' =>
      if Z.eqb ph prev then step_ids (i + 1) ph ta' else i :: step_ids (i + 1) ph ta'
  end.
Definition stepIdPerPhase (ta : T_time) : outcome (list Z) :=
  match ta with
  | [] => UB
  | (_, ph) :: ta' => Ok (step_ids 0 ph ta')
  end.

(** computeCOMTraj.cpp:93-119, computeNumIneq.  Lines 103-113: [n] phases left
    of Ts, current phase [i], [cum] steps so far, two counters. *)
Fixpoint num_ineq_loop (pData : problem) (sw : list Z) (n i : nat) (cum stab kin : Z)
  : outcome (Z * Z) :=
  match n with
  | O => Ok (stab, kin)
  | S n' =>
      c <- get (contacts pData) i ;;
      ph <- deref (cd_phase c) ;;
      s <- get sw i ;;
      let k := (s + 1 - cum + (if Nat.ltb 0 i then 1 else 0))%Z in
      num_ineq_loop pData sw n' (S i) (s + 1)
        (stab + Z.of_nat (length (cp_poly ph)) * k)
        (kin + Z.of_nat (length (cd_kin c)) * k)
  end.
Definition computeNumIneq (pData : problem) (Ts : list R) (sw : list Z) : outcome Z :=
  r <- num_ineq_loop pData sw (length Ts) 0 0 0 0 ;;
  b <- (match sw with [] => UB | _ => Ok (last sw 0%Z) end) ;;
  let res := (fst r + snd r)%Z in
  Ok (if k_constraintAcceleration (constr pData) then (res + 6 * (b + 1))%Z else res).

(** computeCOMTraj.cpp:121-135, updateH.  [rowwise().normalize()] divides by
    the norm without a test: a zero row becomes NaN, here undefined.  The
    status of getPolytopeInequalities is only asserted, hence not modelled. *)
Definition updateH_row (ph : cphase) (reduce_h : R) (Hh : v6 * R) : outcome (v6 * R) :=
  let mH := v6_scal (cp_mass ph) (v6_scal (-1) (fst Hh)) in
  if Req_EM_T (v6_norm mH) 0 then UB
  else Ok (v6_div mH (v6_norm mH),
           if Rlt_dec 0 reduce_h then snd Hh - reduce_h else snd Hh).
Definition updateH (pData : problem) (phase : contact) : outcome (list (v6 * R)) :=
  ph <- deref (cd_phase phase) ;;
  mapM (updateH_row ph (k_reduce_h (constr pData))) (cp_poly ph).

(** The matrix A (three columns, initialised to 0) with b (not initialised:
    [None]) and the running row index id_rows. *)
Definition buffer : Type := list (vec3 * option R).
Definition st_rows : Type := (nat * buffer)%type.
Definition emit (rows : list (vec3 * R)) (st : st_rows) : outcome st_rows :=
  buf <- write_rows (snd st) (fst st) (map (fun rb => (fst rb, Some (snd rb))) rows) ;;
  Ok ((fst st + length rows)%nat, buf).

(** computeCOMTraj.cpp:137-147, assignStabilityConstraintsForTimeStep. *)
Definition assignStabilityConstraintsForTimeStep (mHh : list (v6 * R)) (w : wp6) (g : vec3)
  (st : st_rows) : outcome st_rows :=
  rows <- dynamicStabilityConstraints mHh g w ;; emit rows st.

(** computeCOMTraj.cpp:162-173, switchContactPhase: returns the new (mH, h). *)
Definition switchContactPhase (pData : problem) (w : wp6) (phase : contact) (st : st_rows)
  : outcome (list (v6 * R) * st_rows) :=
  mHh <- updateH pData phase ;;
  ph <- deref (cd_phase phase) ;;
  st' <- assignStabilityConstraintsForTimeStep mHh w (cp_gravity ph) st ;;
  Ok (mHh, st').

(** computeCOMTraj.cpp:195-206: the loop over all switches but the last for one
    step; state: id_phase, (mH, h), rows. *)
Definition stab_state : Type := (nat * list (v6 * R) * st_rows)%type.
Fixpoint stab_switches (pData : problem) (id_step : Z) (w : wp6) (sw : list Z) (s : stab_state)
  : outcome stab_state :=
  match sw with
  | [] => Ok s
  | k :: sw' =>
      if Z.eqb id_step k then
        let '(id_phase, _, st) := s in
        phase <- get (contacts pData) (S id_phase) ;;
        r <- switchContactPhase pData w phase st ;;
        stab_switches pData id_step w sw' (S id_phase, fst r, snd r)
      else stab_switches pData id_step w sw' s
  end.
(** lines 191-207, loop over the steps *)
Fixpoint stab_loop (pData : problem) (g : vec3) (sw : list Z) (id_step : Z) (ws : list wp6)
  (s : stab_state) : outcome stab_state :=
  match ws with
  | [] => Ok s
  | w :: ws' =>
      let '(id_phase, mHh, st) := s in
      st' <- assignStabilityConstraintsForTimeStep mHh w g st ;;
      s' <- stab_switches pData id_step w (removelast sw) (id_phase, mHh, st') ;;
      stab_loop pData g sw (id_step + 1) ws' s'
  end.
(** computeCOMTraj.cpp:175-209, assignStabilityConstraints. *)
Definition assignStabilityConstraints (pData : problem) (ta : T_time) (T : R) (sw : list Z)
  (st : st_rows) : outcome st_rows :=
  ws <- computeDiscretizedWwaypoints pData T ta ;;
  phase <- get (contacts pData) 0 ;;
  ph <- deref (cd_phase phase) ;;
  mHh <- updateH pData phase ;;
  s <- stab_loop pData (cp_gravity ph) sw 0 ws (0%nat, mHh, st) ;;
  Ok (snd s).

(** Rows [Kin_ * first <= kin_ - Kin_ * second] for i < kin_.rows().  Eigen
    copies as many rows as the destination block has (asserts are off), so Kin_
    may have more rows than kin_; fewer is an out-of-range read. *)
Fixpoint kin_rows (f : vec3 -> R -> vec3 * R) (Kin : list vec3) (kin : list R)
  : outcome (list (vec3 * R)) :=
  match kin with
  | [] => Ok []
  | k :: kin' =>
      match Kin with
      | [] => UB
      | K :: Kin' => rs <- kin_rows f Kin' kin' ;; Ok (f K k :: rs)
      end
  end.
Definition kin_row (co : coefs) (K : vec3) (k : R) : vec3 * R :=
  (vscal (fst co) K, k - vdot K (snd co)).
(** lines 226-235 and 244-253; writing zero rows is skipped *)
Definition kin_emit (phase : contact) (co : coefs) (st : st_rows) : outcome st_rows :=
  if Nat.ltb 0 (length (cd_kin phase)) then
    rows <- kin_rows (kin_row co) (cd_Kin phase) (cd_kin phase) ;; emit rows st
  else Ok st.
(** lines 238-255: [i] runs over all switches but the last *)
Fixpoint kin_switches (pData : problem) (id_step : Z) (co : coefs) (i : nat) (sw : list Z)
  (s : nat * st_rows) : outcome (nat * st_rows) :=
  match sw with
  | [] => Ok s
  | k :: sw' =>
      if Z.eqb id_step k then
        phase <- get (contacts pData) (i + 1) ;;
        st <- kin_emit phase co (snd s) ;;
        kin_switches pData id_step co (S i) sw' ((i + 1)%nat, st)
      else kin_switches pData id_step co (S i) sw' s
  end.
Fixpoint kin_loop (pData : problem) (sw : list Z) (id_step : Z) (cs : list coefs)
  (s : nat * st_rows) : outcome (nat * st_rows) :=
  match cs with
  | [] => Ok s
  | co :: cs' =>
      phase <- get (contacts pData) (fst s) ;;
      st <- kin_emit phase co (snd s) ;;
      s' <- kin_switches pData id_step co 0 (removelast sw) (fst s, st) ;;
      kin_loop pData sw (id_step + 1) cs' s'
  end.
(** computeCOMTraj.cpp:211-258, assignKinematicConstraints. *)
Definition assignKinematicConstraints (pData : problem) (ta : T_time) (T : R) (sw : list Z)
  (st : st_rows) : outcome st_rows :=
  cs <- computeDiscretizedWaypoints pData T ta ;;
  s <- kin_loop pData sw 0 cs (0%nat, st) ;;
  Ok (snd s).

(** computeCOMTraj.cpp:270-278: six rows of one step. *)
Definition acc_rows (m : mat3) (v : vec3) (amax : R) : list (vec3 * R) :=
  [ (row0 m, amax - vx v); (row1 m, amax - vy v); (row2 m, amax - vz v);
    (vopp (row0 m), amax + vx v); (vopp (row1 m), amax + vy v); (vopp (row2 m), amax + vz v) ].
Fixpoint acc_loop (amax : R) (cs : list coefs) (st : st_rows) : outcome st_rows :=
  match cs with
  | [] => Ok st
  | co :: cs' =>
      st' <- emit (acc_rows (mscal (fst co) mid) (snd co) amax) st ;; acc_loop amax cs' st'
  end.
(** computeCOMTraj.cpp:260-280, assignAccelerationConstraints. *)
Definition assignAccelerationConstraints (pData : problem) (ta : T_time) (T : R) (st : st_rows)
  : outcome st_rows :=
  if k_constraintAcceleration (constr pData) then
    cs <- computeDiscretizedAccelerationWaypoints pData T ta ;;
    acc_loop (k_maxAcceleration (constr pData)) cs st
  else Ok st.

(** computeCOMTraj.cpp:282-306, computeConstraintsOneStep, on a buffer that is
    returned as it is left.  A negative size is undefined. *)
Definition constraintsOneStep_raw (pData : problem) (Ts : list R) (T : R) (ta : T_time)
  : outcome st_rows :=
  sw <- stepIdPerPhase ta ;;
  n <- computeNumIneq pData Ts sw ;;
  if (n <? 0)%Z then UB else
  st <- assignStabilityConstraints pData ta T sw (0%nat, repeat (vzero, None) (Z.to_nat n)) ;;
  st <- assignKinematicConstraints pData ta T sw st ;;
  assignAccelerationConstraints pData ta T st.
(** The matrices as the solver reads them: reading an uninitialised b(i) is
    undefined. *)
Definition computeConstraintsOneStep (pData : problem) (Ts : list R) (T : R) (ta : T_time)
  : outcome (list (vec3 * R)) :=
  st <- constraintsOneStep_raw pData Ts T ta ;;
  mapM (fun rb => b <- deref (snd rb) ;; Ok (fst rb, b)) (snd st).
