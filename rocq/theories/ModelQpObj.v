(** Model of the solver object EiquadprogFast, src/eiquadprog-fast.cpp and
    include/hpp/bezier-com-traj/solver/eiquadprog-fast.hpp: its public members, its
    reuse for several problems and the variant solve_quadprog_sparse.  The iterations are those of
    ModelQp.v (lines 329-648 and 751-1070 are the same code).  Exact arithmetic. *)
From Verif Require Import Vec SpecBezier ModelData ModelSolver ModelQp.
Open Scope R_scope.

(** eiquadprog-fast.hpp:156-223, the members: m_maxIter; m_nVars, m_nEqCon, m_nIneqCon;
    is_inverse_provided_; q, the size of the active set; and the others, m_J, f_value,
    iter, u, A, ..., in a [qst].  The parts of the [qst] that are local variables of the code
    (x, iq, R_norm, ss, ip) are not read by a later call. *)
Record solver := Solver { v_max : nat; v_n : nat; v_E : nat; v_I : nat; v_given : bool; v_q : nat; v_st : qst }.

(** lines 40-48, the constructor; [mem] is the content of uninitialised memory *)
Definition new_solver (mem : qst) : solver := Solver DEFAULT_MAX_ITER 0 0 0 false 0 mem.

Definition set_J (st : qst) (J : rmat) : qst :=
  Qst (q_x st) (q_u st) (q_A st) (q_iq st) (q_R st) J (q_Rn st) (q_f st) (q_iter st) (q_s st) (q_ss st) (q_ip st) (q_iai st) (q_ex st)
    (q_xo st) (q_uo st) (q_Ao st) (q_tol st).
(** lines 52-75, reset: m_J = 0; what the resized members contain, [mem], is
    unspecified.  f_value, iter, m_maxIter, q and is_inverse_provided_ stay. *)
Definition reset (mem : qst) (n E I : nat) (s : solver) : solver :=
  Solver (v_max s) n E I (v_given s) (v_q s)
    (Qst (q_x mem) (q_u mem) (q_A mem) (q_iq mem) (q_R mem) (fun _ _ => 0) (q_Rn mem) (q_f (v_st s)) (q_iter (v_st s))
       (q_s mem) (q_ss mem) (q_ip mem) (q_iai mem) (q_ex mem) (q_xo mem) (q_uo mem) (q_Ao mem) (q_tol mem)).

(** eiquadprog-fast.hpp:97-101, setMaxIter *)
Definition setMaxIter (k : Z) (s : solver) : bool * solver :=
  if (k <? 0)%Z then (false, s)
  else (true, Solver (Z.to_nat k) (v_n s) (v_E s) (v_I s) (v_given s) (v_q s) (v_st s)).
(** eiquadprog-fast.hpp:95, 107, 112, 117, 122 and 131 *)
Definition getMaxIter (s : solver) : nat := v_max s.
Definition getActiveSetSize (s : solver) : nat := v_q s.
Definition getIteratios (s : solver) : nat := q_iter (v_st s).
Definition getObjValue (s : solver) : R := q_f (v_st s).
Definition getLagrangeMultipliers (s : solver) : rvec := q_u (v_st s).
Definition getActiveSet (s : solver) : nat -> Z := q_A (v_st s).
(** eiquadprog-fast.hpp:156-157: a caller that writes the public members m_J and
    is_inverse_provided_.  Simplification: the matrix has the size that the solver
    was last [reset] to, or the size will be reset. *)
Definition give_inverse (J : rmat) (s : solver) : solver :=
  Solver (v_max s) (v_n s) (v_E s) (v_I s) true (v_q s) (set_J (v_st s) J).

(** lines 239-240 and 662-663 *)
Definition fit (mem : qst) (p : eqp) (s : solver) : solver :=
  if ((v_n s =? e_n p) && (v_E s =? e_E p) && (v_I s =? e_I p))%nat%bool then s else reset mem (e_n p) (e_E p) (e_I p) s.
(** the problem [p] with the solver's limit on the iterations *)
Definition limited (k : nat) (p : eqp) : eqp :=
  EQP (e_n p) (e_E p) (e_I p) (e_H p) (e_g p) (e_CE p) (e_ce p) (e_CI p) (e_ci p) k.

(** The state before line 329 (751), from the point x, the matrix m_J and c2, its trace *)
Definition start (p : eqp) (st : qst) (x : rvec) (J : rmat) : qst :=
  let n := e_n p in
  Qst x (q_u st) (q_A st) 0 (fun _ _ => 0) J 1 (1 / 2 * dot n (e_g p) x) 0 (q_s st) (q_ss st) (q_ip st)
    (fun i => Z.of_nat i) (q_ex st) (q_xo st) (q_uo st) (q_Ao st) (INR (e_I p) * eps52 * trace n (e_H p) * trace n J * 100).
(** lines 260-318 with is_inverse_provided_: x = m_J (m_J^T g0).  The sign is only
    changed when OPTIMIZE_UNCONSTR_MINIM is not defined (line 317), and it is (hpp:28). *)
Definition start_given (p : eqp) (st : qst) : qst :=
  let n := e_n p in let J := q_J st in
  start p st (fun i => sumf n (fun c => J i c * sumf n (fun k => J k c * e_g p k))) J.
(** lines 260-318 without: the Cholesky factor of the Hessian ... *)
Definition start_dense (p : eqp) (st : qst) : outcome qst :=
  let n := e_n p in
  L <- chol n (e_H p) ;;
  Ok (start p st (fun i => - chol_solve n L (e_g p) i) (inv_upper n L)).
(** ... and lines 690-740: m_J is the identity, since the result of
    cholsp_.matrixU().solve(m_J) (line 709, OPTIMIZE_HESSIAN_INVERSE is defined,
    hpp:27) is not stored.  The factor cholsp_ is that of the
    matrix with rows and columns reordered; cholsp_.solve takes the order into account, so
    that x does not depend on it. *)
Definition start_sparse (p : eqp) (st : qst) : outcome qst :=
  let n := e_n p in
  L <- chol n (e_H p) ;;
  Ok (start p st (fun i => - chol_solve n L (e_g p) i) (fun i j => if Nat.eqb i j then 1 else 0)).

(** The members after a call: q = iq at lines 416, 459, 481 and 562, not at line 365. *)
Definition after (s : solver) (p : eqp) (status : Z) (st : qst) : solver :=
  Solver (v_max s) (e_n p) (e_E p) (e_I p) (v_given s) (if Z.eqb status st_REDUNDANT then v_q s else q_iq st) st.
(** The outcome of a call: not finished, or the status, x and the solver. *)
Definition answer (s : solver) (p : eqp) (o : outcome progress) : outcome (option (Z * rvec * solver)) :=
  r <- o ;;
  match r with
  | Next _ _ => Ok None
  | Done status st => Ok (Some (status, q_x st, after s p status st))
  end.
Definition call (init : eqp -> qst -> outcome qst) (mem : qst) (s : solver) (p : eqp) (k : nat)
  : outcome (option (Z * rvec * solver)) :=
  let s1 := fit mem p s in
  let q := limited (v_max s) p in
  st <- (if v_given s then Ok (start_given p (v_st s1)) else init p (v_st s1)) ;;
  answer s p (steps q k (add_equalities q (e_E q) 0 st)).
(** lines 229-648, solve_quadprog, and 655-1070, solve_quadprog_sparse: [k] steps *)
Definition solve_quadprog_dense : qst -> solver -> eqp -> nat -> outcome (option (Z * rvec * solver)) := call start_dense.
Definition solve_quadprog_sparse : qst -> solver -> eqp -> nat -> outcome (option (Z * rvec * solver)) := call start_sparse.
