(** /repo/src/solver-abstract.cpp and /repo/src/glpk-wrapper.cpp: what is
    handed to the QP and LP back ends.  The back ends themselves are arguments
    (eiquadprog is modelled in ModelQp.v, GLPK is external). *)
From Verif Require Import Vec ModelData ModelRows ModelCont.
Open Scope R_scope.

(** Eigen::MatrixXd: number of columns and rows (there may be none). *)
Record matX := MX { mx_cols : nat; mx_rows : list (list R) }.
Definition identity_row (n i : nat) (k : R) : list R :=
  map (fun j => if Nat.eqb i j then k else 0) (seq 0 n).
Definition identity (n : nat) (k : R) : list (list R) := map (fun i => identity_row n i k) (seq 0 n).

(** A freshly allocated matrix or vector is uninitialised: cells are [None]
    until written.  [M.block(r, c, ...) = B]: undefined when it does not fit. *)
Fixpoint zipM {A B C} (f : A -> B -> outcome C) (l : list A) (m : list B) : outcome (list C) :=
  match l, m with
  | a :: l', b :: m' => c <- f a b ;; cs <- zipM f l' m' ;; Ok (c :: cs)
  | _, _ => Ok []
  end.
Definition write_block {A} (M : list (list A)) (r c : nat) (B : list (list A)) : outcome (list (list A)) :=
  if Nat.leb (r + length B) (length M) then
    rows <- zipM (fun row b => write_rows row c b) (firstn (length B) (skipn r M)) B ;;
    Ok (firstn r M ++ rows ++ skipn (r + length B) M)
  else UB.
(** Reading a cell that was not written is undefined. *)
Definition read_vec (v : list (option R)) : outcome (list R) := mapM deref v.
Definition read_mat (M : list (list (option R))) : outcome (list (list R)) := mapM read_vec M.
Definition some_mat (M : list (list R)) : list (list (option R)) := map (map Some) M.

(** solver-abstract.cpp:41-55, addConstraintMinBoundQuadProg. *)
Definition addConstraintMinBoundQuadProg (minBounds : list R) (data : matX * list R) : outcome (matX * list R) :=
  match minBounds with
  | [] => Ok data
  | _ =>
      let res := fst data in let resv := snd data in
      let n := length (mx_rows res) in let c := mx_cols res in
      D <- write_block (repeat (repeat None c) (n + c)) 0 0 (some_mat (mx_rows res)) ;;
      D <- write_block D n 0 (some_mat (identity c (-1))) ;;
      d <- write_rows (repeat None (length resv + c)) 0 (map Some resv) ;;
      if negb (Nat.eqb (length minBounds) c) then UB else
      d <- write_rows d (length resv) (map (fun b => Some (- b)) minBounds) ;;
      D <- read_mat D ;; d <- read_vec d ;;
      Ok (MX c D, d)
  end.

(** solver-abstract.cpp:57-71, addConstraintMaxBoundQuadProg: the matrix is
    allocated with rows + cols - 3 rows.  A negative size is undefined. *)
Definition addConstraintMaxBoundQuadProg (maxBounds : list R) (data : matX * list R) : outcome (matX * list R) :=
  match maxBounds with
  | [] => Ok data
  | _ =>
      let res := fst data in let resv := snd data in
      let n := length (mx_rows res) in let c := mx_cols res in
      if Nat.ltb (n + c) 3 then UB else
      D <- write_block (repeat (repeat None c) (n + c - 3)) 0 0 (some_mat (mx_rows res)) ;;
      D <- write_block D n 0 (some_mat (identity c 1)) ;;
      d <- write_rows (repeat None (length resv + c)) 0 (map Some resv) ;;
      if negb (Nat.eqb (length maxBounds) c) then UB else
      d <- write_rows d (length resv) (map Some maxBounds) ;;
      D <- read_mat D ;; d <- read_vec d ;;
      Ok (MX c D, d)
  end.

(** solver-abstract.cpp:73-82 *)
Definition addBoundaryConstraintsQuadProg (minBounds maxBounds : list R) (CI : matX) (ci0 : list R)
  : outcome (matX * list R) :=
  data <- addConstraintMinBoundQuadProg minBounds (CI, ci0) ;;
  addConstraintMaxBoundQuadProg maxBounds data.

(** Arguments of EiquadprogFast::solve_quadprog: minimise 0.5 x'Hx + g'x subject
    to CE x + ce0 = 0 and CI x + ci0 >= 0. *)
Record qp := QP { qp_H : list (list R); qp_g : list R;
  qp_CE : list (list R); qp_ce0 : list R; qp_CI : list (list R); qp_ci0 : list R }.
(** eiquadprog-fast.hpp:57-63, EiquadprogFast_status *)
Definition EIQUADPROG_FAST_OPTIMAL : Z := 0.

(** A linear program as built through the GLPK calls.  glp_set_row_bnds and
    glp_set_col_bnds with types GLP_FR, GLP_LO, GLP_UP, GLP_DB, GLP_FX (GLPK
    ignores the unused bounds); rows; columns with objective coefficients; the
    triplets (row, column, value) of glp_load_matrix, from 1. *)
Inductive bound := FR | LO (l : R) | UP (u : R) | DB (l u : R) | FX (v : R).
Record lp := LP { lp_rows : list bound; lp_cols : list (bound * R); lp_mat : list (nat * nat * R) }.
Definition GLP_OPT : Z := 5.

(** solver-abstract.hpp:31-32; UNBOUNDED_DOWN is in ModelCont.v *)
Definition UNBOUNDED_UP : R := 100000.

(** glpk-wrapper.cpp:26-37, getType, with the bounds passed along. *)
Definition getType (mibV mabV : R) : bound :=
  if Rlt_dec UNBOUNDED_DOWN mibV then
    if Rlt_dec mabV UNBOUNDED_UP then DB mibV mabV else LO mibV
  else if Rlt_dec mabV UNBOUNDED_UP then UP mabV else FR.

(** [ia[id] = .., ja[id] = .., ar[id] = .., ++id]: the arrays have 20000 usable
    cells; [id - 1] is the number of triplets so far. *)
Definition push (acc : list (nat * nat * R)) (t : nat * nat * R) : outcome (list (nat * nat * R)) :=
  if (Z.of_nat (length acc) <? 20000)%Z then Ok (acc ++ [t]) else UB.
(** glpk-wrapper.cpp:67-73 and 78-84: columns [j .. j + n - 1] of a row *)
Fixpoint glpk_row (row : list R) (idrow : nat) (j n : nat) (acc : list (nat * nat * R))
  : outcome (list (nat * nat * R)) :=
  match n with
  | O => Ok acc
  | S n' =>
      a <- get row j ;;
      acc' <- (if Req_EM_T a 0 then Ok acc else push acc (idrow, S j, a)) ;;
      glpk_row row idrow (S j) n' acc'
  end.
(** glpk-wrapper.cpp:65-75 and 76-86: rows with their right-hand sides *)
Fixpoint glpk_rows (mk : R -> bound) (rows : list (list R)) (rhs : list R) (xsize idrow : nat)
  (acc : list (nat * nat * R)) : outcome (list bound * list (nat * nat * R)) :=
  match rows with
  | [] => Ok ([], acc)
  | row :: rows' =>
      match rhs with
      | [] => UB
      | b :: rhs' =>
          acc' <- glpk_row row idrow 0 xsize acc ;;
          r <- glpk_rows mk rows' rhs' xsize (S idrow) acc' ;;
          Ok (mk b :: fst r, snd r)
      end
  end.
(** glpk-wrapper.cpp:95-98 *)
Fixpoint glpk_cols (miB maB g0 : list R) (i n : nat) : outcome (list (bound * R)) :=
  match n with
  | O => Ok []
  | S n' =>
      lo <- get miB i ;; up <- get maB i ;; c <- get g0 i ;;
      r <- glpk_cols miB maB g0 (S i) n' ;;
      Ok ((getType lo up, c) :: r)
  end.
(** glpk-wrapper.cpp:39-99: the linear program.  glp_add_rows and glp_add_cols
    abort the process when asked for zero: [UB] here. *)
Definition glpk_problem (g0 : list R) (CE : matX) (ce0 : list R) (CI : matX) (ci0 : list R)
  (minBounds maxBounds : list R) (xsize : nat) : outcome lp :=
  if Nat.eqb (length (mx_rows CE) + length (mx_rows CI)) 0 then UB else
  r1 <- glpk_rows UP (mx_rows CI) ci0 xsize 1 [] ;;
  r2 <- glpk_rows FX (mx_rows CE) ce0 xsize (1 + length (mx_rows CI)) (snd r1) ;;
  if Nat.eqb xsize 0 then UB else
  let miB := match minBounds with [] => repeat UNBOUNDED_DOWN xsize | _ => minBounds end in
  let maB := match maxBounds with [] => repeat UNBOUNDED_UP xsize | _ => maxBounds end in
  cols <- glpk_cols miB maB g0 0 xsize ;;
  Ok (LP (fst r1 ++ fst r2) cols (snd r2)).

(** solver-abstract.hpp:41-46 SolverType; :52-75 ResultData *)
Definition SOLVER_QUADPROG : Z := 1.
Definition SOLVER_GLPK : Z := 2.
Record resultData := ResultData { rd_success : bool; rd_cost : R; rd_x : list R }.

Section Solve.
  (** USE_GLPK_SOLVER *)
  Variable with_glpk : bool.
  (** EiquadprogFast::solve_quadprog on a problem and an initial x: status, x,
      getObjValue(). *)
  Variable quadprog : qp -> list R -> outcome (Z * list R * R).
  (** glp_simplex and the queries after it: status, objective value, primal
      values of the columns. *)
  Variable glpk : lp -> outcome (Z * R * list R).

  (** solver-abstract.cpp:85-137, solve. *)
  Definition solve (A : matX) (b : list R) (D : matX) (d : list R) (Hess : list (list R)) (g : list R)
    (initGuess minBounds maxBounds : list R) (solver : Z) : outcome resultData :=
    if Z.eqb solver SOLVER_QUADPROG then
      CIp <- addBoundaryConstraintsQuadProg minBounds maxBounds A b ;;
      r <- quadprog (QP Hess g (mx_rows D) (map Ropp d) (map (map Ropp) (mx_rows (fst CIp))) (snd CIp)) initGuess ;;
      let '(status, x, obj) := r in
      let ok := Z.eqb status EIQUADPROG_FAST_OPTIMAL in
      Ok (ResultData ok (if ok then obj else -1) x)
    else if (with_glpk && Z.eqb solver SOLVER_GLPK)%bool then
      p <- glpk_problem g D d A b minBounds maxBounds (length initGuess) ;;
      r <- glpk p ;;
      let '(status, obj, xs) := r in
      let ok := Z.eqb status GLP_OPT in
      Ok (ResultData ok (if ok then obj else -1) (if ok then xs else initGuess))
    else Throw.

  (** common_solve_methods.cpp:151-157 *)
  Definition solve_noeq (A : matX) (b : list R) (H : list (list R)) (g initGuess : list R) (solver : Z)
    : outcome resultData :=
    solve A b (MX (mx_cols A) []) [] H g initGuess [] [] solver.
End Solve.
