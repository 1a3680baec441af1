(** Specification vocabulary for what is handed to QP and LP solvers. *)
From Verif Require Import Vec ModelCont ModelSolver SpecWp.
Open Scope R_scope.

(** a matrix whose rows have its number of columns *)
Definition mx_wf (A : matX) : Prop := Forall (fun r => length r = mx_cols A) (mx_rows A).
(** A x <= b, D x = d, lo <= x *)
Definition leM (A : matX) (b x : list R) : Prop := Forall2 (fun r bi => rdot r x <= bi) (mx_rows A) b.
Definition eqM (D : matX) (d x : list R) : Prop := Forall2 (fun r di => rdot r x = di) (mx_rows D) d.
(** an empty vector of bounds means no bounds *)
Definition above (lo x : list R) : Prop := lo = [] \/ Forall2 Rle lo x.

(** CE x + ce0 = 0 and CI x + ci0 >= 0 *)
Definition qp_feasible (q : qp) (x : list R) : Prop :=
  Forall2 (fun r c => rdot r x + c = 0) (qp_CE q) (qp_ce0 q) /\
  Forall2 (fun r c => 0 <= rdot r x + c) (qp_CI q) (qp_ci0 q).

(** Meaning of a linear program for GLPK: row [i] (from 1) is the sum of the
    triplets with that row, bounded; every column is bounded. *)
Definition in_bound (b : bound) (v : R) : Prop :=
  match b with
  | FR => True | LO l => l <= v | UP u => v <= u | DB l u => l <= v <= u | FX c => v = c
  end.
Definition lp_row_value (m : list (nat * nat * R)) (i : nat) (x : list R) : R :=
  fold_right (fun t s => (if Nat.eqb (fst (fst t)) i then snd t * nth (snd (fst t) - 1) x 0 else 0) + s) 0 m.
Definition lp_feasible (p : lp) (x : list R) : Prop :=
  (forall i b, nth_error (lp_rows p) i = Some b -> in_bound b (lp_row_value (lp_mat p) (S i) x)) /\
  Forall2 (fun c v => in_bound (fst c) v) (lp_cols p) x.
Definition lp_objective (p : lp) (x : list R) : R := rdot (map snd (lp_cols p)) x.

(** Number of non-zero coefficients. *)
Definition nonzeros (A : matX) : nat :=
  length (filter (fun a => if Req_EM_T a 0 then false else true) (concat (mx_rows A))).
(** Bounds in which -100000 or less and 100000 or more mean no bound; an empty
    vector means no bounds. *)
Definition lp_above (lo x : list R) : Prop := lo = [] \/ Forall2 (fun l v => -100000 < l -> l <= v) lo x.
Definition lp_below (up x : list R) : Prop := up = [] \/ Forall2 (fun u v => u < 100000 -> v <= u) up x.
