(** Row buffers (matrix A with right-hand side b) and
    /repo/src/common_solve_methods.cpp:56-86, removeZeroRows and Normalize. *)
From Verif Require Import Vec ModelData.
Open Scope R_scope.

(** In-place replacement of element [i] (only used in range). *)
Fixpoint upd {A} (l : list A) (i : nat) (a : A) : list A :=
  match l, i with
  | [], _ => []
  | _ :: l', O => a :: l'
  | b :: l', S i' => b :: upd l' i' a
  end.
(** [A.row(i).swap(A.row(j))] *)
Definition swap {A} (l : list A) (i j : nat) : outcome (list A) :=
  a <- get l i ;; b <- get l j ;; Ok (upd (upd l i b) j a).

(** [A.block(i, 0, n, cols) = rows] together with [b.segment(i, n) = ...]:
    undefined when the block does not fit. *)
Definition write_rows {A} (buf : list A) (i : nat) (rows : list A) : outcome (list A) :=
  if Nat.leb (i + length rows) (length buf)
  then Ok (firstn i buf ++ rows ++ skipn (i + length rows) buf)
  else UB.

Section Normalize.
  (** Rows of any type, with the test [(row == 0).all()], the Euclidean norm,
      and division by a number. *)
  Variable row : Type.
  Variable isz : row -> bool.
  Variable norm : row -> R.
  Variable divr : row -> R -> row.

  (** common_solve_methods.cpp:56-76, removeZeroRows.  An element of the list
      is (empty(i), (A.row(i), b(i))).  [k] is [last + 1 - i], so that the
      position called [last] is [i + k - 1]; [size_t last = rows - 1] wraps to
      the maximum for no row, which makes [last + 1] = 0 as here.  Result: the
      returned int and the rows as left in place. *)
  Fixpoint rz_loop (k : nat) (l : list (bool * (row * R))) (i : nat)
    : outcome (Z * list (bool * (row * R))) :=
    match k with
    | O => Ok (Z.of_nat i, l)
    | S k' =>
        r <- get l i ;;
        if fst r then
          if Rlt_dec (snd (snd r)) 0 then Ok ((-1)%Z, l)
          else l' <- swap l i (i + k') ;; rz_loop k' l' i
        else rz_loop k' l (S i)
    end.
  Definition removeZeroRows (l : list (row * R)) : outcome (Z * list (row * R)) :=
    r <- rz_loop (length l) (map (fun rb => (isz (fst rb), rb)) l) 0 ;;
    Ok (fst r, map snd (snd r)).

  (** common_solve_methods.cpp:78-86, Normalize. *)
  Definition normalize_row (rb : row * R) : row * R :=
    let n := norm (fst rb) in (divr (fst rb) n, snd rb / n).
  Definition Normalize (l : list (row * R)) : outcome (Z * list (row * R)) :=
    r <- removeZeroRows l ;;
    let z := fst r in
    if (0 <? z)%Z then
      let k := Z.to_nat z in
      Ok (z, map normalize_row (firstn k (snd r)) ++ skipn k (snd r))
    else Ok r.
End Normalize.

(** Rows with any number of columns. *)
Definition lr_isz (r : list R) : bool :=
  forallb (fun a => if Req_EM_T a 0 then true else false) r.
Fixpoint lr_dot (a b : list R) : R :=
  match a, b with x :: a', y :: b' => x * y + lr_dot a' b' | _, _ => 0 end.
Definition lr_norm (r : list R) : R := sqrt (lr_dot r r).
Definition lr_div (r : list R) (k : R) : list R := map (fun a => a / k) r.
Definition NormalizeX := Normalize (list R) lr_isz lr_norm lr_div.

(** Rows with three columns. *)
Definition v3_isz (v : vec3) : bool := lr_isz [vx v; vy v; vz v].
Definition Normalize3 := Normalize vec3 v3_isz vnorm vdivs.
