(** Bezier curves of ndcurves (external to /repo, version not installed here:
    from memory, see DESIGN.md), on control points of any type, as used by
    computeConstraintsContinuous. *)
From Verif Require Import Vec.
Open Scope R_scope.

(** Control points, T_min_, T_max_ and mult_T_: the value at [t] is mult_T_
    times the Bernstein sum at [(t - T_min_) / (T_max_ - T_min_)]. *)
Record ndc (A : Type) := NDC { nd_pts : list A; nd_min : R; nd_max : R; nd_mult : R }.
Arguments NDC {A}. Arguments nd_pts {A}. Arguments nd_min {A}. Arguments nd_max {A}. Arguments nd_mult {A}.

Section Nd.
  Variable A : Type.
  (** operator+, operator-, operator* and Zero of the point type *)
  Variable add sub : A -> A -> A.
  Variable scal : R -> A -> A.
  Variable zero : A.

  (** constructor: throws without control points or if T_max <= T_min *)
  Definition nd_make (pts : list A) (tmin tmax mult : R) : outcome (ndc A) :=
    match pts with
    | [] => Throw
    | _ => if Rle_dec tmax tmin then Throw else Ok (NDC pts tmin tmax mult)
    end.

  (** compute_derivate(1): degree times the differences of control points; the
      factor 1 / (T_max - T_min) goes to mult_T_ ([scaled = false], what
      ndcurves does) or to the control points ([scaled = true]). *)
  Fixpoint nd_diffs (pts : list A) : list A :=
    match pts with
    | a :: ((b :: _) as pts') => sub b a :: nd_diffs pts'
    | _ => []
    end.
  Definition nd_derivate1 (scaled : bool) (cv : ndc A) : outcome (ndc A) :=
    let n := INR (length (nd_pts cv) - 1) in
    let d := nd_max cv - nd_min cv in
    let pts := map (scal (if scaled then n / d else n)) (nd_diffs (nd_pts cv)) in
    nd_make (match pts with [] => [zero] | _ => pts end) (nd_min cv) (nd_max cv)
      (if scaled then nd_mult cv else nd_mult cv / d).
  Fixpoint nd_derivate (scaled : bool) (k : nat) (cv : ndc A) : outcome (ndc A) :=
    match k with
    | O => Ok cv
    | S k' => cv' <- nd_derivate1 scaled cv ;; nd_derivate scaled k' cv'
    end.

  (** deCasteljauReduction *)
  Fixpoint nd_reduce (u : R) (pts : list A) : list A :=
    match pts with
    | a :: ((b :: _) as pts') => add (scal (1 - u) a) (scal u b) :: nd_reduce u pts'
    | _ => []
    end.
  (** front and back of the successive reductions; [n] is the number of points *)
  Fixpoint nd_fronts (n : nat) (u : R) (pts : list A) : list A :=
    match n, pts with
    | S n', a :: _ => a :: nd_fronts n' u (nd_reduce u pts)
    | _, _ => []
    end.
  Fixpoint nd_backs (n : nat) (u : R) (pts : list A) : list A :=
    match n, pts with
    | S n', a :: _ => nd_backs n' u (nd_reduce u pts) ++ [last pts a]
    | _, _ => []
    end.

  Definition MARGIN : R := 1 / 1000.
  Definition close (a b : R) : bool := if Rlt_dec (Rabs (a - b)) MARGIN then true else false.
  (** split(t) *)
  Definition nd_split (cv : ndc A) (t : R) : outcome (ndc A * ndc A) :=
    if close t (nd_max cv) then Throw else
    let u := (t - nd_min cv) / (nd_max cv - nd_min cv) in
    let n := length (nd_pts cv) in
    if Rlt_dec u 0 then Throw else if Rlt_dec 1 u then Throw else
    c1 <- nd_make (nd_fronts n u (nd_pts cv)) (nd_min cv) t (nd_mult cv) ;;
    c2 <- nd_make (nd_backs n u (nd_pts cv)) t (nd_max cv) (nd_mult cv) ;;
    Ok (c1, c2).
  (** extract(t1, t2) *)
  Definition nd_extract (cv : ndc A) (t1 t2 : R) : outcome (ndc A) :=
    if Rlt_dec t1 (nd_min cv) then Throw else if Rlt_dec (nd_max cv) t1 then Throw else
    if Rlt_dec t2 (nd_min cv) then Throw else if Rlt_dec (nd_max cv) t2 then Throw else
    if close t1 (nd_min cv) then
      if close t2 (nd_max cv) then Ok cv
      else r <- nd_split cv t2 ;; Ok (fst r)
    else
      r <- nd_split cv t1 ;;
      if close t2 (nd_max cv) then Ok (snd r)
      else r' <- nd_split (snd r) t2 ;; Ok (fst r').
End Nd.
