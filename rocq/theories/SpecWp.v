(** Specification vocabulary for waypoints of any size (pairs of a matrix and
    a vector). *)
From Verif Require Import Vec ModelUtils.
Open Scope R_scope.

Definition wt_rows (w : waypoint_t) : nat := length (wt_vec w).
(** a matrix with as many rows as the vector, and [wt_cols] columns *)
Definition wt_wf (w : waypoint_t) : Prop :=
  length (wt_mat w) = length (wt_vec w) /\ Forall (fun r => length r = wt_cols w) (wt_mat w).
Definition wt_entry (w : waypoint_t) (i j : nat) : R := nth j (nth i (wt_mat w) []) 0.
Definition wt_cst (w : waypoint_t) (i : nat) : R := nth i (wt_vec w) 0.
Fixpoint rdot (a b : list R) : R :=
  match a, b with x :: a', y :: b' => x * y + rdot a' b' | _, _ => 0 end.
(** component [i] of  first * x + second *)
Definition wt_at (w : waypoint_t) (x : list R) (i : nat) : R :=
  rdot (nth i (wt_mat w) []) x + wt_cst w i.
Definition same_dims (a b : waypoint_t) : Prop := wt_rows a = wt_rows b /\ wt_cols a = wt_cols b.
(** [w] is the entrywise combination [f] of [w1] and [w2] *)
Definition entrywise (f : R -> R -> R) (w w1 w2 : waypoint_t) : Prop :=
  wt_wf w /\ same_dims w w1 /\
  (forall i j, (i < wt_rows w)%nat -> (j < wt_cols w)%nat ->
     wt_entry w i j = f (wt_entry w1 i j) (wt_entry w2 i j)) /\
  (forall i, (i < wt_rows w)%nat -> wt_cst w i = f (wt_cst w1 i) (wt_cst w2 i)) /\
  (forall x i, (i < wt_rows w)%nat -> wt_at w x i = f (wt_at w1 x i) (wt_at w2 x i)).

(** Systems A x <= b of any size, as lists of rows. *)
Definition satX (rows : list (list R * R)) (x : list R) : Prop :=
  Forall (fun r => rdot (fst r) x <= snd r) rows.
(** [r'] is the row [r] scaled, with its right-hand side, to norm one; a zero
    row is unchanged. *)
Definition unit_row (r r' : list R * R) : Prop :=
  (Forall (eq 0) (fst r) /\ r' = r) \/
  (exists k, 0 < k /\ fst r' = map (Rmult k) (fst r) /\ snd r' = k * snd r /\ rdot (fst r') (fst r') = 1).
