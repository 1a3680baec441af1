(** Specification vocabulary for cutting a phase in two. *)
From Coq Require Import List.
From Verif Require Import Vec ModelData.
Import ListNotations.
Open Scope R_scope.

(** Phase [n] is replaced by two phases with the same contact, the first of duration [a]. *)
Definition cut (n : nat) (p : problem) : problem :=
  Problem (firstn (S n) (contacts p) ++ skipn n (contacts p)) (c0 p) (dc0 p) (ddc0 p) (j0 p) (c1 p) (dc1 p) (ddc1 p) (j1 p)
    (l0 p) (useAngularMomentum p) (constr p) (costFunction p) (representation p).
Definition cut_times (n : nat) (a : R) (Ts : list R) : list R := firstn n Ts ++ a :: (nth n Ts 0 - a) :: skipn (S n) Ts.
