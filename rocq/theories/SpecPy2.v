(** Specification vocabulary for the attribute constraints_ of python's ProblemData. *)
From Coq Require Import List.
From Verif Require Import Vec ModelData ModelPy.
Import ListNotations.

(** All the names of a statement are below [top]. *)
Definition names_below (top : nat) (o : pystmt) : Prop :=
  match o with
  | MkProblem x | MkConstraints x | Forget x | SetAttr x _ | SetVia x _ | Read x | ReadVia x => (x < top)%nat
  | Bind x y | Ref x y | Put x y => (x < top /\ y < top)%nat
  end.
(** The states of the programs with names below [top]. *)
Definition reachable (top : nat) (s : pyst) : Prop :=
  exists l, Forall (names_below top) l /\ pyrun top py0 l = Ok s.

(** What a name is bound to. *)
Definition is_problem (s : pyst) (y : nat) : Prop := exists p b k, lookup s y = Some (p, PProb b k).
Definition is_constraints (s : pyst) (z : nat) : Prop :=
  (exists c k, lookup s z = Some (c, POwn k)) \/ (exists v p, lookup s z = Some (v, PView p)).
(** The object whose attributes are reached from a name: a ProblemData (from its names
    and from what constraints_ returned) or a Constraints. *)
Definition cell (s : pyst) (y : nat) : option nat :=
  match lookup s y with
  | Some (p, PProb _ _) => Some p
  | Some (c, POwn _) => Some c
  | Some (_, PView p) => Some p
  | None => None
  end.
Definition same_cell (s : pyst) (y z : nat) : Prop := exists c, cell s y = Some c /\ cell s z = Some c.
(** The attributes that a program reads from a name, of the object or of its
    constraints_. *)
Definition value (top : nat) (s : pyst) (y : nat) : option constraints :=
  match pystep top s (ReadVia y), pystep top s (Read y) with
  | Ok (_, Value k), _ => Some k
  | _, Ok (_, Value k) => Some k
  | _, _ => None
  end.
(** What constraints_ returned, of a ProblemData that no name is bound to any more. *)
Definition dangling (s : pyst) (z : nat) : Prop :=
  exists v p, lookup s z = Some (v, PView p) /\ forall x, env s x <> Some p.
(** The statement uses the attributes of the Constraints that [z] is bound to. *)
Definition uses (s : pyst) (o : pystmt) (z : nat) : Prop :=
  match o with
  | Read w | SetAttr w _ => w = z
  | Put y w => w = z /\ is_problem s y
  | _ => False
  end.
(** The statement binds or deletes the name [x]. *)
Definition rebinds (o : pystmt) (x : nat) : Prop :=
  match o with
  | MkProblem w | MkConstraints w | Bind w _ | Forget w | Ref w _ => w = x
  | _ => False
  end.
Definition is_ref (o : pystmt) : Prop := match o with Ref _ _ => True | _ => False end.
(** The statement makes another name for the object of [y], or for its constraints_. *)
Definition shares (o : pystmt) (y : nat) : Prop :=
  match o with Bind _ w | Ref _ w => w = y | _ => False end.
Definition assigns (o : pystmt) (y : nat) : Prop := match o with Put w _ => w = y | _ => False end.
(** The attributes of a new object: initial and end position and velocity fixed, no acceleration bound. *)
Definition fresh : constraints := Constraints 27 false 10%R (1 / 1000)%R.
(** The attributes after setting one of them. *)
Definition updated (f : field) (k : constraints) : constraints :=
  Constraints (match f with Flag v => v | _ => k_flag k end) (match f with ConstrainAcc v => v | _ => k_constraintAcceleration k end)
    (match f with MaxAcc v => v | _ => k_maxAcceleration k end) (match f with ReduceH v => v | _ => k_reduce_h k end).
(** The attributes set by y.constraints_.attribute = value, in order. *)
Fixpoint settings (y : nat) (l : list pystmt) : list field :=
  match l with
  | [] => []
  | SetVia w f :: l' => if Nat.eqb w y then f :: settings y l' else settings y l'
  | _ :: l' => settings y l'
  end.
(** The names a program binds, in order. *)
Fixpoint targets (l : list pystmt) : list nat :=
  match l with
  | [] => []
  | (MkProblem x | MkConstraints x | Bind x _ | Ref x _) :: l' => x :: targets l'
  | _ :: l' => targets l'
  end.
Definition is_forget (o : pystmt) : Prop := match o with Forget _ => True | _ => False end.
