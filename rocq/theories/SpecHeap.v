(** What a client observes of contacts and problems, and how a history of
    operations should change it. *)
From Coq Require Import List Reals ZArith Lia.
From Verif Require Import Vec ModelData ModelHeap.
Import ListNotations.

(** The contents of a ContactData; None if its phase has been destroyed. *)
Definition view (h : list (option cphase)) (c : cdata) : option contact :=
  match o_ptr c with
  | None => Some (Contact None (o_Kin c) (o_kin c) (o_Ang c) (o_ang c))
  | Some p =>
      match nth_error h p with
      | Some (Some v) => Some (Contact (Some v) (o_Kin c) (o_kin c) (o_Ang c) (o_ang c))
      | _ => None
      end
  end.
(** that of the ContactData [a], if there is one *)
Definition cd_view (s : world) (a : nat) : option (option contact) :=
  if existsb (Nat.eqb a) (cgone s) then None else option_map (view (heap s)) (nth_error (cds s) a).
Definition problem_views (s : world) : list (list (option contact)) :=
  map (fun p => map (view (heap s)) (p_list p)) (probs s).
(** its phase, if there is one and it is alive *)
Definition phase_of (x : option (option contact)) : option cphase :=
  match x with Some (Some c) => cd_phase c | _ => None end.
(** what the program reads through a pointer it holds *)
Definition handle_view (s : world) (h : nat) : option cphase :=
  if existsb (Nat.eqb h) (hgone s) then None else
  match nth_error (hnds s) h with
  | Some (p, _) => match nth_error (heap s) p with Some x => x | None => None end
  | None => None
  end.

Definition alter {A} (k : nat) (f : A -> A) (l : list A) : list A :=
  match nth_error l k with Some x => set_nth l k (f x) | None => l end.
Definition with_phase (v : cphase) (c : option contact) : option contact :=
  option_map (fun c => Contact (Some v) (cd_Kin c) (cd_kin c) (cd_Ang c) (cd_ang c)) c.

(** What an operation does to the contents of the problems if these are values. *)
Definition after (s : world) (o : op) : list (list (option contact)) :=
  let V := problem_views s in
  match o with
  | NewProblem => V ++ [[]]
  | AddContact p a => match cd_view s a with Some x => alter p (fun l => l ++ [x]) V | None => V end
  | ClearContacts p => alter p (fun _ => []) V
  | CopyProblem p => match nth_error V p with Some l => V ++ [l] | None => V end
  | AssignProblem p q => match nth_error V q with Some l => alter p (fun _ => l) V | None => V end
  | ModContact p i v => alter p (alter i (with_phase v)) V
  | _ => V
  end.

(** The assignment of a problem with contacts to another one that has contacts
    and room for the new ones. *)
Definition shares (s : world) (o : op) : Prop :=
  match o with
  | AssignProblem p q => p <> q /\ exists v w, nth_error (probs s) p = Some v /\ nth_error (probs s) q = Some w /\
      p_list v <> [] /\ p_list w <> [] /\ (length (p_list w) <= p_cap v)%nat
  | _ => False
  end.
(** The states of programs that make no such assignment. *)
Inductive reach (grow : nat -> nat) : world -> Prop :=
| reach_0 : reach grow w0
| reach_step : forall s o s' r, reach grow s -> ~ shares s o -> step grow s o = Ok (s', r) -> reach grow s'.

(** The operation is applied to [b], or gives another name to what [b] refers to. *)
Definition uses (o : op) (b : nat) : Prop :=
  match o with
  | AssignCD x y => x = b \/ y = b
  | DropCD x | SetPhase x _ | GetPhase x | ModVia x _ | SetKin x _ _ | SetAng x _ _ => x = b
  | _ => False
  end.
(** The operation changes [b], or what it refers to through a pointer taken
    after the first [n]. *)
Definition through (b n : nat) (o : op) : Prop :=
  match o with
  | GetPhase x | ModVia x _ | SetKin x _ _ | SetAng x _ _ => x = b
  | ModPhase h _ | DeletePhase h => (n <= h)%nat
  | _ => False
  end.
(** The operation makes [b] refer to another phase, or ends it. *)
Definition redirects (o : op) (b : nat) : Prop :=
  match o with
  | AssignCD x _ | SetPhase x _ | DropCD x => x = b
  | _ => False
  end.
(** The operations that python offers, less the reading and the assignment of
    the phase of a ContactData and the construction of one from None. *)
Definition python_safe (o : op) : Prop :=
  match o with
  | NewPhase _ | ModPhase _ _ | DropPhase _ | NewWith _ | DropCD _ | SetKin _ _ _ | SetAng _ _ _
  | GetKin _ | GetAng _ | NewProblem | AddContact _ _ | ClearContacts _ => True
  | _ => False
  end.
(** The matrices and vectors of a contact fit. *)
Definition consistent (c : contact) : Prop :=
  (cd_kin c = [] \/ length (cd_Kin c) = length (cd_kin c)) /\
  (cd_ang c = [] \/ length (cd_Ang c) = length (cd_ang c)).
