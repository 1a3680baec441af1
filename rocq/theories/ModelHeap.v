(** Model of the ownership of contact phases: include/hpp/bezier-com-traj/data.hh,
    ContactData and ProblemData::contacts_, with the python interface
    python/bezier_com_traj.cpp, as a machine that executes the operations of a
    client program.  Equilibrium objects live in a heap and are named by address;
    a freed one is None.  Only the parts of ProblemData that concern contacts. *)
From Coq Require Import List Reals ZArith Lia.
From Verif Require Import Vec ModelData.
Import ListNotations.

(** data.hh:27-55, ContactData as an object: contactPhase_ is a pointer. *)
Record cdata := CD { o_ptr : option nat; o_Kin : list vec3; o_kin : list R; o_Ang : list vec3; o_ang : list R }.
(** std::vector<ContactData>: its elements and its capacity *)
Record pdata := PD { p_list : list cdata; p_cap : nat }.
(** [hnds]: the pointers to Equilibrium objects that the program holds, with
    whether it is python that destroys the object.  [hgone], [cgone]: the names of
    pointers and of ContactData that the program has given up.  [wards]: the pairs
    (ContactData, pointer) made by with_custodian_and_ward. *)
Record world := World { heap : list (option cphase); hnds : list (nat * bool); hgone : list nat;
  cds : list cdata; cgone : list nat; wards : list (nat * nat); probs : list pdata }.
Definition w0 : world := World [] [] [] [] [] [] [].
Inductive reply := Nothing | Raised | Matrices (K : list vec3) (k : list R).

Inductive op :=
| NewPhase (v : cphase)             (* an Equilibrium is created *)
| ModPhase (h : nat) (v : cphase)   (* ... and changed by its member functions *)
| DropPhase (h : nat)               (* python: the program's reference goes away *)
| DeletePhase (h : nat)             (* C++: delete *)
| NewDefault                        (* ContactData() *)
| NewWith (h : nat)                 (* ContactData(eq) *)
| DropCD (a : nat)                  (* python: its reference to a ContactData goes away *)
| CopyCD (a : nat)                  (* ContactData(a) *)
| AssignCD (a b : nat)              (* a = b *)
| SetPhase (a h : nat)              (* a.contactPhase_ = eq *)
| GetPhase (a : nat)                (* eq = a.contactPhase_ (python getter) *)
| ModVia (a : nat) (v : cphase)     (* a.contactPhase_->... *)
| SetKin (a : nat) (K : list vec3) (k : list R)
| SetAng (a : nat) (K : list vec3) (k : list R)
| GetKin (a : nat)
| GetAng (a : nat)
| NewProblem
| AddContact (p a : nat)
| ClearContacts (p : nat)
| CopyProblem (p : nat)
| AssignProblem (p q : nat)         (* p = q *)
| ModContact (p i : nat) (v : cphase). (* p.contacts_[i].contactPhase_->... *)

Fixpoint set_nth {A} (l : list A) (k : nat) (x : A) : list A :=
  match l, k with
  | [], _ => []
  | _ :: l', O => x :: l'
  | y :: l', S k' => y :: set_nth l' k' x
  end.

(** data.hh:28-33, 46-51: Kin_ and Ang_ are 3 x 3 zero matrices, the vectors are empty *)
Definition zero_rows : list vec3 := [vzero; vzero; vzero].
Definition fresh_cd (p : option nat) : cdata := CD p zero_rows [] zero_rows [].
(** *p *)
Definition load (h : list (option cphase)) (p : option nat) : outcome cphase :=
  match p with
  | None => UB
  | Some q => match nth_error h q with Some (Some v) => Ok v | _ => UB end
  end.
(** data.hh:35-44, the copy constructor: a new Equilibrium *)
Definition copy_cd (h : list (option cphase)) (c : cdata) : outcome (list (option cphase) * cdata) :=
  v <- load h (o_ptr c) ;;
  Ok (h ++ [Some v], CD (Some (length h)) (o_Kin c) (o_kin c) (o_Ang c) (o_ang c)).
Fixpoint copy_list (h : list (option cphase)) (l : list cdata) : outcome (list (option cphase) * list cdata) :=
  match l with
  | [] => Ok (h, [])
  | c :: l' =>
      a <- copy_cd h c ;; let '(h1, c') := a in
      b <- copy_list h1 l' ;; let '(h2, l'') := b in
      Ok (h2, c' :: l'')
  end.

Section Step.
  (** the capacity std::vector takes when an element is added to a full one *)
  Variable grow : nat -> nat.
  (** push_back(c): the new element is a copy; the old ones are copied when the
      vector moves (there is no move constructor); the destructor frees nothing *)
  Definition push_back (h : list (option cphase)) (v : pdata) (c : cdata) : outcome (list (option cphase) * pdata) :=
    a <- copy_cd h c ;; let '(h1, c') := a in
    if (length (p_list v) <? p_cap v)%nat then Ok (h1, PD (p_list v ++ [c']) (p_cap v)) else
    b <- copy_list h1 (p_list v) ;; let '(h2, l) := b in
    Ok (h2, PD (l ++ [c']) (grow (length (p_list v)))).
  (** vector = vector: if the capacity suffices the elements that exist are
      assigned (the implicit operator= of ContactData copies the pointer) and the
      others copied, else all are copied *)
  Definition assign_vector (h : list (option cphase)) (v w : pdata) : outcome (list (option cphase) * pdata) :=
    let n := length (p_list w) in
    if (p_cap v <? n)%nat then
      b <- copy_list h (p_list w) ;; let '(h2, l) := b in Ok (h2, PD l n)
    else
      b <- copy_list h (skipn (length (p_list v)) (p_list w)) ;; let '(h2, l) := b in
      Ok (h2, PD (firstn (length (p_list v)) (p_list w) ++ l) (p_cap v)).

  (** A name that the program has not defined, or has given up, is a NameError. *)
  Definition named {A} (s : world) (l : list A) (gone : list nat) (i : nat) (k : A -> outcome (world * reply)) : outcome (world * reply) :=
    if existsb (Nat.eqb i) gone then Ok (s, Raised) else
    match nth_error l i with Some x => k x | None => Ok (s, Raised) end.
  Definition held (s : world) (h : nat) (k : nat * bool -> outcome (world * reply)) := named s (hnds s) (hgone s) h k.
  Definition ncd (s : world) (a : nat) (k : cdata -> outcome (world * reply)) := named s (cds s) (cgone s) a k.
  Definition nprob (s : world) (p : nat) (k : pdata -> outcome (world * reply)) := named s (probs s) [] p k.
  Definition with_heap (s : world) (h : list (option cphase)) : world := World h (hnds s) (hgone s) (cds s) (cgone s) (wards s) (probs s).
  Definition with_cds (s : world) (l : list cdata) : world := World (heap s) (hnds s) (hgone s) l (cgone s) (wards s) (probs s).
  Definition with_probs (s : world) (h : list (option cphase)) (l : list pdata) : world :=
    World h (hnds s) (hgone s) (cds s) (cgone s) (wards s) l.
  (** assigning to *p *)
  Definition store (s : world) (p : option nat) (v : cphase) : outcome (world * reply) :=
    _ <- load (heap s) p ;;
    match p with
    | Some q => Ok (with_heap s (set_nth (heap s) q (Some v)), Nothing)
    | None => UB
    end.
  (** python destroys the object behind pointer [h] once the program has given up
      [h] and every ContactData that keeps it alive *)
  Definition release (s : world) (h : nat) : world :=
    match nth_error (hnds s) h with
    | Some (p, true) =>
        if (existsb (Nat.eqb h) (hgone s) &&
            forallb (fun w => negb (Nat.eqb (snd w) h) || existsb (Nat.eqb (fst w)) (cgone s)) (wards s))%bool
        then with_heap s (set_nth (heap s) p None) else s
    | _ => s
    end.

  Definition step (s : world) (o : op) : outcome (world * reply) :=
    match o with
    | NewPhase v => Ok (World (heap s ++ [Some v]) (hnds s ++ [(length (heap s), true)]) (hgone s) (cds s) (cgone s) (wards s) (probs s), Nothing)
    | ModPhase h v => held s h (fun x => store s (Some (fst x)) v)
    | DropPhase h => held s h (fun _ =>
        Ok (release (World (heap s) (hnds s) (h :: hgone s) (cds s) (cgone s) (wards s) (probs s)) h, Nothing))
    | DeletePhase h => held s h (fun x =>
        _ <- load (heap s) (Some (fst x)) ;; Ok (with_heap s (set_nth (heap s) (fst x) None), Nothing))
    | NewDefault => Ok (with_cds s (cds s ++ [fresh_cd None]), Nothing)
    (* bezier_com_traj.cpp:363-366: the ContactData keeps the python object of its argument alive *)
    | NewWith h => held s h (fun x =>
        Ok (World (heap s) (hnds s) (hgone s) (cds s ++ [fresh_cd (Some (fst x))]) (cgone s) (wards s ++ [(length (cds s), h)]) (probs s), Nothing))
    (* data.hh:53: the destructor does nothing *)
    | DropCD a => ncd s a (fun _ =>
        let s' := World (heap s) (hnds s) (hgone s) (cds s) (a :: cgone s) (wards s) (probs s) in
        Ok (match find (fun w => Nat.eqb (fst w) a) (wards s) with Some w => release s' (snd w) | None => s' end, Nothing))
    | CopyCD a => ncd s a (fun c =>
        b <- copy_cd (heap s) c ;; let '(h, c') := b in
        Ok (World h (hnds s) (hgone s) (cds s ++ [c']) (cgone s) (wards s) (probs s), Nothing))
    (* data.hh: the implicit operator= *)
    | AssignCD a b => ncd s a (fun _ => ncd s b (fun c => Ok (with_cds s (set_nth (cds s) a c), Nothing)))
    (* bezier_com_traj.cpp:118-120 *)
    | SetPhase a h => ncd s a (fun c => held s h (fun x =>
        Ok (with_cds s (set_nth (cds s) a (CD (Some (fst x)) (o_Kin c) (o_kin c) (o_Ang c) (o_ang c))), Nothing)))
    (* bezier_com_traj.cpp:112-116, reference_existing_object *)
    | GetPhase a => ncd s a (fun c =>
        match o_ptr c with
        | Some p => Ok (World (heap s) (hnds s ++ [(p, false)]) (hgone s) (cds s) (cgone s) (wards s) (probs s), Nothing)
        | None => Ok (s, Raised)
        end)
    | ModVia a v => ncd s a (fun c => store s (o_ptr c) v)
    (* bezier_com_traj.cpp:138-146 and 148-155 *)
    | SetKin a K k => ncd s a (fun c =>
        if negb (Nat.eqb (length k) (length K)) then Ok (s, Raised) else
        Ok (with_cds s (set_nth (cds s) a (CD (o_ptr c) K k (o_Ang c) (o_ang c))), Nothing))
    | SetAng a K k => ncd s a (fun c =>
        if negb (Nat.eqb (length k) (length K)) then Ok (s, Raised) else
        Ok (with_cds s (set_nth (cds s) a (CD (o_ptr c) (o_Kin c) (o_kin c) K k)), Nothing))
    (* bezier_com_traj.cpp:130-136 and 122-128 *)
    | GetKin a => ncd s a (fun c =>
        Ok (s, if Nat.eqb (length (o_kin c)) 0 then Raised else Matrices (o_Kin c) (o_kin c)))
    | GetAng a => ncd s a (fun c =>
        Ok (s, if Nat.eqb (length (o_ang c)) 0 then Raised else Matrices (o_Ang c) (o_ang c)))
    | NewProblem => Ok (with_probs s (heap s) (probs s ++ [PD [] 0]), Nothing)
    (* bezier_com_traj.cpp:239-241: push_back of a copy *)
    | AddContact p a => nprob s p (fun v => ncd s a (fun c =>
        b <- copy_cd (heap s) c ;; let '(h, tmp) := b in
        d <- push_back h v tmp ;; let '(h', v') := d in
        Ok (with_probs s h' (set_nth (probs s) p v'), Nothing)))
    (* bezier_com_traj.cpp:243: the capacity stays *)
    | ClearContacts p => nprob s p (fun v => Ok (with_probs s (heap s) (set_nth (probs s) p (PD [] (p_cap v))), Nothing))
    (* the implicit copy constructor and operator= of ProblemData *)
    | CopyProblem p => nprob s p (fun v =>
        b <- copy_list (heap s) (p_list v) ;; let '(h, l) := b in
        Ok (with_probs s h (probs s ++ [PD l (length l)]), Nothing))
    | AssignProblem p q => nprob s p (fun v => nprob s q (fun w =>
        if Nat.eqb p q then Ok (s, Nothing) else
        b <- assign_vector (heap s) v w ;; let '(h, v') := b in
        Ok (with_probs s h (set_nth (probs s) p v'), Nothing)))
    | ModContact p i v => nprob s p (fun w => named s (p_list w) [] i (fun c => store s (o_ptr c) v))
    end.

  (** A program is a list of operations; exceptions are caught. *)
  Fixpoint run (s : world) (l : list op) : outcome world :=
    match l with
    | [] => Ok s
    | o :: l' => r <- step s o ;; run (fst r) l'
    end.
End Step.
