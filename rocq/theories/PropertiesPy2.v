(** Property theorems C70: the attribute constraints_ of python's ProblemData.
    Vocabulary: SpecPy2.v.  A program is a list of statements, its names are numbers
    below [top]. *)
From Coq Require Import List.
From Verif Require Import Vec ModelData ModelPy SpecPy2 ProofPy3 ProofPy4.
Import ListNotations.

(** New objects have the default values; binding a name to an object, or to its
    constraints_, makes both names reach the same attributes. *)
Theorem C70_made : forall top s x, reachable top s -> (x < top)%nat ->
  (exists s', pystep top s (MkProblem x) = Ok (s', Done) /\ is_problem s' x /\ value top s' x = Some fresh) /\
  (exists s', pystep top s (MkConstraints x) = Ok (s', Done) /\ is_constraints s' x /\ value top s' x = Some fresh) /\
  (forall y, (y < top)%nat -> x <> y -> (exists b, env s y = Some b) -> exists s', pystep top s (Bind x y) = Ok (s', Done) /\ same_cell s' x y) /\
  (forall y, (y < top)%nat -> x <> y -> is_problem s y -> exists s', pystep top s (Ref x y) = Ok (s', Done) /\ is_constraints s' x /\ same_cell s' x y).
Proof. exact c70_made2. Qed.
Print Assumptions C70_made.
(** A write changes the attribute for all the names that reach the same object, and
    nothing else; the assignment y.constraints_ = z copies the values of z. *)
Theorem C70_write : forall top s, reachable top s ->
  (forall y f, is_problem s y -> exists k s', value top s y = Some k /\ pystep top s (SetVia y f) = Ok (s', Done) /\
     (forall w, same_cell s w y -> value top s' w = Some (updated f k)) /\ (forall w, ~ same_cell s w y -> value top s' w = value top s w) /\ (forall w, cell s' w = cell s w)) /\
  (forall z f k, is_constraints s z -> value top s z = Some k -> exists s', pystep top s (SetAttr z f) = Ok (s', Done) /\
     (forall w, same_cell s w z -> value top s' w = Some (updated f k)) /\ (forall w, ~ same_cell s w z -> value top s' w = value top s w) /\ (forall w, cell s' w = cell s w)) /\
  (forall y z k, is_problem s y -> is_constraints s z -> value top s z = Some k -> exists s', pystep top s (Put y z) = Ok (s', Done) /\
     (forall w, same_cell s w y -> value top s' w = Some k) /\ (forall w, ~ same_cell s w y -> value top s' w = value top s w) /\ (forall w, cell s' w = cell s w)).
Proof. exact c70_write2. Qed.
Print Assumptions C70_write.
(** Binding or deleting a name leaves the others as they are, except that the last name
    of a ProblemData leaves what its constraints_ returned dangling. *)
Theorem C70_names : forall top s o s' r x, reachable top s -> names_below top o -> rebinds o x -> pystep top s o = Ok (s', r) ->
  forall w, w <> x -> cell s' w = cell s w /\ (dangling s' w \/ value top s' w = value top s w).
Proof. exact c70_names. Qed.
Print Assumptions C70_names.
(** Undefined behaviour: exactly the use of a dangling object, which has no value. *)
Theorem C70_undefined : forall top s o, reachable top s ->
  (pystep top s o = UB <-> exists z, uses s o z /\ dangling s z) /\ pystep top s o <> Throw /\
  (forall z, is_constraints s z -> (dangling s z <-> value top s z = None)).
Proof. exact c70_undefined. Qed.
Print Assumptions C70_undefined.
(** After x = y.constraints_, whatever the program does: as long as it keeps both names,
    they have the same values. *)
Theorem C70_live : forall top s x y l s', reachable top s -> is_problem s y -> (x < top)%nat -> (y < top)%nat -> x <> y ->
  Forall (names_below top) l -> Forall (fun o => ~ rebinds o x /\ ~ rebinds o y) l ->
  pyrun top s (Ref x y :: l) = Ok s' -> exists k, value top s' x = Some k /\ value top s' y = Some k.
Proof. exact c70_live. Qed.
Print Assumptions C70_live.
(** A ProblemData that the program neither shares nor assigns to has exactly the
    settings made through its name, in order, over the defaults. *)
Theorem C70_private : forall top s y l s', reachable top s -> (y < top)%nat ->
  Forall (fun o => ~ rebinds o y /\ ~ shares o y /\ ~ assigns o y) l -> pyrun top s (MkProblem y :: l) = Ok s' ->
  value top s' y = Some (fold_left (fun k f => updated f k) (settings y l) fresh).
Proof. exact c70_private2. Qed.
Print Assumptions C70_private.
(** No undefined behaviour: programs that do not name the result of constraints_, and
    programs that bind every name once and delete none. *)
Theorem C70_no_ref : forall top l, Forall (names_below top) l -> Forall (fun o => ~ is_ref o) l -> exists s, pyrun top py0 l = Ok s.
Proof. exact c70_no_ref. Qed.
Print Assumptions C70_no_ref.
Theorem C70_once : forall top l, Forall (names_below top) l -> NoDup (targets l) -> Forall (fun o => ~ is_forget o) l -> exists s, pyrun top py0 l = Ok s.
Proof. exact c70_once. Qed.
Print Assumptions C70_once.
(** p = ProblemData(); c = p.constraints_; del p; c.flag_ : undefined. *)
Theorem C70_refuted : exists l, Forall (names_below 2) l /\ pyrun 2 py0 l = UB /\ l = [MkProblem 0; Ref 1 0; Forget 0; Read 1].
Proof. exact c70_refuted. Qed.
Print Assumptions C70_refuted.
