(** C43, C44: ownership of the contact phases and the python setters. *)
From Coq Require Import List Reals ZArith.
From Verif Require Import Vec ModelData ModelHeap SpecHeap ProofHeap ProofHeap2 ProofHeap3 ProofHeap4 ProofHeap5.
Import ListNotations.
Local Open Scope nat_scope.

(** C43.  In every history, a copy-constructed ContactData [b] shows what the
    original shows, the copy changes nothing else, and whatever the program does
    without using [b] leaves [b] as it is. *)
Theorem C43_copy : forall grow l s a x s' r,
  run grow w0 l = Ok s -> cd_view s a = Some x -> step grow s (CopyCD a) = Ok (s', r) ->
  let b := length (cds s) in
  (exists c, x = Some c /\ cd_phase c <> None) /\
  cd_view s b = None /\ cd_view s' b = Some x /\
  (forall k, k <> b -> cd_view s' k = cd_view s k) /\ problem_views s' = problem_views s /\
  (forall h, handle_view s' h = handle_view s h) /\
  (forall l' s'', (forall o, In o l' -> ~ uses o b) -> run grow s' l' = Ok s'' -> cd_view s'' b = Some x).
Proof. exact copy_independent. Qed.
Print Assumptions C43_copy.

(** Conversely, changes through [b], or through pointers taken from it, do not
    show in any other ContactData, in any problem or through the pointers the
    program already had. *)
Theorem C43_copy_changes : forall grow l s a x s' r,
  run grow w0 l = Ok s -> cd_view s a = Some x -> step grow s (CopyCD a) = Ok (s', r) ->
  let b := length (cds s) in
  forall l' s'', (forall o, In o l' -> through b (length (hnds s)) o) -> run grow s' l' = Ok s'' ->
  (forall k, k <> b -> cd_view s'' k = cd_view s k) /\ problem_views s'' = problem_views s /\
  (forall h, h < length (hnds s) -> handle_view s'' h = handle_view s h).
Proof. exact copy_changes. Qed.
Print Assumptions C43_copy_changes.

(** Copying is undefined exactly when there is no live phase. *)
Theorem C43_copy_defined : forall grow s a x, cd_view s a = Some x ->
  (step grow s (CopyCD a) = UB <-> phase_of (cd_view s a) = None).
Proof. exact copy_ub. Qed.
Print Assumptions C43_copy_defined.

(** After [a = b] the two share their phase until one of them is given another. *)
Theorem C43_assign : forall grow s a b x y s' r,
  cd_view s a = Some x -> cd_view s b = Some y -> step grow s (AssignCD a b) = Ok (s', r) ->
  cd_view s' a = Some y /\ cd_view s' b = Some y /\
  forall l s'', (forall o, In o l -> ~ redirects o a /\ ~ redirects o b) -> run grow s' l = Ok s'' ->
    phase_of (cd_view s'' a) = phase_of (cd_view s'' b) /\
    forall v t r', step grow s'' (ModVia a v) = Ok (t, r') -> phase_of (cd_view t b) = Some v.
Proof. exact assign_shares. Qed.
Print Assumptions C43_assign.

(** As long as no problem with contacts is assigned to one that has contacts and
    room, problems are values: each operation changes their contents as [after]
    says, and no other change of phases or ContactData shows in them. *)
Theorem C43_problems : forall grow s o s' r,
  reach grow s -> step grow s o = Ok (s', r) -> problem_views s' = after s o.
Proof. exact (fun grow s o s' r R H => step_views grow s o s' r (reach_sep grow s R) H). Qed.
Print Assumptions C43_problems.

(** Adding a contact is undefined exactly when it has no live phase. *)
Theorem C43_add_contact : forall grow s p a x, reach grow s -> p < length (probs s) -> cd_view s a = Some x ->
  (phase_of (cd_view s a) = None -> step grow s (AddContact p a) = UB) /\
  (phase_of (cd_view s a) <> None -> exists s', step grow s (AddContact p a) = Ok (s', Nothing)).
Proof. exact add_ub. Qed.
Print Assumptions C43_add_contact.

(** After such an assignment a change in one problem shows in the other. *)
Theorem C43_problem_assignment_refuted : forall grow v w, (forall n, n < grow n) -> v <> w ->
  exists l s s', run grow w0 l = Ok s /\ step grow s (ModContact 0 0 w) = Ok (s', Nothing) /\
    nth_error (problem_views s) 1 = Some [Some (Contact (Some v) zero_rows [] zero_rows [])] /\
    nth_error (problem_views s') 1 = Some [Some (Contact (Some w) zero_rows [] zero_rows [])] /\
    problem_views s' <> after s (ModContact 0 0 w).
Proof. exact values_refuted. Qed.
Print Assumptions C43_problem_assignment_refuted.

(** A python program that neither reads nor assigns the phase of a ContactData,
    nor constructs one from None, never loses a phase: no history of it is
    undefined and the phase of every ContactData is alive. *)
Theorem C43_python : forall grow l, Forall python_safe l ->
  exists s, run grow w0 l = Ok s /\ forall a x, cd_view s a = Some x -> phase_of (cd_view s a) <> None.
Proof. exact python_run. Qed.
Print Assumptions C43_python.

(** With any of the three it can. *)
Theorem C43_python_refuted : forall grow v w,
  run grow w0 [NewPhase v; NewPhase v; NewWith 0; SetPhase 0 1; DropPhase 1; NewProblem; AddContact 0 0] = UB /\
  run grow w0 [NewPhase v; NewWith 0; GetPhase 0; DropPhase 0; DropCD 0; ModPhase 1 w] = UB /\
  run grow w0 [NewDefault; NewProblem; AddContact 0 0] = UB.
Proof. exact (fun grow v w => conj (dangling_set grow v) (conj (dangling_get grow v w) (null_add grow))). Qed.
Print Assumptions C43_python_refuted.

(** C44.  In every history the matrices and vectors fit. *)
Theorem C44_consistent : forall grow l s, run grow w0 l = Ok s ->
  (forall a c, cd_view s a = Some (Some c) -> consistent c) /\
  (forall v c, In v (problem_views s) -> In (Some c) v -> consistent c).
Proof. exact run_consistent. Qed.
Print Assumptions C44_consistent.

(** Mismatched calls raise, and calls that raise change nothing. *)
Theorem C44_mismatch : forall grow s a K k, length k <> length K ->
  step grow s (SetKin a K k) = Ok (s, Raised) /\ step grow s (SetAng a K k) = Ok (s, Raised).
Proof. exact set_mismatch. Qed.
Print Assumptions C44_mismatch.
Theorem C44_raised : forall grow s o s', step grow s o = Ok (s', Raised) -> s' = s.
Proof. exact raised_same. Qed.
Print Assumptions C44_raised.

(** Other calls set the constraint, and only that. *)
Theorem C44_set_kinematic : forall grow s a c K k, cd_view s a = Some (Some c) -> length k = length K ->
  exists s', step grow s (SetKin a K k) = Ok (s', Nothing) /\
    cd_view s' a = Some (Some (Contact (cd_phase c) K k (cd_Ang c) (cd_ang c))) /\
    (forall b, b <> a -> cd_view s' b = cd_view s b) /\ problem_views s' = problem_views s.
Proof. exact set_get_kin. Qed.
Print Assumptions C44_set_kinematic.
Theorem C44_set_angular : forall grow s a c K k, cd_view s a = Some (Some c) -> length k = length K ->
  exists s', step grow s (SetAng a K k) = Ok (s', Nothing) /\
    cd_view s' a = Some (Some (Contact (cd_phase c) (cd_Kin c) (cd_kin c) K k)) /\
    (forall b, b <> a -> cd_view s' b = cd_view s b) /\ problem_views s' = problem_views s.
Proof. exact set_get_ang. Qed.
Print Assumptions C44_set_angular.

(** Reading a constraint raises exactly when none, or an empty one, is set. *)
Theorem C44_get : forall grow s a c, cd_view s a = Some (Some c) ->
  (cd_kin c = [] -> step grow s (GetKin a) = Ok (s, Raised)) /\
  (cd_kin c <> [] -> step grow s (GetKin a) = Ok (s, Matrices (cd_Kin c) (cd_kin c))) /\
  (cd_ang c = [] -> step grow s (GetAng a) = Ok (s, Raised)) /\
  (cd_ang c <> [] -> step grow s (GetAng a) = Ok (s, Matrices (cd_Ang c) (cd_ang c))).
Proof. exact get_kin. Qed.
Print Assumptions C44_get.
