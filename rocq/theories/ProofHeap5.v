(** Programs that share or lose a phase. *)
From Coq Require Import List Reals ZArith Lia.
From Verif Require Import Vec ModelData ModelHeap SpecHeap ProofHeap.
Import ListNotations.
Local Open Scope nat_scope.

Lemma values_refuted : forall grow v w, (forall n, n < grow n) -> v <> w ->
  exists l s s', run grow w0 l = Ok s /\ step grow s (ModContact 0 0 w) = Ok (s', Nothing) /\
    nth_error (problem_views s) 1 = Some [Some (Contact (Some v) zero_rows [] zero_rows [])] /\
    nth_error (problem_views s') 1 = Some [Some (Contact (Some w) zero_rows [] zero_rows [])] /\
    problem_views s' <> after s (ModContact 0 0 w).
Proof.
  intros grow v w G N. pose proof (G 0) as G0. destruct (grow 0) as [|g] eqn:E; [lia|].
  exists [NewPhase v; NewWith 0; NewProblem; NewProblem; AddContact 0 0; AddContact 1 0; AssignProblem 0 1].
  do 2 eexists. split; [|split; [|split; [|split]]].
  - cbn. unfold push_back. cbn. rewrite E. cbn. reflexivity.
  - cbn. reflexivity.
  - reflexivity.
  - reflexivity.
  - cbn. intros X. inversion X. congruence.
Qed.
Lemma dangling_set : forall grow v, run grow w0 [NewPhase v; NewPhase v; NewWith 0; SetPhase 0 1; DropPhase 1; NewProblem; AddContact 0 0] = UB.
Proof. reflexivity. Qed.
Lemma dangling_get : forall grow v w, run grow w0 [NewPhase v; NewWith 0; GetPhase 0; DropPhase 0; DropCD 0; ModPhase 1 w] = UB.
Proof. reflexivity. Qed.
Lemma null_add : forall grow, run grow w0 [NewDefault; NewProblem; AddContact 0 0] = UB.
Proof. reflexivity. Qed.
