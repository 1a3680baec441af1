(** Concrete inputs for the theorems of PropertiesSolver.v. *)
From Verif Require Import Vec ModelCont ModelSolver SpecWp SpecSolver ProofSolver PropertiesSolver.
Open Scope R_scope.

(** x0 + x1 <= 3, x0 - x1 <= 1, x0 + 2 x1 = 2, x >= (0, 0) *)
Definition ex_A : matX := MX 2 [[1; 1]; [1; -1]].
Definition ex_D : matX := MX 2 [[1; 2]].
Example ex_C37 : mx_wf ex_A /\ length [3; 1] = length (mx_rows ex_A) /\ length [0; 0] = mx_cols ex_A /\
  leM ex_A [3; 1] [1; 1/2] /\ eqM ex_D [2] [1; 1/2] /\ above [0; 0] [1; 1/2] /\
  ~ leM ex_A [3; 1] [4; -1] /\ ~ above [0; 0] [4; -1].
Proof.
  split; [unfold mx_wf; cbn; repeat constructor|]. split; [reflexivity|]. split; [reflexivity|].
  split; [unfold leM; cbn; constructor; [cbn; lra|constructor; [cbn; lra|constructor]]|].
  split; [unfold eqM; cbn; constructor; [cbn; lra|constructor]|].
  split; [right; repeat constructor; lra|]. split.
  - intros H. inversion H as [|? ? ? ? H1 H2]; subst. inversion H2; subst. cbn in *; lra.
  - intros [H|H]; [discriminate|]. inversion H as [|? ? ? ? _ H2]; subst. inversion H2; subst. lra.
Qed.
Example ex_C38 : mx_wf ex_A /\ [5; 5] <> [].
Proof. split; [apply ex_C37|discriminate]. Qed.
Lemma ex_nz : (nonzeros ex_A + nonzeros ex_D = 6)%nat.
Proof. unfold nonzeros; cbn. repeat (destruct (Req_EM_T _ _); [exfalso; lra|]; cbn). reflexivity. Qed.
Example ex_C39 : mx_wf ex_A /\ mx_wf ex_D /\ mx_cols ex_A = length [0; 0] /\ mx_cols ex_D = length [0; 0] /\
  (Z.of_nat (nonzeros ex_A + nonzeros ex_D) <= 20000)%Z.
Proof. rewrite ex_nz. unfold mx_wf; cbn. repeat split; try (repeat constructor; fail). lia. Qed.
(** A matrix with more than 20000 non-zero entries. *)
Definition ex_big : matX := MX 3 (repeat [1; 1; 1] (7000)).
Lemma nz_repeat n : nonzeros (MX 3 (repeat [1; 1; 1] n)) = (3 * n)%nat.
Proof.
  unfold nonzeros; cbn [mx_rows]. induction n as [|n IH]; [reflexivity|]. cbn [repeat concat]. rewrite filter_app, app_length, IH. cbn.
  destruct (Req_EM_T 1 0); [exfalso; lra|]. cbn. lia.
Qed.
Example ex_C39_big : mx_wf ex_big /\ (20000 < Z.of_nat (nonzeros ex_big + nonzeros (MX 3 [])))%Z.
Proof.
  split.
  - unfold mx_wf, ex_big; cbn [mx_rows mx_cols]. apply Forall_forall. intros r H. apply repeat_spec in H. subst. reflexivity.
  - unfold ex_big. rewrite nz_repeat. cbn [nonzeros mx_rows concat filter length]. rewrite Nat.add_0_r, Nat2Z.inj_mul.
    vm_compute. reflexivity.
Qed.
