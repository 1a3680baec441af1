(** Concrete inputs for the theorems of PropertiesTime.v. *)
From Coq Require Import Permutation.
From Verif Require Import Vec ModelData ModelUtils ModelRows ModelCom SpecTime SpecWp ProofTime ProofTime2 ProofWp PropertiesTime.
Open Scope R_scope.

Example ex_C10 : (1 <= 2)%nat /\ [1; 2] <> [] /\
  nth_error (computeDiscretizedTimeFixed [1; 2] 2) 3 = Some (0 + 1 + 1/2 * 2, 1%Z).
Proof.
  split; [lia|]. split; [discriminate|].
  destruct (C10_fixed_discretisation [1; 2] 2) as (_ & _ & H & _); [lia|discriminate|].
  change 3%nat with (1 * 2 + 1)%nat. rewrite (H 1%nat 1%nat 2 eq_refl) by lia. unfold phase_start; cbn. f_equal. f_equal. lra.
Qed.

(** two phases of 1 and 1/2, step 2/5: times 0, 0.4, 0.8, 1 then 1, 1.4, 1.5 *)
Example ex_C11 : 0 < 2/5 /\ Forall (Rlt 0) [1; 1/2] /\ steps_to 0 1 (2/5) 3 /\ steps_to 1 (3/2) (2/5) 2.
Proof.
  split; [lra|]. split; [repeat constructor; lra|]. split; (split; [cbn; lra|]); intros k Hk.
  - destruct k as [|[|[|k]]]; cbn; try lra; lia.
  - destruct k as [|[|k]]; cbn; try lra; lia.
Qed.
Example ex_C12 : stepIdPerPhase (computeDiscretizedTimeFixed [1; 2; 1] 2) = Ok [2; 4; 6]%Z.
Proof. reflexivity. Qed.

(** x + y <= 2 (scaled), 0 <= 5 (dropped last), -x <= 0 *)
Example ex_C13 : exists l', NormalizeX [([0; 0], 5); ([1; 1], 2); ([-1; 0], 0)] = Ok (2%Z, l').
Proof.
  unfold NormalizeX, Normalize, removeZeroRows. cbn.
  repeat (match goal with |- context[Req_EM_T ?a 0] => destruct (Req_EM_T a 0); try lra end; cbn).
  repeat (match goal with |- context[Rlt_dec ?a 0] => destruct (Rlt_dec a 0); try lra end; cbn).
  eexists; reflexivity.
Qed.
Example ex_C13_empty : exists l', NormalizeX [([1; 1], 2); ([0; 0], -1)] = Ok ((-1)%Z, l').
Proof.
  unfold NormalizeX, Normalize, removeZeroRows. cbn.
  repeat (match goal with |- context[Req_EM_T ?a 0] => destruct (Req_EM_T a 0); try lra end; cbn).
  repeat (match goal with |- context[Rlt_dec ?a 0] => destruct (Rlt_dec a 0); try lra end; cbn).
  eexists; reflexivity.
Qed.

Example ex_C48 : wt_wf (WT [[1; 2]; [3; 4]] 2 [5; 6]) /\ ~ same_dims (initwp 2 2) (initwp 2 3).
Proof.
  split; [split; [reflexivity|repeat constructor]|]. intros [_ H]. discriminate.
Qed.
