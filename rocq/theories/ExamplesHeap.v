(** Histories that meet the hypotheses of PropertiesHeap.v. *)
From Coq Require Import List Reals ZArith Lia.
From Verif Require Import Vec ModelData ModelHeap SpecHeap PropertiesHeap.
Import ListNotations.
Local Open Scope nat_scope.

Definition ph (m : R) : cphase := CPhase [] m vzero [].
Definition dbl (n : nat) : nat := match n with 0 => 1 | _ => 2 * n end.
Lemma dbl_grows : forall n, n < dbl n.
Proof. intros [|n]; simpl; lia. Qed.
Lemma ph_ne : ph 1 <> ph 2.
Proof. unfold ph. intros E. injection E. apply (IZR_neq 1 2). discriminate. Qed.
Definition row : vec3 := V3 1 0 0.
Ltac comp := cbv -[ph row zero_rows IZR]; reflexivity.

(** A ContactData with a kinematic constraint, and a problem holding it. *)
Definition setup : list op := [NewPhase (ph 1); NewWith 0; SetKin 0 [row; row] [1%R; 2%R]; NewProblem; AddContact 0 0].
Definition s1 : world := Eval cbv -[ph row zero_rows IZR] in match run dbl w0 setup with Ok s => s | _ => w0 end.
Example setup_ok : run dbl w0 setup = Ok s1.
Proof. comp. Qed.
Definition c1 : contact := Contact (Some (ph 1)) [row; row] [1%R; 2%R] zero_rows [].
Example s1_view : cd_view s1 0 = Some (Some c1) /\ problem_views s1 = [[Some c1]].
Proof. split; comp. Qed.
Example setup_python : Forall python_safe setup.
Proof. repeat constructor. Qed.

(** Copy, then change the original through its pointer: the copy and the problem stay. *)
Definition s2 : world := Eval cbv -[ph row zero_rows IZR] in match step dbl s1 (CopyCD 0) with Ok (s, _) => s | _ => w0 end.
Example copy_ex : step dbl s1 (CopyCD 0) = Ok (s2, Nothing) /\ cd_view s2 1 = Some (Some c1).
Proof. split; comp. Qed.
Definition others : list op := [ModPhase 0 (ph 2); ModVia 0 (ph 2); SetKin 0 [] []; AddContact 0 1; CopyCD 1; DeletePhase 0].
Example others_ok : forall o, In o others -> ~ uses o 1.
Proof. simpl. intros o I. intuition subst; simpl in *; try contradiction; discriminate. Qed.
Example others_run : exists s, run dbl s2 others = Ok s /\ cd_view s 1 = Some (Some c1) /\ cd_view s 0 = Some None.
Proof. eexists. split; [comp|]. split; comp. Qed.
(** Changes through the copy, also by a pointer taken from it. *)
Definition own : list op := [ModVia 1 (ph 2); GetPhase 1; ModPhase 1 (ph 2); SetAng 1 [row] [1%R]; DeletePhase 1].
Example own_ok : forall o, In o own -> through 1 (length (hnds s1)) o.
Proof. simpl. intros o I. intuition subst; simpl; auto. Qed.
Example own_run : exists s, run dbl s2 own = Ok s /\ cd_view s 0 = Some (Some c1) /\ cd_view s 1 = Some None.
Proof. eexists. split; [comp|]. split; comp. Qed.

(** Assignment shares: after 1 = 0 a change through 0 shows in 1. *)
Definition s3 : world := Eval cbv -[ph row zero_rows IZR] in match step dbl s2 (AssignCD 1 0) with Ok (s, _) => s | _ => w0 end.
Example assign_ex : step dbl s2 (AssignCD 1 0) = Ok (s3, Nothing) /\
  exists s, run dbl s3 [ModPhase 0 (ph 2)] = Ok s /\ phase_of (cd_view s 1) = Some (ph 2).
Proof. split; [comp|]. eexists. split; comp. Qed.

(** A null and a destroyed phase. *)
Example null_ex : exists s, run dbl w0 [NewDefault] = Ok s /\ cd_view s 0 = Some (Some (Contact None zero_rows [] zero_rows [])) /\
  step dbl s (CopyCD 0) = UB.
Proof. eexists. split; [comp|]. split; comp. Qed.

(** States of [reach], with a deep problem assignment and reallocations. *)
Lemma reach_run : forall l s s', reach dbl s -> Forall (fun o => match o with AssignProblem _ _ => False | _ => True end) l ->
  run dbl s l = Ok s' -> reach dbl s'.
Proof.
  induction l as [|o l IH]; simpl; intros s s' R F H.
  - inversion H; subst; auto.
  - inversion F; subst. destruct (step dbl s o) as [[t r]| |] eqn:E; simpl in H; try discriminate.
    eapply IH; [|eauto|eauto]. eapply reach_step; eauto. destruct o; simpl; auto.
Qed.
Definition more : list op := setup ++ [AddContact 0 0; AddContact 0 0; NewProblem; CopyProblem 0; ModContact 0 1 (ph 2); DropPhase 0].
Definition s4 : world := Eval cbv -[ph row zero_rows IZR] in match run dbl w0 more with Ok s => s | _ => w0 end.
Example more_reach : reach dbl s4.
Proof. apply (reach_run more w0); [constructor| |comp]. repeat constructor. Qed.
Example deep : ~ shares s4 (AssignProblem 1 0) /\ exists s, step dbl s4 (AssignProblem 1 0) = Ok (s, Nothing) /\
  problem_views s = after s4 (AssignProblem 1 0) /\
  nth_error (problem_views s) 1 = Some [Some c1; Some (Contact (Some (ph 2)) [row; row] [1%R; 2%R] zero_rows []); Some c1] /\
  nth_error (problem_views s) 2 = Some [Some c1; Some c1; Some c1].
Proof.
  split.
  - intros (_ & v & w & N & _ & E & _). inversion N. subst v. apply E. comp.
  - eexists. split; [comp|]. split; [|split; comp].
    eapply C43_problems; [apply more_reach|comp].
Qed.
Example assigned_ex : exists l s s', run dbl w0 l = Ok s /\ step dbl s (ModContact 0 0 (ph 2)) = Ok (s', Nothing) /\ problem_views s' <> after s (ModContact 0 0 (ph 2)).
Proof.
  destruct (C43_problem_assignment_refuted dbl (ph 1) (ph 2) dbl_grows ph_ne) as (l & s & s' & A & B & _ & _ & C). exists l, s, s'. auto.
Qed.
Example add_ex : 0 < length (probs s1) /\ phase_of (cd_view s1 0) = Some (ph 1).
Proof. split; [simpl; lia|comp]. Qed.

(** Python lifetimes: the ContactData keeps its phase after the program drops it. *)
Definition session : list op := setup ++ [DropPhase 0; AddContact 0 0; NewPhase (ph 2); NewWith 1; DropCD 0; DropPhase 1; GetKin 1; AddContact 0 1].
Example session_ok : Forall python_safe session /\ exists s, run dbl w0 session = Ok s /\
  map (@length _) (problem_views s) = [3] /\ nth_error (heap s) 0 = Some None.
Proof. split; [repeat constructor|]. eexists. split; [comp|]. split; comp. Qed.

(** C44 *)
Example mismatch_ex : step dbl s1 (SetKin 0 [row] []) = Ok (s1, Raised).
Proof. comp. Qed.
Example get_ex : step dbl s1 (GetKin 0) = Ok (s1, Matrices [row; row] [1%R; 2%R]) /\ step dbl s1 (GetAng 0) = Ok (s1, Raised).
Proof. split; comp. Qed.
