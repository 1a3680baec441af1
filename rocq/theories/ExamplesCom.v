(** Concrete inputs for the theorems of PropertiesCom.v. *)
From Verif Require Import Vec SpecBezier SpecTime ModelData ModelDispatch ModelUtils ModelRows ModelCom
  SpecCom SpecCtr PropertiesCom.
Open Scope R_scope.

(** Two phases, two polytope rows and two kinematic rows in the first, one of
    each in the second, acceleration bounded. *)
Definition ex_ph (rows : list (v6 * R)) : cphase := CPhase rows 50 (V3 0 0 (-981/100)) [].
Definition ex_c0 : contact :=
  Contact (Some (ex_ph [((V3 1 0 (1/2), vzero), 0); ((V3 (-1) 0 (1/2), vzero), 0)]))
    [V3 1 0 0; V3 0 1 0] [2; 3] [] [].
Definition ex_c1 : contact :=
  Contact (Some (ex_ph [((V3 0 1 (1/2), V3 0 0 1), 1)])) [V3 0 0 1] [1] [] [].
Definition ex_pb (flag : Z) : problem :=
  Problem [ex_c0; ex_c1] (V3 0 0 (4/5)) vzero vzero vzero (V3 (1/10) 0 (4/5)) vzero vzero vzero vzero false
    (Constraints flag true 5 (1/10)) ACCELERATION DOUBLE_DESCRIPTION.

Lemma ex_wp flag : In flag com_flags -> well_posed (ex_pb flag) [1; 1/2].
Proof.
  intros H. split; [exact H|]. split; [reflexivity|]. split; [discriminate|].
  split; [repeat constructor; lra|]. split; [reflexivity|].
  repeat constructor; eexists; (split; [reflexivity|]; split; [cbn; lra|]; split; [|cbn; lia]);
    repeat constructor; cbn; intros E; injection E; intros; lra.
Qed.

Example ex_C14 : well_posed (ex_pb F_dc1_c1) [1; 1/2] /\
  exists rows, computeConstraintsOneStep (ex_pb F_dc1_c1) [1; 1/2] (total [1; 1/2])
                 (computeDiscretizedTimeFixed [1; 1/2] 3) = Ok rows /\
  length rows = (4 * 4 + 2 * 4 + 6 * 7)%nat.
Proof.
  split; [apply ex_wp; cbn; tauto|].
  destruct (C14_rows_fixed (ex_pb F_dc1_c1) [1; 1/2] 3 ltac:(apply ex_wp; cbn; tauto) ltac:(lia)) as (n & rows & E & L & _ & H).
  exists rows. split; [exact H|]. rewrite L, E. reflexivity.
Qed.

Example ex_C15 : well_posed (ex_pb F_acc_c1) [1; 1/2] /\ same_gravity (ex_pb F_acc_c1) (V3 0 0 (-981/100)) /\
  In F_acc_c1 exact_w_flags /\ In F_acc_dc1_c1 dec_w_flags /\ within 10 (V3 0 0 (-981/100)) /\
  sampled_fixed [1; 1/2] 2 1 (5/4) /\ sampled_step [1; 1/2] (2/5) 1 (7/5).
Proof.
  split; [apply ex_wp; cbn; tauto|]. split.
  { intros c ph [<-|[<-|[]]] H; injection H as <-; reflexivity. }
  split; [cbn; tauto|]. split; [cbn; tauto|]. split.
  { unfold within; cbn. rewrite Rabs_R0. split; [lra|]. split; [lra|]. rewrite Rabs_left by lra. lra. }
  split.
  - exists 1%nat, (1/2). split; [lia|]. split; [reflexivity|]. unfold phase_start; cbn. lra.
  - split; [cbn; lia|]. right. exists 1%nat. unfold phase_start, phase_end; cbn. lra.
Qed.

(** The polytope row of the second phase has offset 1 and m |H| <> 1. *)
Example ex_C45 : cd_phase ex_c1 = Some (ex_ph [((V3 0 1 (1/2), V3 0 0 1), 1)]) /\
  k_reduce_h (Constraints 0 false 0 (-1)) <= 0 /\ 50 * norm6 (V3 0 1 (1/2), V3 0 0 1) <> 1.
Proof.
  split; [reflexivity|]. split; [cbn; lra|]. unfold norm6, dot6, vdot; cbn. intros E.
  pose proof (sqrt_le_1 1 (0 * 0 + 1 * 1 + 1 / 2 * (1 / 2) + (0 * 0 + 0 * 0 + 1 * 1)) ltac:(lra) ltac:(lra) ltac:(lra)) as H.
  rewrite sqrt_1 in H. lra.
Qed.

Example ex_C46 : front_gravity (ex_pb F_c1) = Ok (V3 0 0 (-981/100)).
Proof. reflexivity. Qed.

Example ex_C49 : (2 <= length [1; 1/2])%nat.
Proof. cbn; lia. Qed.
