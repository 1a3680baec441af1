(** Cases that meet the hypotheses of the theorems of PropertiesDouble2.v: phases of 1 and 0.1. *)
From Flocq Require Import Core BinarySingleNaN.
From Verif Require Import Vec SpecBezier SpecTime ModelData ModelDispatch SpecCom SpecCtr Double ModelDouble SpecDouble SpecDouble2
  ProofDouble ProofDouble2 ProofDouble3 ProofDouble5 PropertiesDouble PropertiesDouble2 ExamplesDouble ExamplesCom.
Open Scope R_scope.

Definition ex_Ts : list f64 := [f1; dec_f 1 10].
Lemma ex_wp_f flag : In flag com_flags -> well_posed (ex_pb flag) (map (fun d : f64 => B2R d) ex_Ts).
Proof.
  intro H. destruct (ex_wp flag H) as (A & B & C & D & E & F). split; [exact A|]. split; [exact B|]. split; [discriminate|]. split; [|split; [reflexivity|exact F]].
  pose proof tenth_ge as G. cbn [ex_Ts map]. apply Forall_cons; [rewrite f1_val; lra|]. apply Forall_cons; [lra|apply Forall_nil].
Qed.
Lemma ex_pos : Forall posf ex_Ts.
Proof. destruct one_tenth as [P Q]. apply Forall_cons; [exact P|apply Forall_cons; [exact Q|apply Forall_nil]]. Qed.
Lemma ex_same flag : same_gravity (ex_pb flag) (V3 0 0 (-981/100)).
Proof. intros c ph [<-|[<-|[]]] H; injection H as <-; reflexivity. Qed.
Lemma ex_sum : posf (seq_sum ex_Ts) /\ is_finite (end_f ex_Ts (length ex_Ts)) = true /\ B2R (end_f ex_Ts (length ex_Ts)) = B2R (seq_sum ex_Ts) /\ B2R (seq_sum ex_Ts) <= 2.
Proof.
  assert (E : seq_sum ex_Ts = end_f ex_Ts (length ex_Ts)) by (apply B2SF_inj; vm_compute; reflexivity).
  assert (F : is_finite (end_f ex_Ts (length ex_Ts)) = true) by (vm_compute; reflexivity). rewrite <- E in F |- *.
  assert (V : B2R (seq_sum ex_Ts) = rnd (1 + B2R (dec_f 1 10))).
  { pose proof F as F'. unfold seq_sum, ex_Ts in F' |- *. cbn [fold_left] in F' |- *. destruct (fadd_inv _ _ F') as (_ & _ & V). rewrite V, f1_val. reflexivity. }
  pose proof tenth_ge as G. assert (R1 : 1 <= rnd (1 + B2R (dec_f 1 10))).
  { rewrite <- (rnd_fmt 1) at 1 by (apply (fmt_Z 1); lia). apply rnd_le. lra. }
  assert (R2 : rnd (1 + B2R (dec_f 1 10)) <= 2) by (rewrite <- (rnd_fmt 2) by (apply (fmt_Z 2); lia); apply rnd_le; lra).
  split; [split; [exact F|rewrite V; lra]|]. split; [exact F|]. split; [reflexivity|]. rewrite V. exact R2.
Qed.

Example ex_C80_step : exists fuel ta rows, computeDiscretizedTime_f fuel ex_Ts (dec_f 1 10) = Some ta /\
  constraints_f (ex_pb F_acc_c1) ex_Ts (seq_sum ex_Ts) ta = Ok rows.
Proof.
  destruct ex_sum as (P & F & V & L). destruct one_tenth as [_ Q]. pose proof tenth_ge as G.
  assert (U : u53 <= / 100) by (unfold u53; apply Rinv_le_contravar; [lra|apply IZR_le; discriminate]).
  destruct (C76_ends ex_Ts (dec_f 1 10) ex_pos Q F) as (fuel & ta & H).
  { rewrite V. pose proof u53_pos. nra. }
  specialize (H fuel (le_n _)).
  destruct (C80_step (ex_pb F_acc_c1) ex_Ts (seq_sum ex_Ts) (dec_f 1 10) fuel ta ltac:(apply ex_wp_f; cbn; tauto) ex_pos P Q F H _ (ex_same F_acc_c1) ltac:(cbn; tauto))
    as (ev & bs & rows & _ & _ & _ & _ & R & _). exists fuel, ta, rows. auto.
Qed.
Example ex_C80_step_decimal : exists fuel ta rows, computeDiscretizedTime_f fuel ex_Ts (dec_f 1 10) = Some ta /\
  constraints_f (ex_pb F_acc_all) ex_Ts (seq_sum ex_Ts) ta = Ok rows.
Proof.
  destruct ex_sum as (P & F & V & L). destruct one_tenth as [_ Q]. pose proof tenth_ge as G.
  assert (U : u53 <= / 100) by (unfold u53; apply Rinv_le_contravar; [lra|apply IZR_le; discriminate]).
  destruct (C76_ends ex_Ts (dec_f 1 10) ex_pos Q F) as (fuel & ta & H).
  { rewrite V. pose proof u53_pos. nra. }
  specialize (H fuel (le_n _)).
  destruct (C80_step_decimal (ex_pb F_acc_all) ex_Ts (seq_sum ex_Ts) (dec_f 1 10) fuel ta ltac:(apply ex_wp_f; cbn; tauto) ex_pos P Q F H _ 10 (ex_same F_acc_all)
    ltac:(apply ex_C15) ltac:(cbn; tauto)) as (ev & bs & rows & _ & _ & _ & _ & R & _). exists fuel, ta, rows. auto.
Qed.
Lemma ex_sizes : (Z.of_nat (length ex_Ts) * Z.of_nat 3 < 2 ^ 53)%Z /\ total (map (fun d : f64 => B2R d) ex_Ts) <= IZR (2 ^ 1000) /\
  (forall d, In d ex_Ts -> / IZR (2 ^ 1022) <= B2R d / INR 3).
Proof.
  pose proof tenth_ge as G. assert (N : / IZR (2 ^ 1022) <= / 100) by (apply Rinv_le_contravar; [lra|apply IZR_le; discriminate]).
  assert (N2 : 2 <= IZR (2 ^ 1000)) by (apply IZR_le; discriminate). split; [reflexivity|]. split; [cbn [ex_Ts map total]; rewrite f1_val; lra|].
  intros d [<-|[<-|[]]]; rewrite ?f1_val; cbn [INR]; lra.
Qed.
Example ex_C80_fixed : exists rows,
  constraints_f (ex_pb F_acc_c1) ex_Ts (seq_sum ex_Ts) (computeDiscretizedTimeFixed_f (seq_sum ex_Ts) ex_Ts 3) = Ok rows.
Proof.
  destruct ex_sum as (P & _). destruct ex_sizes as (A & B & C).
  destruct (C80_fixed (ex_pb F_acc_c1) ex_Ts (seq_sum ex_Ts) 3 ltac:(apply ex_wp_f; cbn; tauto) ex_pos P ltac:(lia) A B C _ (ex_same F_acc_c1) ltac:(cbn; tauto))
    as (ev & rows & _ & R & _). exists rows. exact R.
Qed.
Example ex_C80_fixed_decimal : exists rows,
  constraints_f (ex_pb F_acc_all) ex_Ts (seq_sum ex_Ts) (computeDiscretizedTimeFixed_f (seq_sum ex_Ts) ex_Ts 3) = Ok rows.
Proof.
  destruct ex_sum as (P & _). destruct ex_sizes as (A & B & C).
  destruct (C80_fixed_decimal (ex_pb F_acc_all) ex_Ts (seq_sum ex_Ts) 3 ltac:(apply ex_wp_f; cbn; tauto) ex_pos P ltac:(lia) A B C _ 10 (ex_same F_acc_all)
    ltac:(apply ex_C15) ltac:(cbn; tauto)) as (ev & rows & _ & R & _). exists rows. exact R.
Qed.
