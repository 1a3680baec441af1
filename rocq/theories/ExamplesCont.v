(** Concrete inputs for the theorems of PropertiesCont.v. *)
From Verif Require Import Vec SpecBezier SpecTime ModelData ModelDispatch ModelUtils ModelRows ModelCom ModelNd ModelCont
  SpecCom SpecWp SpecCtr SpecCont ProofCont ProofCont10 ExamplesCom PropertiesCont.
Open Scope R_scope.

(** The two-phase problem of ExamplesCom.v meets the hypotheses of C17, C19,
    C20 and C47, and the curve through it has no zero control point. *)
Lemma ex_long : long_phases [1; 1/2].
Proof. unfold long_phases. repeat (constructor; [lra|]). constructor. Qed.
Example ex_C17 : well_posed (ex_pb F_c1) [1; 1/2] /\ splittable [1; 1/2] /\ long_phases [1; 1/2] /\
  same_gravity (ex_pb F_c1) (V3 0 0 (-981/100)) /\ representation (ex_pb F_c1) = DOUBLE_DESCRIPTION /\
  In F_c1 exact_w_flags /\ In F_acc_all dec_w_flags /\ in_phase [1; 1/2] 1 (6/5).
Proof.
  split; [apply ex_wp; cbn; tauto|]. split; [apply ProofCont7.long_split, ex_long|]. split; [apply ex_long|]. split.
  { intros c ph [<-|[<-|[]]] H; injection H as <-; reflexivity. }
  split; [reflexivity|]. split; [cbn; tauto|]. split; [cbn; tauto|].
  split; [cbn; lia|]. unfold phase_start, phase_end; cbn. lra.
Qed.
(** The inequalities have solutions. *)
Example ex_C17_solution : exists pData Ts out x cv, well_posed pData Ts /\ long_phases Ts /\
  computeConstraintsContinuous false pData Ts = Ok out /\
  com_curve pData (total Ts) x = Ok cv /\ no_zero_point cv x /\ satX (co_A out) (l3 x).
Proof.
  destruct C17_unscaled_acceleration_refuted as (p & Ts & out & x & cv & t & A & B & _ & D & E & F & G & _).
  exists p, Ts, out, x, cv. split; [exact A|]. split; [exact B|]. split; [exact D|]. split; [exact E|]. split; [exact F|exact G].
Qed.

Example ex_C17_short : well_posed (ex_pb F_c1) ([1] ++ [1/2000]) /\ 1/1000 <= total [1] /\ 1/2000 < 1/1000.
Proof.
  split; [|cbn; lra]. destruct (ex_wp F_c1 ltac:(cbn; tauto)) as (A & B & _ & _ & _ & D).
  split; [exact A|]. split; [exact B|]. split; [discriminate|]. split; [repeat constructor; lra|]. split; [reflexivity|exact D].
Qed.

(** C18: two phases with the same five generators; both phases of the witness
    motion are certified, with explicit forces existing. *)
Definition nest_pb : problem :=
  Problem [wf_c wf_G1; wf_c wf_G1] (V3 1 0 0) vzero vzero vzero (V3 (-1) 0 0) vzero vzero vzero vzero false
    (Constraints F_c1 true 40 0) ACCELERATION FORCE.
Example ex_C18 : well_posed nest_pb [1; 1] /\ cones_nested (contacts nest_pb) /\
  exists out beta, computeConstraintsContinuous true nest_pb [1; 1] = Ok out /\
    com_curve nest_pb (total [1; 1]) wf_x = Ok wf_cv /\
    geX (co_min out) (l3 wf_x ++ beta) /\ eqX (co_D out) (l3 wf_x ++ beta).
Proof.
  assert (WP : well_posed nest_pb [1; 1]).
  { split; [cbn; tauto|]. split; [reflexivity|]. split; [discriminate|].
    split; [repeat constructor; lra|]. split; [reflexivity|].
    repeat constructor; eexists; (split; [reflexivity|]; split; [cbn; lra|]; split; [|cbn; lia]); constructor. }
  assert (SG : same_gravity nest_pb wf_g) by (intros c ph [<-|[<-|[]]] H; injection H as <-; reflexivity).
  assert (Cs : forall i c, nth_error (contacts nest_pb) i = Some c -> (i < 2)%nat /\ c = wf_c wf_G1).
  { intros [|[|i]] c H; [| |destruct i; discriminate]; injection H as <-; split; auto. }
  split; [exact WP|]. split.
  { intros i c c' H1 H2. apply Cs in H1. apply Cs in H2. destruct H1 as [_ ->], H2 as [_ ->]. split; intros _ w Hw; exact Hw. }
  destruct (C18_exact true nest_pb [1; 1] WP ltac:(discriminate) wf_g wf_long SG ltac:(cbn; tauto)) as (out & ws & Eout & Ews & H).
  assert (Lw : length ws = 4%nat) by (cbn in Ews; injection Ews as <-; reflexivity).
  assert (C : com_curve nest_pb (total [1; 1]) wf_x = Ok wf_cv) by exact wf_curve.
  destruct (H wf_x wf_cv C) as (Pw & HP & HB).
  assert (X : exists beta, geX (co_min out) (l3 wf_x ++ beta) /\ eqX (co_D out) (l3 wf_x ++ beta)).
  { apply HB. split; [cbn; lra|]. intros i c ph j q Hc Hph Hj _ _. destruct (HP i c ph Hc Hph) as [L CT].
    destruct (Cs i c Hc) as [Hi ->]. cbn in Hph. injection Hph as <-. cbn [cp_G].
    assert (E : Pw i = wf_Pw i).
    { eapply C17_wrench_points_unique; [apply (phase_lt i Hi)| |exact CT|apply wf_ctrl_w, Hi]. rewrite L, Lw. destruct i; reflexivity. }
    rewrite E in Hj. destruct i as [|[|i]]; [| |lia]; destruct j as [|[|[|[|j]]]]; cbn in Hj;
      try (injection Hj as <-; apply wf_cone1); destruct j; discriminate. }
  destruct X as (beta & X). exists out, beta. split; [exact Eout|]. split; [exact C|exact X].
Qed.
(** Generator counts 3, 5, 5: the first control point of phase 1 and the last
    of phase 1 are left to the neighbours. *)
Example ex_C19 :
  let cs := [wf_c (firstn 3 wf_G1); wf_c wf_G1; wf_c wf_G0] in
  force_counts 4 0 cs = [(4, 3); (2, 5); (4, 5)]%nat /\ left_to_prev cs 1 /\ left_to_next cs 1 /\ ~ left_to_next cs 0 /\ ~ left_to_prev cs 2.
Proof.
  cbv zeta. split; [reflexivity|]. split; [exists 0%nat; eexists; eexists; repeat split; cbn; lia|].
  split; [eexists; eexists; repeat split; cbn; lia|]. split.
  - intros (c & c' & H1 & H2 & H). injection H1 as <-. injection H2 as <-. cbn in H. lia.
  - intros (j & c & c' & E & H1 & H2 & H). injection E as <-. injection H1 as <-. injection H2 as <-. cbn in H. lia.
Qed.
Example ex_C21 : no_zero_point wf_cv wf_x /\ In (flag_of wf_pb) com_flags.
Proof. split; [exact wf_nz|cbn; tauto]. Qed.
Example ex_C47 : with_acc_flag (ex_pb F_c1) false <> ex_pb F_c1 /\ with_acc_flag (ex_pb F_c1) true = ex_pb F_c1.
Proof. split; [intros E; apply (f_equal (fun p => k_constraintAcceleration (constr p))) in E; discriminate|reflexivity]. Qed.
Example ex_C50 : let cv := NDC [V3 1 0 0; V3 0 1 0; V3 2 2 0] 0 2 1 in
  nd_pts cv <> [] /\ nd_min cv <= 1/2 /\ 1/2 < 1 /\ 1 <= nd_max cv /\ 1/1000 <= nd_max cv - 1/2.
Proof. cbn. split; [discriminate|]. lra. Qed.
