(** Concrete inputs for the theorems of PropertiesIgnore.v. *)
From Verif Require Import Vec SpecBezier ModelData ModelDispatch ModelUtils ModelCont ModelSolver ModelTraj Model0Step ModelEff
  SpecCom SpecTraj Spec0Step SpecEff SpecIgnore Proof0Step2 Proof0Step3 ProofTraj2 ProofJerkCom2 ProofEff2 ProofSolves PropertiesIgnore ExamplesTraj Examples0Step ExamplesEff ExamplesSolves.
Open Scope R_scope.

(** The problem with another angular momentum and other jerks. *)
Definition other_l (p : problem) : problem :=
  Problem (contacts p) (c0 p) (dc0 p) (ddc0 p) (V3 1 2 3) (c1 p) (dc1 p) (ddc1 p) (V3 4 5 6) (V3 7 8 9) (negb (useAngularMomentum p)) (constr p)
    (costFunction p) (representation p).
Example ex_C113_com : (exists r, computeCOMTraj true false exact_solver no_lp (other_l (st_pb DISTANCE_TRAVELED)) [1; 1/2] (1/5) SOLVER_QUADPROG = Ok r /\ rc_success r = true) /\
  exists r, computeCOMTrajFixedSize true false exact_solver no_lp (other_l (st_pb DISTANCE_TRAVELED)) [1; 1/2] 4 = Ok r /\ rc_success r = true.
Proof.
  assert (H : same_com (other_l (st_pb DISTANCE_TRAVELED)) (st_pb DISTANCE_TRAVELED)) by (repeat split; intros X; discriminate X).
  assert (I : In (flag_of (other_l (st_pb DISTANCE_TRAVELED))) (com_flags ++ [F_jerk])) by (cbn; tauto).
  rewrite (C113_com _ _ I H), (C113_com_fixed _ _ I H). exact ex_C51_distance.
Qed.

(** The same with jerk constraints, for the problem of C111 with another angular momentum. *)
Definition other_l_jerk (p : problem) : problem :=
  Problem (contacts p) (c0 p) (dc0 p) (ddc0 p) (j0 p) (c1 p) (dc1 p) (ddc1 p) (j1 p) (V3 7 8 9) (negb (useAngularMomentum p)) (constr p)
    (costFunction p) (representation p).
Example ex_C113_com_jerk : exists r, computeCOMTrajFixedSize true false (guess [0; 0; 0]) no_lp (other_l_jerk jc_pb) [1] 1 = Ok r /\ rc_success r = true.
Proof.
  assert (H : same_com (other_l_jerk jc_pb) jc_pb) by (repeat split).
  assert (I : In (flag_of (other_l_jerk jc_pb)) (com_flags ++ [F_jerk])) by (cbn; tauto).
  rewrite (C113_com_fixed _ _ I H). apply jc_plan.
Qed.

(** Another flag and cost, further phases and durations. *)
Definition other_flag (p : problem) (cs : list contact) : problem :=
  Problem cs (c0 p) (dc0 p) (V3 1 2 3) (j0 p) (V3 4 5 6) (dc1 p) (ddc1 p) (j1 p) (l0 p) (useAngularMomentum p) (Constraints F_c1 true 1 1) 17 18.
Example ex_C113_zero : exists r, solve0step false (guess (z_vec true z_x z_xL)) no_lp (other_flag z_pb (contacts z_pb ++ contacts z_pb)) [1; -5] 0 = Ok r /\
  r0_success r = true.
Proof.
  destruct ex_C25_C27 as (r & x & xL & E & S & _). exists r. split; [|exact S]. rewrite <- E. apply C113_zero_step; reflexivity.
Qed.

(** Contacts, limits, margin, cost and representation do not matter for an effector. *)
Definition other_contacts (p : problem) : problem :=
  Problem [z_ct] (c0 p) (dc0 p) (ddc0 p) (j0 p) (c1 p) (dc1 p) (ddc1 p) (j1 p) (V3 1 1 1) true (Constraints (flag_of p) true (1/1000) 5) 17 18.
Example ex_C113_effector : exists r, solveEndEffector false (guess (flat st3_xs)) no_lp (repeat 0) (other_contacts x3_pb) st3_path 1 (1 / 2) = Ok r /\ rc_success r = true.
Proof.
  destruct ex_C29 as (r & E & S & _). exists r. split; [|exact S]. rewrite <- E. apply C113_effector. repeat split.
Qed.

(** C113_refuted: a back end as it asks for exists. *)
Example ex_C113_refuted : qp_solves exact_solver.
Proof. exact exact_solves. Qed.
