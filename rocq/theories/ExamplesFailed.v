(** Concrete inputs for the theorems of PropertiesFailed.v: a back end that never finds an optimum. *)
From Verif Require Import Vec SpecBezier SpecTime ModelData ModelDispatch ModelUtils ModelRows ModelCom ModelCont ModelSolver ModelTraj
  Model0Step ModelEff SpecCom SpecWp SpecCtr SpecSolver SpecTraj SpecFailed ProofTraj2 ProofTraj3 ProofSolver ProofSolver2
  PropertiesCom PropertiesTraj PropertiesSolver PropertiesFailed ExamplesTraj
  ModelQp ModelPy Spec0Step SpecEff SpecPy ProofPy Examples0Step Proof0Step3 ExamplesEnd4 ExamplesPy.
Open Scope R_scope.

Definition never (q : qp) (init : list R) : outcome (Z * list R * R) := Ok (2%Z, init, 0).
Lemma mat3_wf Ab : mx_wf (mat3cols Ab).
Proof. unfold mx_wf, mat3cols. cbn. apply Forall_forall. intros r Hr. apply in_map_iff in Hr. destruct Hr as (x & <- & _). reflexivity. Qed.
Lemma never_solve Ab D d H g init : exists res, solve false never no_lp (mat3cols Ab) (map snd Ab) D d H g init [] [] SOLVER_QUADPROG = Ok res /\ rd_success res = false.
Proof.
  destruct (C37_quadprog (mat3cols Ab) (map snd Ab) D d H g init [] (mat3_wf Ab)) as (q & _ & _ & _ & E).
  - unfold mat3cols. cbn. rewrite !map_length. reflexivity.
  - left. reflexivity.
  - rewrite E. eexists. split; reflexivity.
Qed.

Example ex_C24_failed : exists r, computeCOMTraj true false never no_lp (st_pb DISTANCE_TRAVELED) [1; 1/2] (1/5) SOLVER_QUADPROG = Ok r /\ rc_success r = false.
Proof.
  destruct (C15_meaning_step (st_pb DISTANCE_TRAVELED) [1; 1/2] (1/5) (V3 0 0 (-981/100)) (st_wp _) ltac:(lra) (st_same _) ltac:(cbn; tauto)) as (ta & rows & Et & Er & _).
  rewrite (traj_step true false never no_lp (st_pb DISTANCE_TRAVELED) [1; 1/2] (st_wp _) (1/5) ta rows ltac:(lra) Et Er).
  destruct (cost_dist (st_pb DISTANCE_TRAVELED) [1; 1/2] ta eq_refl) as (H & gg & _ & -> & _). cbn [bind].
  destruct (never_solve rows (MX 3 []) [] H gg (repeat 0 3)) as (res & E & S). cbn [fst snd]. rewrite E. cbn [bind]. unfold genTraj. rewrite S.
  eexists. split; reflexivity.
Qed.
Example ex_C24_failed_fixed : exists r, computeCOMTrajFixedSize true false never no_lp (st_pb DISTANCE_TRAVELED) [1; 1/2] 4 = Ok r /\ rc_success r = false.
Proof.
  destruct (C15_meaning_fixed (st_pb DISTANCE_TRAVELED) [1; 1/2] 4 (V3 0 0 (-981/100)) (st_wp _) ltac:(lia) (st_same _) ltac:(cbn; tauto)) as (rows & Er & _).
  rewrite (traj_fixed true false never no_lp (st_pb DISTANCE_TRAVELED) [1; 1/2] (st_wp _) 4 rows Er).
  destruct (cost_dist (st_pb DISTANCE_TRAVELED) [1; 1/2] (computeDiscretizedTimeFixed [1; 1/2] 4) eq_refl) as (H & gg & _ & -> & _). cbn [bind].
  destruct (never_solve rows (MX 3 []) [] H gg (repeat 0 3)) as (res & E & S). cbn [fst snd]. rewrite E. cbn [bind]. unfold genTraj. rewrite S.
  eexists. split; reflexivity.
Qed.
Example ex_C24_failed_0step : exists r,
  solve0step false never no_lp (py_problem (py_ct up_ph py_K py_k) vzero (V3 1 0 0) py_L false) [1] 0 = Ok r /\ r0_success r = false.
Proof.
  assert (HV : py_valid up_ph 1 py_K py_k) by (apply py_ok; cbn; lia). assert (N : z_no_steps 1 0) by (left; lra).
  unfold solve0step. cbn [py_problem contacts get nth_error bind useAngularMomentum c0 dc0 ModelData.l0].
  rewrite (Proof0Step.z_built false (py_ct up_ph py_K py_k) up_ph vzero (V3 1 0 0) py_L 1 (proj1 (proj2 (proj2 (proj2 (py_posed up_ph vzero (V3 1 0 0) py_L false 1 py_K py_k HV))))) eq_refl Rlt_0_1 0 N).
  cbn [bind]. cbn. eexists. split; reflexivity.
Qed.
Example ex_C24_effector : forall mem glpk, exists r,
  solveEndEffector false (solve_quadprog mem) glpk (repeat 0) jk_pb jk_path 1 0 = Ok r.
Proof. intros mem glpk. destruct (ex_C67_optimal mem glpk) as (_ & _ & _ & _ & r & _ & _ & _ & _ & _ & E & _). exists r. exact E. Qed.
