(** Concrete inputs for the theorems of PropertiesPy.v and PropertiesPy2.v. *)
From Coq Require Import List Lia Lra Psatz.
From Verif Require Import Vec SpecBezier ModelData ModelDispatch ModelUtils ModelRows ModelCom ModelCont ModelSolver ModelTraj Model0Step ModelEff ModelQp ModelPy
  SpecCom SpecWp SpecCtr SpecSolver SpecTraj Spec0Step SpecEff SpecEnd SpecEnd3 SpecEnd4 SpecPy SpecPy2 ProofCurve Proof0Step3 ProofEnd ProofPy Examples0Step
  ExamplesTraj ExamplesEnd ExamplesEnd3 ExamplesEnd4 PropertiesPy PropertiesPy2 SpecQp.
Import ListNotations.
Open Scope R_scope.

(** C68: the phase up_ph (the contact force must point upwards), a velocity, an angular
    momentum, two kinematic rows. *)
Definition py_K : list vec3 := [V3 1 0 0; V3 0 1 0].
Definition py_k : list R := [1; 1].
Lemma py_ok K k : (length k <= length K)%nat -> py_valid up_ph 1 K k.
Proof.
  intros L. split; [lra|]. split; [cbn; lra|]. split; [|exact L]. apply Forall_cons; [|apply Forall_nil]. cbn. intros H. injection H. lra.
Qed.
Lemma py_sc useAng : py_on_scale up_ph vzero (V3 1 0 0) useAng 1 py_K 1 1.
Proof.
  refine (up_scale useAng py_K py_k [] [] (V3 1 0 0) vzero _ _); [|unfold vnorm2, vdot; cbn; lra].
  intros K [<-|[<-|[]]]; apply vnorm_bound; unfold vnorm2, vdot; cbn; lra.
Qed.
Definition py_L : vec3 := V3 0 0 1.
Lemma py_rows_ok (useAng : bool) : rows_near 0 py_K py_k (if useAng then vadd vzero (vscal (3 / 4) py_L) else vzero).
Proof.
  intros i a b Ha Hb. destruct i as [|[|i]]; cbn in Ha, Hb; [| |destruct i; discriminate]; injection Ha as <-; injection Hb as <-;
    destruct useAng; unfold vdot; cbn; lra.
Qed.
Lemma py_back mem glpk useAng dt : z_no_steps 1 dt \/ (exists N, z_steps 1 dt N) ->
  exists r, py_zeroStepKin false (solve_quadprog mem) glpk (Some up_ph) vzero (V3 1 0 0) py_L useAng 1 dt (kin_matrix py_K) (kin_vector py_k) = Ok r /\
    r0_success r = true /\ py_x (r0_x r) = Ok (z_vec useAng vzero (vscal (3 / 4) py_L)) /\ captured r vzero (V3 1 0 0) 1 vzero.
Proof.
  intros HN. destruct (C68_return false mem glpk up_ph vzero (V3 1 0 0) py_L useAng 1 dt py_K py_k) as (r & E & S & X & C & _).
  - apply py_ok. cbn. lia.
  - exact HN.
  - intros _. apply (up_ctrl useAng 1 0 0 0).
  - intros N _ _ i _. apply (up_stable useAng 1 0 0 0).
  - apply py_rows_ok.
  - exists r. repeat split; try assumption; apply C.
Qed.
Example ex_C68_return : forall mem glpk, exists r,
  py_zeroStepKin false (solve_quadprog mem) glpk (Some up_ph) vzero (V3 1 0 0) py_L false 1 (1 / 4) (kin_matrix py_K) (kin_vector py_k) = Ok r /\
  r0_success r = true /\ py_x (r0_x r) = Ok [0; 0; 0].
Proof.
  intros mem glpk. destruct (py_back mem glpk false (1 / 4) (or_intror (ex_intro _ 4%nat steps4))) as (r & E & S & X & _).
  exists r. split; [exact E|]. split; [exact S|exact X].
Qed.
Example ex_C68_continuous : forall mem glpk, exists r,
  py_zeroStepKin false (solve_quadprog mem) glpk (Some up_ph) vzero (V3 1 0 0) py_L true 1 0 (kin_matrix py_K) (kin_vector py_k) = Ok r /\
  r0_success r = true /\ (forall t, 0 <= t <= 1 -> wrench_near (z_tol true 7) up_ph r t) /\ z_tol true 7 <= 1 / 100000000.
Proof.
  intros mem glpk. assert (N : z_no_steps 1 0) by (left; lra). destruct (py_back mem glpk true 0 (or_introl N)) as (r & E & S & _).
  assert (HV : py_valid up_ph 1 py_K py_k) by (apply py_ok; cbn; lia).
  destruct (C68_continuous false mem glpk up_ph vzero (V3 1 0 0) py_L true 1 0 py_K py_k 1 1 HV N (py_sc true)) as (r' & E' & HS).
  rewrite E in E'. injection E' as <-. destruct (HS S) as (x & xL & _ & _ & HW & _). exists r. split; [exact E|]. split; [exact S|]. split; [exact HW|].
  unfold z_tol. pose proof eps_micro. cbn. lra.
Qed.
Example ex_C68_samples : forall mem glpk, exists r,
  py_zeroStepKin false (solve_quadprog mem) glpk (Some up_ph) vzero (V3 1 0 0) py_L true 1 (1 / 4) (kin_matrix py_K) (kin_vector py_k) = Ok r /\
  r0_success r = true /\ (forall i, (i <= 4)%nat -> wrench_near (z_tol true 7) up_ph r (INR i * (1 / INR 4))).
Proof.
  intros mem glpk. destruct (py_back mem glpk true (1 / 4) (or_intror (ex_intro _ 4%nat steps4))) as (r & E & S & _).
  assert (HV : py_valid up_ph 1 py_K py_k) by (apply py_ok; cbn; lia).
  destruct (C68_samples false mem glpk up_ph vzero (V3 1 0 0) py_L true 1 (1 / 4) 4 py_K py_k 1 1 HV steps4 ltac:(lia) (py_sc true)) as (r' & E' & HS).
  rewrite E in E'. injection E' as <-. destruct (HS S) as (x & xL & _ & _ & HW & _). exists r. split; [exact E|]. split; [exact S|exact HW].
Qed.
(** C68_plain: both sides of the equality succeed *)
Example ex_C68_plain : forall mem glpk, exists r, py_zeroStep false (solve_quadprog mem) glpk (Some up_ph) vzero (V3 1 0 0) py_L false 1 0 = Ok r /\
  r0_success r = true.
Proof.
  intros mem glpk. assert (N : z_no_steps 1 0) by (left; lra). rewrite C68_plain.
  destruct (C68_return false mem glpk up_ph vzero (V3 1 0 0) py_L false 1 0 [] []) as (r & E & S & _).
  - apply py_ok. cbn. lia.
  - left. exact N.
  - intros _. apply (up_ctrl false 1 0 0 0).
  - intros M _ _ i _. apply (up_stable false 1 0 0 0).
  - intros [|i] a b Ha; discriminate.
  - exists r. split; assumption.
Qed.
(** C68_short, C68_shape *)
Example ex_C68_short : forall quadprog glpk,
  py_zeroStepKin false quadprog glpk (Some up_ph) vzero (V3 1 0 0) py_L true 1 0 (kin_matrix py_K) (kin_vector [1; 1; 1]) = UB.
Proof.
  intros quadprog glpk. apply C68_short; [apply py_ok; cbn; lia|left; left; lra|cbn; lia].
Qed.
Example ex_C68_shape : forall quadprog glpk,
  py_zeroStepKin false quadprog glpk (Some up_ph) vzero (V3 1 0 0) py_L true 1 0 (MX 2 [[1; 0]]) (kin_vector [1]) = UB.
Proof. intros quadprog glpk. apply C68_shape. cbn. lia. Qed.

(** C69: a result with success and one without *)
Example ex_C69_zero_step : forall mem glpk, (exists r,
  py_zeroStepKin false (solve_quadprog mem) glpk (Some up_ph) vzero (V3 1 0 0) py_L false 1 0 (kin_matrix py_K) (kin_vector py_k) = Ok r /\ py_x (r0_x r) = Ok (r0_x r)) /\
  (exists r, py_zeroStepKin false (fun _ _ => Ok (2%Z, [], 0)) glpk (Some up_ph) vzero (V3 1 0 0) py_L false 1 0 (kin_matrix py_K) (kin_vector py_k) = Ok r /\ py_x (r0_x r) = Throw).
Proof.
  intros mem glpk. assert (N : z_no_steps 1 0) by (left; lra). split.
  - destruct (py_back mem glpk false 0 (or_introl N)) as (r & E & S & _). exists r. split; [exact E|].
    pose proof (C69_zero_step _ _ _ _ _ _ _ _ _ _ _ _ r (or_intror E)) as H. rewrite S in H. exact H.
  - assert (HV : py_valid up_ph 1 py_K py_k) by (apply py_ok; cbn; lia).
    assert (E : exists r, py_zeroStepKin false (fun _ _ => Ok (2%Z, [], 0)) glpk (Some up_ph) vzero (V3 1 0 0) py_L false 1 0 (kin_matrix py_K) (kin_vector py_k) = Ok r /\ r0_success r = false).
    { rewrite py_kin_eq. unfold solve0step. cbn [py_problem contacts get nth_error bind useAngularMomentum c0 dc0 ModelData.l0].
      pose proof (Proof0Step.z_built false (py_ct up_ph py_K py_k) up_ph vzero (V3 1 0 0) py_L 1 (proj1 (proj2 (proj2 (proj2 (py_posed up_ph vzero (V3 1 0 0) py_L false 1 py_K py_k HV))))) eq_refl Rlt_0_1 0 N) as EB.
      rewrite EB. cbn [bind]. cbn. eexists. split; reflexivity. }
    destruct E as (r & E & S). exists r. split; [exact E|].
    pose proof (C69_zero_step _ _ _ _ _ _ _ _ _ _ _ _ r (or_intror E)) as H. rewrite S in H. apply H.
Qed.

Example ex_C69_com : exists r, py_computeCOMTraj false (guess (l3 st_x)) no_lp true (st_pb ACCELERATION) [1; 1/2] (1/5) None = Ok r /\
  rc_success r = true /\ py_x (rc_x r) = Ok (rc_x r).
Proof.
  destruct ex_C16 as (_ & _ & _ & _ & _ & (r & E & S) & _). exists r. split; [exact E|]. split; [exact S|].
  pose proof (C69_com false (guess (l3 st_x)) no_lp true (st_pb ACCELERATION) [1; 1/2] (1/5) None r E) as H. rewrite S in H. exact H.
Qed.

(** C70: p = ProblemData(); c = p.constraints_; q = Constraints(); p.constraints_ = q; c.flag_ = 5 *)
Definition run5 : list pystmt := [MkProblem 0; Ref 1 0; MkConstraints 2; Put 0 2; SetAttr 1 (Flag 5)].
Example ex_C70_live : exists s, pyrun 3 py0 run5 = Ok s /\ value 3 s 0 = Some (set_field (Flag 5) default_constraints) /\
  value 3 s 1 = value 3 s 0 /\ value 3 s 2 = Some default_constraints /\ same_cell s 0 1 /\ ~ same_cell s 0 2.
Proof.
  eexists. split; [reflexivity|]. split; [reflexivity|]. split; [reflexivity|]. split; [reflexivity|]. split.
  - exists 0%nat. split; reflexivity.
  - intros (c & A & B). cbn in A, B. congruence.
Qed.
Lemma reach1 : exists s, reachable 3 s /\ is_problem s 0 /\ is_constraints s 1 /\ same_cell s 1 0 /\ is_constraints s 2 /\ ~ same_cell s 2 0.
Proof.
  eexists. split; [exists [MkProblem 0; Ref 1 0; MkConstraints 2]; split; [repeat (apply Forall_cons; [cbn; lia|]); apply Forall_nil|reflexivity]|].
  repeat split.
  - repeat eexists.
  - right. repeat eexists.
  - exists 0%nat. split; reflexivity.
  - left. repeat eexists.
  - intros (c & A & B). cbn in A, B. congruence.
Qed.
(** hypotheses of C70_write *)
Example ex_C70_write : exists s s', reachable 3 s /\ pystep 3 s (SetVia 0 (MaxAcc 3)) = Ok (s', Done) /\
  value 3 s' 1 = Some (set_field (MaxAcc 3) default_constraints) /\ value 3 s' 2 = Some default_constraints.
Proof.
  eexists. eexists. split; [exists [MkProblem 0; Ref 1 0; MkConstraints 2]; split; [repeat (apply Forall_cons; [cbn; lia|]); apply Forall_nil|reflexivity]|].
  repeat split.
Qed.
(** C70_made *)
Example ex_C70_made : exists s s', reachable 3 s /\ is_problem s 0 /\ pystep 3 s (Ref 2 0) = Ok (s', Done) /\ same_cell s' 2 0.
Proof.
  eexists. eexists. split; [exists [MkProblem 0]; split; [repeat (apply Forall_cons; [cbn; lia|]); apply Forall_nil|reflexivity]|].
  split; [repeat eexists|]. split; [reflexivity|]. exists 0%nat. split; reflexivity.
Qed.
(** C70_names: after del p, the reference of p dangles and another object is untouched;
    C70_undefined: using it is undefined *)
Example ex_C70_names : exists s s', reachable 3 s /\ pystep 3 s (Forget 0) = Ok (s', Done) /\ dangling s' 1 /\ ~ dangling s 1 /\
  value 3 s' 2 = value 3 s 2 /\ pystep 3 s' (Put 0 1) = Ok (s', Error) /\ pystep 3 s' (SetAttr 1 (Flag 0)) = UB.
Proof.
  eexists. eexists. split; [exists [MkProblem 0; Ref 1 0; MkProblem 2]; split; [repeat (apply Forall_cons; [cbn; lia|]); apply Forall_nil|reflexivity]|].
  split; [reflexivity|]. split; [|split; [|repeat split]].
  - exists 1%nat, 0%nat. split; [reflexivity|]. intros [|[|[|x]]]; cbn; discriminate.
  - intros (v & p & E & F). cbn in E. injection E as <- <-. apply (F 0%nat). reflexivity.
Qed.
(** C70_private: another problem and its reference do not matter *)
Example ex_C70_private : exists s, pyrun 3 py0 [MkProblem 0; MkProblem 1; Ref 2 1; SetVia 0 (Flag 9); SetAttr 2 (Flag 3); SetVia 0 (ReduceH 2); Put 1 2] = Ok s /\
  value 3 s 0 = Some (set_field (ReduceH 2) (set_field (Flag 9) default_constraints)).
Proof.
  eexists. split; [reflexivity|]. apply (C70_private 3 py0 0 [MkProblem 1; Ref 2 1; SetVia 0 (Flag 9); SetAttr 2 (Flag 3); SetVia 0 (ReduceH 2); Put 1 2]).
  - exists []. split; [apply Forall_nil|reflexivity].
  - lia.
  - repeat (apply Forall_cons; [cbn; lia|]). apply Forall_nil.
  - reflexivity.
Qed.
(** C70_no_ref, C70_once: programs with four and five statements *)
Example ex_C70_no_ref : exists s, pyrun 2 py0 [MkProblem 0; MkConstraints 1; Put 0 1; Forget 0] = Ok s.
Proof. apply C70_no_ref; repeat (apply Forall_cons; [cbn; try lia; tauto|]); apply Forall_nil. Qed.
Example ex_C70_once : exists s, pyrun 3 py0 run5 = Ok s.
Proof.
  apply C70_once.
  - repeat (apply Forall_cons; [cbn; lia|]). apply Forall_nil.
  - cbn. repeat constructor; cbn; lia.
  - repeat (apply Forall_cons; [cbn; tauto|]). apply Forall_nil.
Qed.

(** C71: the jerk problem of ExamplesEnd4.v *)
Lemma jk_short : shortest (flag_of jk_pb) <= 1.
Proof. unfold shortest. replace (Z.eqb (flag_of jk_pb) F_jerk) with true by reflexivity. lra. Qed.
Example ex_C71_best : forall mem glpk, exists r, py_computeEndEffector false (solve_quadprog mem) glpk (repeat 0) jk_pb 1 = Ok r /\ rc_success r = true /\
  rc_x r = [jk_c; 0; 0] /\ rc_cost r = -1 /\ meets_all jk_pb 1 (cv_fun (rc_c r)).
Proof.
  intros mem glpk. destruct (C71_best false mem glpk (repeat 0) jk_pb 1 (fun n => repeat_length 0 n) jk_in Rlt_0_1) as (pi & M & H & g & Hc & HM & HE & HB).
  destruct jk_sat as (pi' & M' & Hc' & HM' & HS). rewrite Hc in Hc'. injection Hc' as <-. rewrite HM in HM'. injection HM' as <-.
  destruct (HB jk_xs eq_refl (jk_best pi H g Hc HE) HS) as (r & E & S & X & _). exists r. split; [exact E|]. split; [exact S|]. split; [exact X|].
  pose proof (C69_effector _ _ _ _ _ _ r E) as HC. rewrite S in HC. split; [apply HC|].
  assert (HT : shortest (flag_of jk_pb) <= 1 <= 1000000) by (split; [exact jk_short|lra]).
  destruct (C71_plan false mem glpk (repeat 0) jk_pb 1 (fun n => repeat_length 0 n) jk_in HT) as (r' & E' & HP).
  rewrite E in E'. injection E' as <-. destruct (HP S) as (xs & _ & _ & _ & _ & HMt & _). exact HMt.
Qed.
Example ex_C71_optimal : forall mem glpk, exists r, py_computeEndEffector false (solve_quadprog mem) glpk (repeat 0) jk_pb 1 = Ok r /\
  exists pi M H g, computeConstantWaypoints jk_pb 1 = Ok pi /\ computeEndEffectorConstraints jk_pb 1 pi = Ok M /\
  computeEndEffectorCost jk_pb (fun _ => Ok vzero) 1 0 pi = Ok (H, g) /\ well_scaled (eqp_of (ineq_qp H g M)) /\ satX M (flat jk_xs).
Proof.
  intros mem glpk. destruct (ex_C67_optimal mem glpk) as (pi & M & H & g & r & A & B & C & D & F & G & _).
  exists r. split; [exact G|]. exists pi, M, H, g. repeat (split; [assumption|]). assumption.
Qed.
Example ex_C71_distance : (exists Hg, py_distanceCost jk_pb 1 3 [vzero; V3 1 0 0; V3 2 0 0; V3 3 0 0] = Ok Hg) /\
  py_distanceCost jk_pb 1 5 [vzero; V3 1 0 0; V3 2 0 0; V3 3 0 0] = UB /\ py_distanceCost jk_pb 1 (-1) [vzero] = UB.
Proof.
  split; [|split].
  - apply (C71_distance jk_pb 1 3 _ jk_in Rlt_0_1). cbn. lia.
  - apply (C71_distance jk_pb 1 5 _ jk_in Rlt_0_1). cbn. lia.
  - apply (C71_distance jk_pb 1 (-1) _ jk_in Rlt_0_1). cbn. lia.
Qed.
