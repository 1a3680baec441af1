(** Concrete inputs for the theorems of PropertiesAnySolver.v. *)
From Verif Require Import Vec SpecBezier SpecTime ModelData ModelDispatch ModelUtils ModelRows ModelCom ModelCont ModelSolver ModelTraj ModelNd Model0Step ModelEff
  SpecCom SpecWp SpecSolver SpecTraj SpecEff ProofTime ProofTraj2 PropertiesCom PropertiesAnySolver ExamplesCom ExamplesTraj Proof0Step3 Examples0Step ProofEff2 ExamplesEff.
Open Scope R_scope.

(** A back end that always answers (7,7,7). *)
Definition wild (q : qp) (init : list R) : outcome (Z * list R * R) := Ok (EIQUADPROG_FAST_OPTIMAL, [7; 7; 7], 0).

(** With it the plan for standing still goes elsewhere, but starts and ends as asked. *)
Example ex_C112 : exists r, computeCOMTrajFixedSize true false wild no_lp (st_pb DISTANCE_TRAVELED) [1; 1/2] 4 = Ok r /\ rc_success r = true /\ rc_x r = [7; 7; 7] /\
  cv_fun (rc_c r) 0 = V3 0 0 (4/5) /\ cv_fun (rc_c r) (total [1; 1/2]) = V3 0 0 (4/5) /\ is_deriv_n 1 (cv_fun (rc_c r)) (total [1; 1/2]) (rc_dc1 r).
Proof.
  assert (E : exists r, computeCOMTrajFixedSize true false wild no_lp (st_pb DISTANCE_TRAVELED) [1; 1/2] 4 = Ok r /\ rc_success r = true /\ rc_x r = [7; 7; 7]).
  { destruct (C14_rows_fixed (st_pb DISTANCE_TRAVELED) [1; 1/2] 4 (st_wp _) ltac:(lia)) as (n & rows & _ & _ & _ & Er).
    unfold computeCOMTrajFixedSize. cbn [length contacts st_pb Nat.eqb negb]. fold (st_pb DISTANCE_TRAVELED). rewrite total_sumR, Er. cbn [bind].
    match goal with |- context [genCostFunction ?a ?b ?c ?d ?e] => assert (G : exists Hg, genCostFunction a b c d e = Ok Hg) by (eexists; reflexivity) end.
    destruct G as (Hg & ->). cbn [bind]. unfold solve_noeq, solve. rewrite Z.eqb_refl. unfold addBoundaryConstraintsQuadProg. cbn -[genTraj total].
    destruct (genTraj_ok true (ResultData true 0 [7; 7; 7]) (st_pb DISTANCE_TRAVELED) [1; 1/2] (V3 7 7 7) [] (st_wp _) eq_refl eq_refl) as (r & Hr & Hs & _ & Hx & _).
    exists r. split; [exact Hr|]. split; [exact Hs|exact Hx]. }
  destruct E as (r & E & S & X). exists r. split; [exact E|]. split; [exact S|]. split; [exact X|].
  destruct (C112_any_solver true false wild no_lp (st_pb DISTANCE_TRAVELED) [1; 1/2] r (or_intror (ex_intro _ 4%nat E)) S) as (_ & _ & _ & D & _ & B).
  destruct B as (B1 & _ & _ & B2 & _); [discriminate|]. split; [exact (B1 eq_refl)|]. split; [exact (B2 eq_refl)|exact D].
Qed.

(** solve0step with the same back end: the reported curve stops at (7,7,7). *)
Example ex_C112_zero : exists r, solve0step false wild no_lp z_pb [1] 0 = Ok r /\ r0_success r = true /\
  cv_fun (r0_c r) 0 = c0 z_pb /\ cv_fun (r0_c r) 1 = V3 7 7 7 /\ is_deriv_n 1 (cv_fun (r0_c r)) 1 vzero.
Proof.
  assert (E : exists r, solve0step false wild no_lp z_pb [1] 0 = Ok r /\ r0_success r = true /\ r0_x r = [7; 7; 7]).
  { destruct ex_C25_C27 as (r & _ & _ & E & _). unfold solve0step in *. cbn [get nth_error contacts z_pb up_pb bind] in *.
    destruct (compute6dControlPointInequalities _ _ _ _ _ _ _) as [Ab| |]; cbn [bind] in *; try discriminate E.
    destruct (z_cost _ _ _) as [Hg| |]; cbn [bind] in *; try discriminate E. clear E.
    unfold solve_noeq, solve. rewrite Z.eqb_refl. cbn. unfold mk_bezier, nd_make. destruct (Rle_dec 1 0); [lra|]. cbn.
    eexists. split; [reflexivity|]. split; reflexivity. }
  destruct E as (r & E & S & X). exists r. split; [exact E|]. split; [exact S|].
  destruct (C112_zero_step _ _ _ _ _ _ _ E S) as (T & Ts' & [a b c] & rest & ET & _ & EX & _ & B0 & _ & B1 & B2).
  injection ET as <- <-. rewrite X in EX. injection EX as <- <- <- _. auto.
Qed.

(** solveEndEffector with a back end that answers 7 for every variable. *)
Definition wild9 (q : qp) (init : list R) : outcome (Z * list R * R) := Ok (EIQUADPROG_FAST_OPTIMAL, repeat 7 9, 0).
Example ex_C112_effector : exists r, solveEndEffector false wild9 no_lp (repeat 0) x3_pb st3_path 1 (1 / 2) = Ok r /\ rc_success r = true /\
  cv_fun (rc_c r) 0 = c0 x3_pb /\ cv_fun (rc_c r) 1 = c1 x3_pb /\ firstn 3 (skipn 4 (bc_pts (rc_c r))) = [V3 7 7 7; V3 7 7 7; V3 7 7 7].
Proof.
  assert (E : exists r, solveEndEffector false wild9 no_lp (repeat 0) x3_pb st3_path 1 (1 / 2) = Ok r /\ rc_success r = true /\ rc_x r = repeat 7 9).
  { destruct ex_C29 as (r & E & _). unfold solveEndEffector in *.
    destruct (computeConstantWaypoints x3_pb 1) as [pi| |]; cbn [bind] in *; try discriminate E.
    destruct (computeEndEffectorConstraints _ _ _) as [M| |]; cbn [bind] in *; try discriminate E.
    destruct (computeEndEffectorCost _ _ _ _ _) as [Hg| |]; cbn [bind] in *; try discriminate E. clear E.
    unfold solve_noeq, solve. rewrite Z.eqb_refl. cbn -[computeC_of_T].
    destruct (PropertiesEff.C29_boundary x3_pb 1 [V3 7 7 7; V3 7 7 7; V3 7 7 7] st3_in eq_refl ltac:(lra)) as (cv & Ec & _).
    unfold eff_curve in Ec. cbn [flat map concat app ModelCont.l3 vx vy vz] in Ec.
    match goal with |- context [computeC_of_T _ _ ?x] => change (computeC_of_T x3_pb 1 x = Ok cv) in Ec end.
    rewrite Ec. cbn [bind]. eexists. split; [reflexivity|]. split; reflexivity. }
  destruct E as (r & E & S & X). exists r. split; [exact E|]. split; [exact S|].
  destruct (C112_effector _ _ _ _ _ _ _ _ _ E S) as (_ & _ & _ & (B0 & _ & _ & _ & B1 & _) & xs & rest & L & EX & F).
  split; [exact B0|]. split; [exact B1|]. rewrite X in EX. cbn in L.
  destruct xs as [|[a b c] [|[a' b' c'] [|[a2 b2 c2] [|]]]]; try discriminate L. cbn in EX. injection EX as <- <- <- <- <- <- <- <- <- _. exact F.
Qed.
