(** The accessors of the python module for the end effector. *)
From Coq Require Import List Lia Lra.
From Verif Require Import Vec SpecBezier ModelData ModelDispatch ModelWaypointsJerk ModelCont ModelSolver ModelTraj ModelEff ModelPy ModelPyEff
  ModelUtils ModelRows ModelCom SpecCom SpecWp SpecCtr SpecTraj SpecEff SpecEnd3 ProofEff ProofEff4 ProofEff5 ProofEff6 ProofEff11 ProofEff13 ProofEff14 ProofEnd11 ProofEnd12 ProofEff7 ProofEff5 ProofEff5 ProofEff13.
Import ListNotations.
Open Scope R_scope.

Lemma fill (pi : list vec3) : forall done rest, length rest = length pi ->
  snd (fold_left (fun (s : nat * list vec3) p => (S (fst s), firstn (fst s) (snd s) ++ [p] ++ skipn (S (fst s)) (snd s))) pi (length done, done ++ rest)) = done ++ pi.
Proof.
  induction pi as [|p pi IH]; intros done rest L; [destruct rest; [reflexivity|discriminate L]|]. destruct rest as [|r rest]; [discriminate L|].
  cbn [fold_left fst snd]. rewrite firstn_app, firstn_all, Nat.sub_diag. cbn [firstn]. rewrite app_nil_r.
  replace (skipn (S (length done)) (done ++ r :: rest)) with rest.
  - specialize (IH (done ++ [p]) rest (f_equal pred L)). rewrite app_length in IH. cbn [length] in IH. rewrite Nat.add_1_r in IH.
    rewrite <- app_assoc in IH. cbn [app] in IH |- *. rewrite IH, <- app_assoc. reflexivity.
  - rewrite skipn_app, skipn_all2 by lia. replace (S (length done) - length done)%nat with 1%nat by lia. reflexivity.
Qed.

Section Eff.
Variable pData : problem.
Variable T : R.
Hypothesis Hin : In (flag_of pData) effector_flags.
Hypothesis HT : 0 < T.
Let nf := eff_free (flag_of pData).

Lemma c85_waypoints : exists pi, py_constantWaypoints pData T = Ok pi /\
  forall xs, length xs = nf -> exists cv, eff_curve pData T xs = Ok cv /\ bc_T cv = T /\ length (bc_pts cv) = length pi /\
    bc_pts cv = firstn 4 pi ++ xs ++ skipn (4 + nf) pi.
Proof.
  destruct (eff_shape_total pData T _ Hin (repeat_length vzero _)) as (pi & pts0 & Hc & Hs0). exists pi. split.
  - unfold py_constantWaypoints. rewrite Hc. cbn [bind]. f_equal. apply (fill pi [] (repeat vzero (length pi)) (repeat_length _ _)).
  - intros xs Lx. destruct (eff_curve_ok pData T xs Hin Lx HT) as (pi' & pts & Hc' & Hs & He). rewrite Hc in Hc'. injection Hc' as <-.
    exists (BCurve pts T). split; [exact He|]. split; [reflexivity|]. unfold nf. cbn [bc_pts].
    inversion Hs as [? ? ? ? ? ? ? ? ? ? ? E Hcc Hp|? ? ? ? ? ? ? ? ? ? ? ? ? ? ? E Hcc Hp|? ? ? ? ? ? ? ? ? ? ? ? ? ? E Hcc Hp]; subst; rewrite E; split; reflexivity.
Qed.

Lemma vel_data : exists pi H g, computeConstantWaypoints pData T = Ok pi /\ computeVelocityCost pData T pi = Ok (H, g) /\
  square (3 * nf) (blocks_matx H) /\ length (concat (map l3 g)) = (3 * nf)%nat.
Proof.
  destruct (eff_shape_total pData T _ Hin (repeat_length vzero _)) as (pi & pts0 & Hc & Hs0).
  destruct (velcost_form _ _ _ _ _ HT Hs0) as (H & g & N & HE & _ & A & B & C & _). rewrite repeat_length in *.
  exists pi, H, g. split; [exact Hc|]. split; [exact HE|]. split; [apply blocks_square; assumption|].
  unfold nf. rewrite <- C. clear. induction g as [|a l IH]; [reflexivity|]. cbn [map concat]. rewrite app_length, IH. cbn [length l3]. lia.
Qed.

Lemma vecx_id : forall (v : list R) n, length v = n -> vecx_add (vecx_scal (1 - 0) v) (vecx_scal 0 (repeat 0 n)) = v.
Proof.
  unfold vecx_add, vecx_scal. induction v as [|a v IH]; intros n L; [reflexivity|]. destruct n as [|n]; [discriminate L|]. cbn [map repeat map2].
  f_equal; [ring|]. apply IH. injection L as L. exact L.
Qed.
Lemma matx_id : forall (A : list (list R)) n m, length A = m -> Forall (fun r => length r = n) A ->
  matx_add (matx_scal (1 - 0) A) (matx_scal 0 (repeat (repeat 0 n) m)) = A.
Proof.
  unfold matx_add, matx_scal. induction A as [|a A IH]; intros n m L F; [reflexivity|]. destruct m as [|m]; [discriminate L|]. inversion F; subst. cbn [map repeat map2].
  f_equal; [apply vecx_id; reflexivity|]. apply IH; [injection L as L; exact L|assumption].
Qed.

Lemma c85_problem : exists A b H g, py_effConstraints pData T = Ok (A, b) /\ py_velocityCost pData T = Ok (H, g) /\
  Forall (fun r => length r = (3 * nf)%nat) A /\ length b = length A /\
  length H = (3 * nf)%nat /\ Forall (fun r => length r = (3 * nf)%nat) H /\ length g = (3 * nf)%nat /\
  forall with_glpk glpk init quadprog quadprog',
    (forall x0, quadprog (QP H g [] [] (map (map Ropp) A) b) x0 = quadprog' (QP H g [] [] (map (map Ropp) A) b) x0) ->
    py_computeEndEffector with_glpk quadprog glpk init pData T = py_computeEndEffector with_glpk quadprog' glpk init pData T.
Proof.
  destruct (eff_constraints_total pData T Hin HT) as (pi & M & Hc & HM & HL). rewrite (dim_nf pData Hin) in HL.
  destruct vel_data as (pi' & H & g & Hc' & HE & [SL SF] & Lg). rewrite Hc in Hc'. injection Hc' as <-.
  exists (map fst M), (map snd M), (blocks_matx H), (concat (map l3 g)).
  split; [unfold py_effConstraints; rewrite Hc; cbn [bind]; rewrite HM; reflexivity|].
  split; [unfold py_velocityCost; rewrite Hc; cbn [bind]; rewrite HE; reflexivity|].
  split; [rewrite Forall_map; exact HL|]. split; [rewrite !map_length; reflexivity|]. split; [exact SL|]. split; [exact SF|]. split; [exact Lg|].
  intros wg glpk init q q' Hq. unfold py_computeEndEffector, solveEndEffector. rewrite Hc. cbn [bind]. rewrite HM. cbn [bind].
  unfold computeEndEffectorCost. destruct (Rlt_dec 0 0) as [K|_]; [lra|]. cbn [bind]. rewrite HE. cbn [bind fst snd]. rewrite (dim_nf pData Hin). fold nf.
  unfold matx_zero. rewrite (matx_id _ _ _ SL SF), (vecx_id _ _ Lg).
  unfold solve_noeq, solve. change (Z.eqb SOLVER_QUADPROG SOLVER_QUADPROG) with true. cbv iota.
  assert (EC : addBoundaryConstraintsQuadProg [] [] (MX (3 * nf) (map fst M)) (map snd M) = Ok (MX (3 * nf) (map fst M), map snd M)) by reflexivity.
  rewrite EC. cbn [bind fst snd mx_rows map].
  rewrite Hq. reflexivity.
Qed.

Lemma c85_meaning : exists A b, py_effConstraints pData T = Ok (A, b) /\
  forall xs, length xs = nf -> satX (combine A b) (flat xs) -> exists cv, eff_curve pData T xs = Ok cv /\
    (T <= 1000000 -> boundary_within 10000 pData T -> forall t, 0 <= t <= T ->
       exists v j, is_deriv_n 1 (cv_fun cv) t v /\ within 10000 v /\ is_deriv_n 3 (cv_fun cv) t j /\ within 10000 j) /\
    (boundary_above (Rmin (vz (c0 pData)) (vz (c1 pData))) pData T -> forall t, 0 <= t <= T ->
       Rmin (vz (c0 pData)) (vz (c1 pData)) <= vz (cv_fun cv t)).
Proof.
  destruct (eff_constraints_total pData T Hin HT) as (pi & M & Hc & HM & HL).
  exists (map fst M), (map snd M). split; [unfold py_effConstraints; rewrite Hc; cbn [bind]; rewrite HM; reflexivity|].
  assert (EC : combine (map fst M) (map snd M) = M) by (clear; induction M as [|[a b] M IH]; [reflexivity|cbn; rewrite IH; reflexivity]).
  rewrite EC. intros xs Lx S. destruct (eff_curve_ok pData T xs Hin Lx HT) as (pi' & pts & _ & _ & He). exists (BCurve pts T). split; [exact He|]. split.
  - intros T6 B. destruct (c34_bounds pData T xs pi M Hin Lx HT T6 B Hc HM S) as (cv & Ec & K). rewrite He in Ec. injection Ec as <-. exact K.
  - intros B. destruct (c34_floor pData T xs pi M Hin Lx HT B Hc HM S) as (cv & Ec & K). rewrite He in Ec. injection Ec as <-. exact K.
Qed.

Lemma c85_cost : exists H g N K, py_velocityCost pData T = Ok (H, g) /\ 0 < N /\
  (forall i j, nth j (nth i H []) 0 = nth i (nth j H []) 0) /\
  forall xs M, length xs = nf -> exists cv, eff_curve pData T xs = Ok cv /\
    (Forall (within M) (bc_pts cv) -> exists i, speed_integral cv T i /\
       Rabs (N * (quad H (flat xs) + 2 * rdot g (flat xs)) + K - (2 * eff_degree (flag_of pData) - 1) * i) <= 3 * velocity_eps (flag_of pData) * (M * M) / T).
Proof.
  destruct (c36_velocity pData T Hin HT) as (pi & H & g & N & K & Hc & HE & HN & HS & HV).
  exists (blocks_matx H), (concat (map l3 g)), N, K. split; [unfold py_velocityCost; rewrite Hc; cbn [bind]; rewrite HE; reflexivity|].
  split; [exact HN|]. split; [exact HS|]. exact HV.
Qed.
End Eff.
