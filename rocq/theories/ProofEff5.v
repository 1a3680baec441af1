(** End-effector plans. *)
From Verif Require Import Vec SpecBezier ModelData ModelUtils ModelRows ModelWaypointsJerk ModelDispatch ModelCont ModelSolver ModelTraj ModelEff
  SpecCom SpecWp SpecSolver SpecTraj SpecEff ProofBezier ProofCurve ProofNd ProofWaypoints ProofWaypoints2 ProofSolver ProofTraj2
  ProofEff ProofEff3 ProofEff4.
Open Scope R_scope.

Lemma bezl_ge P s b : P <> [] -> 0 <= s <= 1 -> Forall (fun a => b <= a) P -> b <= bezl P s.
Proof.
  intros Hne Hs HF. unfold bezl. apply bez_ge; [exact Hs|]. intros i Hi. rewrite Forall_forall in HF. apply HF, nth_In.
  destruct P; [congruence|cbn in *; lia].
Qed.
Lemma time_range t T : 0 < T -> 0 <= t <= T -> 0 <= t / T <= 1.
Proof.
  intros HT Ht. split; [apply Rmult_le_pos; [lra|left; apply Rinv_0_lt_compat; exact HT]|].
  apply (Rmult_le_reg_r T); [exact HT|]. unfold Rdiv. rewrite Rmult_assoc, Rinv_l by lra. lra.
Qed.
Lemma curve_within B P T t : P <> [] -> 0 < T -> 0 <= t <= T -> Forall (within B) P -> within B (curve P T t).
Proof.
  intros Hne HT Ht HF. pose proof (time_range t T HT Ht) as Hs. unfold curve.
  assert (HG : forall f : vec3 -> R, (forall p, In p P -> Rabs (f p) <= B) -> Rabs (bezl (map f P) (t / T)) <= B).
  { intros f Hf. assert (map f P <> []) by (destruct P; [congruence|discriminate]). apply Rabs_le. split.
    - apply bezl_ge; try assumption. rewrite Forall_map, Forall_forall. intros p Hp. specialize (Hf p Hp).
      revert Hf. unfold Rabs. destruct (Rcase_abs _); lra.
    - apply bezl_le; try assumption. rewrite Forall_map, Forall_forall. intros p Hp. specialize (Hf p Hp).
      revert Hf. unfold Rabs. destruct (Rcase_abs _); lra. }
  rewrite Forall_forall in HF.
  split; [|split]; cbn [bez3 vx vy vz]; apply HG; intros p Hp; apply HF; exact Hp.
Qed.
Lemma curve_above m P T t : P <> [] -> 0 < T -> 0 <= t <= T -> Forall (fun p => m <= vz p) P -> m <= vz (curve P T t).
Proof.
  intros Hne HT Ht HF. pose proof (time_range t T HT Ht) as Hs. unfold curve, bez3. cbn [vz].
  apply bezl_ge; [destruct P; [congruence|discriminate]|exact Hs|]. rewrite Forall_map. exact HF.
Qed.

Lemma le3_within v : le3 (vopp eff_bounds) v /\ le3 v eff_bounds -> within 10000 v.
Proof.
  intros [(H1 & H2 & H3) (K1 & K2 & K3)]. cbn [vx vy vz vopp eff_bounds] in *.
  split; [|split]; apply Rabs_le; lra.
Qed.

Lemma bounds_cover ws xs fixed : Forall (bounded (vopp eff_bounds) eff_bounds xs) ws ->
  Forall (within 10000) fixed -> Forall (fun w => dependsb w = true \/ In (ev_wpn w xs) fixed) ws ->
  Forall (within 10000) (at_free xs ws).
Proof.
  intros HB HF HC. unfold at_free. rewrite Forall_map. rewrite !Forall_forall in *. intros w Hw.
  destruct (HC w Hw) as [Hd|Hi]; [apply le3_within; exact (HB w Hw Hd)|apply HF; exact Hi].
Qed.

Lemma shape_hodo_ne pData T xs pi pts : eff_shape pData T xs pi pts ->
  hodo_n 1 T pts <> [] /\ hodo_n 3 T pts <> [] /\ pts <> [].
Proof. intros Hs. destruct Hs; (split; [discriminate|split; discriminate]). Qed.

Lemma eff_dim pData (xs : list vec3) : In (flag_of pData) effector_flags -> length xs = eff_free (flag_of pData) ->
  (3 * length xs = dimVar pData)%nat.
Proof. intros Hin Hl. rewrite Hl. unfold dimVar. in_cases Hin; rewrite Hin; reflexivity. Qed.

Lemma c34_bounds pData T xs pi M :
  In (flag_of pData) effector_flags -> length xs = eff_free (flag_of pData) -> 0 < T -> T <= 1000000 ->
  boundary_within 10000 pData T ->
  computeConstantWaypoints pData T = Ok pi -> computeEndEffectorConstraints pData T pi = Ok M -> satX M (flat xs) ->
  exists cv, eff_curve pData T xs = Ok cv /\ forall t, 0 <= t <= T ->
    exists v j, is_deriv_n 1 (cv_fun cv) t v /\ within 10000 v /\ is_deriv_n 3 (cv_fun cv) t j /\ within 10000 j.
Proof.
  intros Hin Hl H0 H1 HB Hc HM Hsat. assert (HT : T <> 0) by lra.
  destruct (eff_curve_ok pData T xs Hin Hl H0) as (pi' & pts & Hc' & Hs & He). rewrite Hc in Hc'. injection Hc' as <-.
  exists (BCurve pts T). split; [exact He|].
  destruct (eff_constraints pData T xs pi pts HT Hs) as (wa & wv & wj & M' & Ha & Hv & Hj & Hb & HM' & HC).
  rewrite HM in HM'. injection HM' as <-.
  destruct (c34_exact pData wa wv eff_bounds eff_bounds wj eff_bounds Hb) as (M' & HC' & _ & _ & Hx).
  rewrite HC in HC'. injection HC' as <-.
  apply (Hx xs (eff_dim _ _ Hin Hl)) in Hsat. destruct Hsat as (_ & Sv & Sj & _).
  destruct (vel_points pData T xs pi pts HT Hs) as (wv' & Hv' & Ev). rewrite Hv in Hv'. injection Hv' as <-.
  destruct (jerk_points pData T xs pi pts HT Hs) as (wj' & Hj' & Ej). rewrite Hj in Hj'. injection Hj' as <-.
  destruct (vel_cover pData T xs pi pts H0 H1 Hs) as (wv' & Hv' & Cv). rewrite Hv in Hv'. injection Hv' as <-.
  destruct (jerk_cover pData T xs pi pts H0 H1 Hs) as (wj' & Hj' & Cj). rewrite Hj in Hj'. injection Hj' as <-.
  destruct HB as (B1 & B2 & B3 & B4).
  assert (Fv : Forall (within 10000) (hodo_n 1 T pts)).
  { rewrite <- Ev. eapply bounds_cover; [exact Sv| |exact Cv]. unfold vel_fixed. rewrite Forall_app. split; assumption. }
  assert (Fj : Forall (within 10000) (hodo_n 3 T pts)).
  { rewrite <- Ej. eapply bounds_cover; [exact Sj| |exact Cj]. apply Forall_cons; [exact B3|]. apply Forall_cons; [exact B4|apply Forall_nil]. }
  destruct (shape_hodo_ne _ _ _ _ _ Hs) as (N1 & N3 & _).
  intros t Ht. exists (curve (hodo_n 1 T pts) T t), (curve (hodo_n 3 T pts) T t). unfold cv_fun. cbn [bc_pts bc_T].
  split; [apply curve_is_deriv_n|]. split; [apply curve_within; assumption|].
  split; [apply curve_is_deriv_n|apply curve_within; assumption].
Qed.

Lemma c34_floor pData T xs pi M :
  In (flag_of pData) effector_flags -> length xs = eff_free (flag_of pData) -> 0 < T ->
  boundary_above (Rmin (vz (c0 pData)) (vz (c1 pData))) pData T ->
  computeConstantWaypoints pData T = Ok pi -> computeEndEffectorConstraints pData T pi = Ok M -> satX M (flat xs) ->
  exists cv, eff_curve pData T xs = Ok cv /\ forall t, 0 <= t <= T ->
    Rmin (vz (c0 pData)) (vz (c1 pData)) <= vz (cv_fun cv t).
Proof.
  intros Hin Hl H0 HB Hc HM Hsat. assert (HT : T <> 0) by lra.
  destruct (eff_curve_ok pData T xs Hin Hl H0) as (pi' & pts & Hc' & Hs & He). rewrite Hc in Hc'. injection Hc' as <-.
  exists (BCurve pts T). split; [exact He|].
  destruct (eff_constraints pData T xs pi pts HT Hs) as (wa & wv & wj & M' & Ha & Hv & Hj & Hb & HM' & HC).
  rewrite HM in HM'. injection HM' as <-.
  destruct (c34_exact pData wa wv eff_bounds eff_bounds wj eff_bounds Hb) as (M' & HC' & _ & _ & Hx).
  rewrite HC in HC'. injection HC' as <-.
  apply (Hx xs (eff_dim _ _ Hin Hl)) in Hsat. destruct Hsat as (_ & _ & _ & Sz).
  destruct (shape_hodo_ne _ _ _ _ _ Hs) as (_ & _ & N).
  intros t Ht. unfold cv_fun. cbn [bc_pts bc_T]. apply curve_above; try assumption.
  rewrite (eff_pts _ _ _ _ _ HT Hs). destruct HB as [B1 B2]. rewrite !Forall_app. split; [exact B1|]. split; [exact Sz|].
  rewrite Forall_forall in *. intros p Hp. apply B2. apply in_rev. exact Hp.
Qed.

(** * The plan *)
Lemma unflat : forall n v, length v = (3 * n)%nat -> exists xs, length xs = n /\ v = flat xs.
Proof.
  induction n as [|n IH]; intros v Hl.
  - destruct v; [|discriminate]. exists []. split; reflexivity.
  - destruct v as [|a [|b [|c v]]]; try (cbn in Hl; lia).
    destruct (IH v ltac:(cbn in Hl; lia)) as (xs & E1 & E2). exists (V3 a b c :: xs). split; [cbn; congruence|]. subst v. reflexivity.
Qed.

Lemma solve_noeq_sound wg quadprog glpk (rows : list (list R * R)) H g init r :
  qp_sound quadprog -> Forall (fun r => length (fst r) = length init) rows ->
  solve_noeq wg quadprog glpk (MX (length init) (map fst rows)) (map snd rows) H g init SOLVER_QUADPROG = Ok r ->
  rd_success r = true -> length (rd_x r) = length init /\ satX rows (rd_x r).
Proof.
  intros QS WR E Hs. set (n := length init) in *.
  destruct (c37_ok (MX n (map fst rows)) (map snd rows) (MX n []) [] H g init []) as (q & EH & Eg & HF & HE).
  { unfold mx_wf. cbn [mx_rows mx_cols]. rewrite Forall_map. exact WR. } { cbn [mx_rows]. now rewrite !map_length. } { left; reflexivity. }
  unfold solve_noeq in E. cbn [mx_cols] in E. rewrite HE in E.
  destruct (quadprog q init) as [[[st x] obj]| |] eqn:EQ; cbn in E; try discriminate. injection E as <-. cbn [rd_success rd_x] in *.
  destruct (Z.eqb_spec st EIQUADPROG_FAST_OPTIMAL) as [->|]; [|discriminate].
  destruct (QS _ _ _ _ EQ) as [L F]. split; [exact L|].
  apply HF in F; [|exact L]. destruct F as (F1 & _). apply leM_satX in F1. exact F1.
Qed.

Lemma eff_constraints_total pData T : In (flag_of pData) effector_flags -> 0 < T -> exists pi M,
  computeConstantWaypoints pData T = Ok pi /\ computeEndEffectorConstraints pData T pi = Ok M /\
  Forall (fun r => length (fst r) = dimVar pData) M.
Proof.
  intros Hin H0. assert (HT : T <> 0) by lra.
  destruct (eff_shape_total pData T (repeat vzero (eff_free (flag_of pData))) Hin (repeat_length _ _)) as (pi & pts & Hc & Hs).
  destruct (eff_constraints pData T _ pi pts HT Hs) as (wa & wv & wj & M & Ha & Hv & Hj & Hb & HM & HC).
  destruct (c34_exact pData wa wv eff_bounds eff_bounds wj eff_bounds Hb) as (M' & HC' & _ & HL & _).
  rewrite HC in HC'. injection HC' as <-. exists pi, M. auto.
Qed.

Lemma c29_plan wg quadprog glpk init pData path T wd r :
  qp_sound quadprog -> (forall n, length (init n) = n) ->
  In (flag_of pData) effector_flags -> 0 < T ->
  solveEndEffector wg quadprog glpk init pData path T wd = Ok r -> rc_success r = true ->
  exists xs pi M, length xs = eff_free (flag_of pData) /\ rc_x r = flat xs /\ eff_curve pData T xs = Ok (rc_c r) /\
    bc_T (rc_c r) = T /\ meets_all pData T (cv_fun (rc_c r)) /\
    computeConstantWaypoints pData T = Ok pi /\ computeEndEffectorConstraints pData T pi = Ok M /\ satX M (flat xs).
Proof.
  intros QS HI Hin H0 E Hs.
  destruct (eff_constraints_total pData T Hin H0) as (pi & M & Hc & HM & HL).
  unfold solveEndEffector in E. rewrite Hc in E. cbn [bind] in E. rewrite HM in E. cbn [bind] in E.
  destruct (computeEndEffectorCost pData path T wd pi) as [Hg| |]; try discriminate. cbn [bind] in E.
  destruct (solve_noeq _ _ _ _ _ _ _ _ _) as [res| |] eqn:ES; try discriminate. cbn [bind] in E.
  destruct (rd_success res) eqn:ER; [|injection E as <-; discriminate].
  rewrite <- (HI (dimVar pData)) in ES at 1.
  destruct (solve_noeq_sound wg quadprog glpk M (fst Hg) (snd Hg) (init (dimVar pData)) res QS) as [L S];
    [rewrite HI; exact HL|exact ES|exact ER|].
  rewrite HI in L.
  destruct (unflat (eff_free (flag_of pData)) (rd_x res)) as (xs & Lx & Ex).
  { rewrite L. unfold dimVar. clear - Hin. in_cases Hin; rewrite Hin; reflexivity. }
  destruct (eff_boundary pData T xs Hin Lx H0) as (cv & Ecv & HTc & _ & HB).
  unfold eff_curve in Ecv. rewrite <- Ex in Ecv. rewrite Ecv in E. cbn [bind] in E. injection E as <-. cbn [rc_x rc_c].
  exists xs, pi, M. split; [exact Lx|]. split; [exact Ex|]. split; [unfold eff_curve; rewrite <- Ex; exact Ecv|].
  split; [exact HTc|]. split; [exact HB|]. split; [exact Hc|]. split; [exact HM|]. rewrite <- Ex. exact S.
Qed.
