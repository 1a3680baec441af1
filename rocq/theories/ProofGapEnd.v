(** Constraints between the samples of plans made with the bundled solver. *)
From Verif Require Import Vec SpecBezier SpecTime ModelData ModelDispatch ModelUtils ModelCom ModelCont ModelSolver ModelTraj Model0Step ModelQp
  SpecCom SpecWp SpecCtr SpecCont SpecSolver SpecTraj SpecQp Spec0Step SpecEnd SpecEnd3 SpecDec SpecGap SpecGap0 SpecGapEnd
  ProofTraj ProofTraj2 ProofTraj3 ProofCom2 ProofGap ProofGap2 ProofGap0 PropertiesEnd PropertiesDec PropertiesEnd3.
Open Scope R_scope.

(** The problem with the bound on the acceleration increased by [tau]. *)
Definition looser (tau : R) (pData : problem) : problem :=
  Problem (contacts pData) (c0 pData) (dc0 pData) (ddc0 pData) (j0 pData) (c1 pData) (dc1 pData) (ddc1 pData) (j1 pData) (l0 pData) (useAngularMomentum pData)
    (Constraints (k_flag (constr pData)) (k_constraintAcceleration (constr pData)) (k_maxAcceleration (constr pData) + tau) (k_reduce_h (constr pData)))
    (costFunction pData) (representation pData).
Lemma loosen_wf tau ct : contact_wf ct -> contact_wf (loosen tau ct).
Proof. intros (ph & A & B & C & D). exists ph. split; [exact A|]. split; [exact B|]. split; [exact C|]. cbn [loosen cd_kin cd_Kin]. rewrite map_length. exact D. Qed.
Lemma loosen_ok pData tau sl ct f t : SpecEnd.contact_near pData tau sl ct f t -> contact_ok pData sl (loosen tau ct) f t.
Proof.
  intros [K C]. split; [|exact C]. intros i Ki k HK Hk. cbn [loosen cd_kin cd_Kin] in *. rewrite nth_error_map in Hk.
  destruct (nth_error (cd_kin ct) i) as [k0|] eqn:E; [|discriminate]. injection Hk as <-. exact (K i Ki k0 HK E).
Qed.
Lemma loosen_near pData tau dk sl ct f t : SpecGap.contact_near pData dk sl (loosen tau ct) f t -> contact_between pData tau dk sl ct f t.
Proof.
  intros [K C]. split; [|exact C]. intros i Ki k HK Hk. apply (K i Ki (k + tau)); [exact HK|]. cbn [loosen cd_kin]. rewrite nth_error_map, Hk. reflexivity.
Qed.

Section Plan.
Variable pData : problem.
Variable Ts : list R.
Variable cv : bcurve.
Variables M G tau : R.
Variable g : vec3.
Hypothesis WP : well_posed pData Ts.
Hypothesis HT : bc_T cv = total Ts.
Hypothesis M0 : 0 <= M.
Hypothesis HM : Forall (within M) (bc_pts cv).
Hypothesis HG : within G g.
Hypothesis Hg : same_gravity pData g.
Let n := pred (length (bc_pts cv)).

Lemma plan_gap_tol sl i c a b h t : nth_error (contacts pData) i = Some c -> 0 <= a -> a <= t <= b -> b <= a + h -> b <= total Ts ->
  SpecEnd.contact_near pData tau sl c (cv_fun cv) a /\ SpecEnd.accel_near pData tau (cv_fun cv) a ->
  SpecEnd.contact_near pData tau sl c (cv_fun cv) b /\ SpecEnd.accel_near pData tau (cv_fun cv) b ->
  contact_between pData tau (gap_pos n (total Ts) M h) (sl + gap_wrench G n (total Ts) M h) c (cv_fun cv) t /\
  SpecGap.accel_near pData (tau + gap_acc n (total Ts) M h) (cv_fun cv) t.
Proof.
  intros Hc Ha Ht Hh Hb [Ca Aa] [Cb Ab]. pose proof (total_posd pData Ts WP) as TP. rewrite <- HT in *.
  assert (Wf : contact_wf c) by (destruct WP as (_ & _ & _ & _ & _ & F); rewrite Forall_forall in F; apply F; exact (nth_error_In _ _ Hc)).
  split.
  - apply loosen_near. apply (contact_gap pData cv M G g TP HM M0 HG (loosen tau c) (loosen_wf tau c Wf) (fun ph => Hg c ph (nth_error_In _ _ Hc)) a b h Ha);
      try apply loosen_ok; try assumption; lra.
  - pose proof (accel_gap (looser tau pData) cv M TP HM M0 a b h Ha ltac:(lra) Hb t Aa Ab Ht) as Q. intro E. destruct (Q E) as (acc & D & W). exists acc. split; [exact D|].
    cbn [looser constr k_maxAcceleration] in W. rewrite <- Rplus_assoc. exact W.
Qed.
Lemma step_gap_tol sl dt : 0 < dt ->
  (forall i c t, nth_error (contacts pData) i = Some c -> sampled_step Ts dt i t ->
     SpecEnd.contact_near pData tau sl c (cv_fun cv) t /\ SpecEnd.accel_near pData tau (cv_fun cv) t) ->
  forall i c t, nth_error (contacts pData) i = Some c -> in_phase Ts i t ->
  contact_between pData tau (gap_pos n (total Ts) M dt) (sl + gap_wrench G n (total Ts) M dt) c (cv_fun cv) t /\
  SpecGap.accel_near pData (tau + gap_acc n (total Ts) M dt) (cv_fun cv) t.
Proof.
  intros D H i c t Hc Ht. destruct (step_neighbours Ts dt i t D Ht) as (a & b & Sa & Sb & Hab & Hh).
  pose proof (step_range pData Ts WP dt i a D Sa). pose proof (step_range pData Ts WP dt i b D Sb).
  apply (plan_gap_tol sl i c a b dt t Hc); try lra; apply (H i c); assumption.
Qed.
Lemma fixed_gap_tol sl p : (1 <= p)%nat ->
  (forall i c t, nth_error (contacts pData) i = Some c -> sampled_fixed Ts p i t ->
     SpecEnd.contact_near pData tau sl c (cv_fun cv) t /\ SpecEnd.accel_near pData tau (cv_fun cv) t) ->
  forall i c d t, nth_error (contacts pData) i = Some c -> nth_error Ts i = Some d -> in_phase Ts i t ->
  contact_between pData tau (gap_pos n (total Ts) M (d / INR p)) (sl + gap_wrench G n (total Ts) M (d / INR p)) c (cv_fun cv) t /\
  SpecGap.accel_near pData (tau + gap_acc n (total Ts) M (d / INR p)) (cv_fun cv) t.
Proof.
  intros Hp H i c d t Hc Hd Ht. pose proof WP as (_ & _ & _ & HF & _).
  destruct (fixed_neighbours Ts p i d t HF Hp Hd Ht) as (a & b & Sa & Sb & Hab & Hh).
  pose proof (fixed_range pData Ts WP p i a Hp Sa). pose proof (fixed_range pData Ts WP p i b Hp Sb).
  apply (plan_gap_tol sl i c a b (d / INR p) t Hc); try lra; apply (H i c); assumption.
Qed.
End Plan.

Lemma c83_fixed scaled with_glpk mem glpk pData Ts p g G lam B kap :
  well_posed pData Ts -> (1 <= p)%nat -> same_gravity pData g -> within G g -> In (flag_of pData) exact_w_flags ->
  cost_weight pData Ts (computeDiscretizedTimeFixed Ts p) lam -> on_scale pData lam B kap ->
  (forall i t, sampled_fixed Ts p i t -> wrench_rate pData (total Ts) g B t) ->
  let tau := plan_tol (rows_needed (contacts pData) (fun _ => S p) 0 + acc_needed pData (length Ts * p + 1)) lam in
  exists r, computeCOMTrajFixedSize scaled with_glpk (solve_quadprog mem) glpk pData Ts p = Ok r /\
    (rc_success r = true -> plan_curve pData Ts r /\
     forall M, 0 <= M -> Forall (within M) (bc_pts (rc_c r)) ->
     forall i c d t, nth_error (contacts pData) i = Some c -> nth_error Ts i = Some d -> in_phase Ts i t ->
       let n := pred (length (bc_pts (rc_c r))) in let h := d / INR p in
       contact_between pData tau (gap_pos n (total Ts) M h) (tau * B + gap_wrench G n (total Ts) M h) c (cv_fun (rc_c r)) t /\
       SpecGap.accel_near pData (tau + gap_acc n (total Ts) M h) (cv_fun (rc_c r)) t).
Proof.
  intros WP Hp Hg HG Hf W S R. cbv zeta. destruct (C53_fixed scaled with_glpk mem glpk pData Ts p g lam B kap WP Hp Hg Hf W S R) as (r & E & H).
  exists r. split; [exact E|]. intro Hs. destruct (H Hs) as [Hc HS]. split; [exact Hc|]. intros M M0 HM i c d t.
  exact (fixed_gap_tol pData Ts (rc_c r) M G _ g WP (proj1 Hc) M0 HM HG Hg _ p Hp HS i c d t).
Qed.
Lemma c83_step scaled with_glpk mem glpk pData Ts dt g G lam B kap ta :
  well_posed pData Ts -> 0 < dt -> same_gravity pData g -> within G g -> In (flag_of pData) exact_w_flags ->
  computeDiscretizedTime Ts dt = Ok ta -> cost_weight pData Ts ta lam -> on_scale pData lam B kap ->
  (forall i t, sampled_step Ts dt i t -> wrench_rate pData (total Ts) g B t) ->
  exists ns r, length ns = length Ts /\ (forall i k, nth_error ns i = Some k -> steps_to (phase_start Ts i) (phase_end Ts i) dt k) /\
    computeCOMTraj scaled with_glpk (solve_quadprog mem) glpk pData Ts dt SOLVER_QUADPROG = Ok r /\
    let tau := plan_tol (rows_needed (contacts pData) (fun i => nth i ns 0 + (if Nat.eqb i 0 then 1 else 2)) 0
                         + acc_needed pData (fold_right Nat.add 0 (map S ns)))%nat lam in
    (rc_success r = true -> plan_curve pData Ts r /\
     forall M, 0 <= M -> Forall (within M) (bc_pts (rc_c r)) ->
     forall i c t, nth_error (contacts pData) i = Some c -> in_phase Ts i t ->
       let n := pred (length (bc_pts (rc_c r))) in
       contact_between pData tau (gap_pos n (total Ts) M dt) (tau * B + gap_wrench G n (total Ts) M dt) c (cv_fun (rc_c r)) t /\
       SpecGap.accel_near pData (tau + gap_acc n (total Ts) M dt) (cv_fun (rc_c r)) t).
Proof.
  intros WP Hp Hg HG Hf Et W S R. destruct (C53_step scaled with_glpk mem glpk pData Ts dt g lam B kap ta WP Hp Hg Hf Et W S R) as (ns & r & L & St & E & H).
  exists ns, r. split; [exact L|]. split; [exact St|]. split; [exact E|]. cbv zeta in *. intro Hs. destruct (H Hs) as [Hc HS]. split; [exact Hc|]. intros M M0 HM i c t.
  exact (step_gap_tol pData Ts (rc_c r) M G _ g WP (proj1 Hc) M0 HM HG Hg _ dt Hp HS i c t).
Qed.
Lemma c83_fixed_dec scaled with_glpk mem glpk pData Ts g G M0 cv0 lam B kap :
  well_posed pData Ts -> same_gravity pData g -> within G g -> In (flag_of pData) dec_w_flags ->
  1 <= M0 -> com_curve pData (total Ts) vzero = Ok cv0 -> Forall (within M0) (bc_pts cv0) ->
  let B' := B + 2 * dec_slack G M0 (total Ts) in on_scale pData lam B' kap ->
  forall p, (1 <= p)%nat -> cost_weight pData Ts (computeDiscretizedTimeFixed Ts p) lam ->
  (forall i t, sampled_fixed Ts p i t -> wrench_rate pData (total Ts) g B t) ->
  let tau := plan_tol (rows_needed (contacts pData) (fun _ => S p) 0 + acc_needed pData (length Ts * p + 1)) lam in
  exists r, computeCOMTrajFixedSize scaled with_glpk (solve_quadprog mem) glpk pData Ts p = Ok r /\
    (rc_success r = true -> plan_curve pData Ts r /\
     forall M, 0 <= M -> Forall (within M) (bc_pts (rc_c r)) ->
     forall i c d t, nth_error (contacts pData) i = Some c -> nth_error Ts i = Some d -> in_phase Ts i t ->
       let n := pred (length (bc_pts (rc_c r))) in let h := d / INR p in
       contact_between pData tau (gap_pos n (total Ts) M h) (tau * B' + dec_slack G M (total Ts) + gap_wrench G n (total Ts) M h) c (cv_fun (rc_c r)) t /\
       SpecGap.accel_near pData (tau + gap_acc n (total Ts) M h) (cv_fun (rc_c r)) t).
Proof.
  intros WP Hg HG Hf H1 H2 H3 B' S p Hp W R. cbv zeta.
  destruct (C53_fixed_decimal scaled with_glpk mem glpk pData Ts g G M0 cv0 lam B kap WP Hg HG Hf H1 H2 H3 S p Hp W R) as (r & E & H).
  exists r. split; [exact E|]. intro Hs. destruct (H Hs) as [Hc HS]. split; [exact Hc|]. intros M Mp HM i c d t.
  exact (fixed_gap_tol pData Ts (rc_c r) M G _ g WP (proj1 Hc) Mp HM HG Hg _ p Hp (HS M HM) i c d t).
Qed.
Lemma c83_step_dec scaled with_glpk mem glpk pData Ts g G M0 cv0 lam B kap :
  well_posed pData Ts -> same_gravity pData g -> within G g -> In (flag_of pData) dec_w_flags ->
  1 <= M0 -> com_curve pData (total Ts) vzero = Ok cv0 -> Forall (within M0) (bc_pts cv0) ->
  let B' := B + 2 * dec_slack G M0 (total Ts) in on_scale pData lam B' kap ->
  forall dt ta, 0 < dt -> computeDiscretizedTime Ts dt = Ok ta -> cost_weight pData Ts ta lam ->
  (forall i t, sampled_step Ts dt i t -> wrench_rate pData (total Ts) g B t) ->
  exists ns r, length ns = length Ts /\ (forall i k, nth_error ns i = Some k -> steps_to (phase_start Ts i) (phase_end Ts i) dt k) /\
    computeCOMTraj scaled with_glpk (solve_quadprog mem) glpk pData Ts dt SOLVER_QUADPROG = Ok r /\
    let tau := plan_tol (rows_needed (contacts pData) (fun i => nth i ns 0 + (if Nat.eqb i 0 then 1 else 2)) 0
                         + acc_needed pData (fold_right Nat.add 0 (map S ns)))%nat lam in
    (rc_success r = true -> plan_curve pData Ts r /\
     forall M, 0 <= M -> Forall (within M) (bc_pts (rc_c r)) ->
     forall i c t, nth_error (contacts pData) i = Some c -> in_phase Ts i t ->
       let n := pred (length (bc_pts (rc_c r))) in
       contact_between pData tau (gap_pos n (total Ts) M dt) (tau * B' + dec_slack G M (total Ts) + gap_wrench G n (total Ts) M dt) c (cv_fun (rc_c r)) t /\
       SpecGap.accel_near pData (tau + gap_acc n (total Ts) M dt) (cv_fun (rc_c r)) t).
Proof.
  intros WP Hg HG Hf H1 H2 H3 B' S dt ta Hp Et W R.
  destruct (C53_step_decimal scaled with_glpk mem glpk pData Ts g G M0 cv0 lam B kap WP Hg HG Hf H1 H2 H3 S dt ta Hp Et W R) as (ns & r & L & St & E & H).
  exists ns, r. split; [exact L|]. split; [exact St|]. split; [exact E|]. cbv zeta in *. intro Hs. destruct (H Hs) as [Hc HS]. split; [exact Hc|]. intros M Mp HM i c t.
  exact (step_gap_tol pData Ts (rc_c r) M G _ g WP (proj1 Hc) Mp HM HG Hg _ dt Hp (HS M HM) i c t).
Qed.
Lemma c83_zero with_glpk mem glpk pData Ts ct ph T dt M kap : z_posed pData Ts ct ph T ->
  forall N, z_steps T dt N -> (1 <= N)%nat -> z_on_scale pData ct ph T M kap ->
  let tau := z_tol (useAngularMomentum pData) (z_rows (useAngularMomentum pData) ct ph (N + 1)) in
  exists r, solve0step with_glpk (solve_quadprog mem) glpk pData Ts dt = Ok r /\
    (r0_success r = true -> exists x xL, z_plan pData T r x xL /\
      forall G M' L, within G (cp_gravity ph) ->
        within M' (c0 pData) -> within M' (vadd (c0 pData) (vscal (T / 3) (dc0 pData))) -> within M' x ->
        0 <= L -> (useAngularMomentum pData = true -> within L (l0 pData) /\ within L xL) ->
      forall t acc, 0 <= t <= T -> is_deriv_n 2 (cv_fun (r0_c r)) t acc ->
        cone0_near (tau + (cp_mass ph * gap_wrench G 3 T M' (T / INR N) + gap_momentum T L (T / INR N))) ph
          (giwL (cp_mass ph) (cp_gravity ph) (cv_fun (r0_c r) t) acc (dL_fun (r0_dL r) t))).
Proof.
  intros WP N HS HN HZ. cbv zeta. destruct (C64_samples with_glpk mem glpk pData Ts ct ph T dt M kap WP N HS HN HZ) as (r & E & H).
  exists r. split; [exact E|]. intro Hs. destruct (H Hs) as (x & xL & HP & _ & _ & _ & _ & _ & HC & _). exists x, xL. split; [exact HP|].
  exact (z_gap pData Ts ct ph T _ r N x xL WP HN HP HC).
Qed.
