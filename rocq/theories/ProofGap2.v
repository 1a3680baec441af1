(** Constraints of a plan between samples. *)
From Verif Require Import Vec SpecBezier SpecTime ModelData ModelDispatch ModelUtils ModelCom ModelCont ModelSolver ModelTraj
  SpecCom SpecWp SpecCtr SpecCont SpecSolver SpecTraj SpecGap ProofTraj ProofTraj2 ProofTraj3 ProofCom2 ProofGap PropertiesTraj PropertiesCom ProofWaypoints2 ProofCurve.
Open Scope R_scope.

Lemma floor_nat x : 0 <= x -> exists k : nat, INR k <= x < INR k + 1.
Proof.
  intro X. destruct (archimed x) as [A1 A2]. assert (Z1 : (1 <= up x)%Z) by (assert (0 < up x)%Z by (apply lt_IZR; lra); lia).
  exists (Z.to_nat (up x - 1)). rewrite INR_IZR_INZ, Z2Nat.id by lia. rewrite minus_IZR. lra.
Qed.
Lemma cell s d t : 0 < d -> s <= t -> exists k : nat, s + INR k * d <= t < s + INR (S k) * d.
Proof.
  intros D H. destruct (floor_nat ((t - s) / d)) as (k & A & B); [apply Rmult_le_pos; [lra|left; apply Rinv_0_lt_compat, D]|].
  exists k. apply (Rmult_le_compat_r d) in A; [|lra]. apply (Rmult_lt_compat_r d) in B; [|lra].
  replace ((t - s) / d * d) with (t - s) in A, B by (field; lra). rewrite S_INR. lra.
Qed.

Lemma step_neighbours Ts dt i t : 0 < dt -> in_phase Ts i t ->
  exists a b, sampled_step Ts dt i a /\ sampled_step Ts dt i b /\ a <= t <= b /\ b <= a + dt.
Proof.
  intros D [Hi Ht]. set (s := phase_start Ts i) in *. set (e := phase_end Ts i) in *.
  destruct (Rle_lt_dec e t) as [E|E].
  - exists e, e. assert (S : sampled_step Ts dt i e) by (split; [exact Hi|left; reflexivity]). split; [exact S|]. split; [exact S|]. lra.
  - destruct (cell s dt t D (proj1 Ht)) as (k & A & B). exists (s + INR k * dt).
    assert (S1 : sampled_step Ts dt i (s + INR k * dt)) by (split; [exact Hi|right; exists k; split; [reflexivity|fold e; lra]]).
    destruct (Rlt_le_dec (s + INR (S k) * dt) e) as [L|L].
    + exists (s + INR (S k) * dt). split; [exact S1|]. split; [split; [exact Hi|right; exists (S k); split; [reflexivity|exact L]]|]. rewrite S_INR in *. lra.
    + exists e. split; [exact S1|]. split; [split; [exact Hi|left; reflexivity]|]. rewrite S_INR in *. lra.
Qed.

Lemma fixed_neighbours Ts p i d t : Forall (Rlt 0) Ts -> (1 <= p)%nat -> nth_error Ts i = Some d -> in_phase Ts i t ->
  exists a b, sampled_fixed Ts p i a /\ sampled_fixed Ts p i b /\ a <= t <= b /\ b <= a + d / INR p.
Proof.
  intros HF Hp Hd [Hi Ht]. destruct (phase_mono Ts i d HF Hd) as [D Ee]. rewrite Ee in Ht. set (s := phase_start Ts i) in *.
  assert (P0 : 0 < INR p) by (apply lt_0_INR; lia). assert (Q : 0 < d / INR p) by (apply Rdiv_lt_0_compat; assumption).
  assert (F : forall j, s + INR j / INR p * d = s + INR j * (d / INR p)) by (intro j; unfold Rdiv; ring).
  destruct (Rle_lt_dec (s + d) t) as [E|E].
  - exists (s + d), (s + d). assert (S : sampled_fixed Ts p i (s + d)).
    { exists p, d. split; [lia|]. split; [exact Hd|]. fold s. field. lra. }
    split; [exact S|]. split; [exact S|]. lra.
  - destruct (cell s (d / INR p) t Q (proj1 Ht)) as (k & A & B).
    assert (K : (k < p)%nat).
    { apply INR_lt. apply Rmult_lt_reg_r with (d / INR p); [exact Q|]. replace (INR p * (d / INR p)) with d by (field; lra). lra. }
    exists (s + INR k * (d / INR p)), (s + INR (S k) * (d / INR p)). split; [|split].
    + exists k, d. split; [lia|]. split; [exact Hd|]. fold s. symmetry. apply F.
    + exists (S k), d. split; [lia|]. split; [exact Hd|]. fold s. symmetry. apply F.
    + rewrite S_INR in *. lra.
Qed.

Section Plan.
Variable pData : problem.
Variable Ts : list R.
Variable cv : bcurve.
Variables M G : R.
Variable g : vec3.
Hypothesis WP : well_posed pData Ts.
Hypothesis HT : bc_T cv = total Ts.
Hypothesis M0 : 0 <= M.
Hypothesis HM : Forall (within M) (bc_pts cv).
Hypothesis HG : within G g.
Hypothesis Hg : same_gravity pData g.

Lemma plan_gap sl i c a b h t : nth_error (contacts pData) i = Some c -> 0 <= a -> a <= t <= b -> b <= a + h -> b <= total Ts ->
  contact_ok pData sl c (cv_fun cv) a /\ accel_ok pData (cv_fun cv) a ->
  contact_ok pData sl c (cv_fun cv) b /\ accel_ok pData (cv_fun cv) b ->
  let n := pred (length (bc_pts cv)) in
  contact_near pData (gap_pos n (total Ts) M h) (sl + gap_wrench G n (total Ts) M h) c (cv_fun cv) t /\
  accel_near pData (gap_acc n (total Ts) M h) (cv_fun cv) t.
Proof.
  intros Hc Ha Ht Hh Hb [Ca Aa] [Cb Ab]. cbv zeta. pose proof (total_posd pData Ts WP) as TP. rewrite <- HT in *.
  assert (Wf : contact_wf c) by (destruct WP as (_ & _ & _ & _ & _ & F); rewrite Forall_forall in F; apply F; exact (nth_error_In _ _ Hc)).
  split.
  - apply (contact_gap pData cv M G g TP HM M0 HG c Wf (fun ph => Hg c ph (nth_error_In _ _ Hc)) a b h Ha); try assumption; lra.
  - apply (accel_gap pData cv M TP HM M0 a b h Ha); try assumption; lra.
Qed.

Lemma step_range dt i t : 0 < dt -> sampled_step Ts dt i t -> 0 <= t <= total Ts.
Proof.
  intros D [Hi H]. destruct WP as (_ & _ & _ & HF & _). destruct (nth_error Ts i) as [d|] eqn:Hd; [|apply nth_error_None in Hd; lia].
  destruct (total_prefix Ts i HF) as [A _]. destruct (total_prefix Ts (S i) HF) as [B _]. change (phase_start Ts (S i)) with (phase_end Ts i) in B.
  destruct H as [->|(k & -> & L)]; [exact B|]. pose proof (pos_INR k). split; [|lra]. assert (0 <= INR k * dt) by (apply Rmult_le_pos; lra). lra.
Qed.
Lemma fixed_range p i t : (1 <= p)%nat -> sampled_fixed Ts p i t -> 0 <= t <= total Ts.
Proof.
  intros Hp (j & d & Hj & Hd & ->). destruct WP as (_ & _ & _ & HF & _).
  destruct (phase_mono Ts i d HF Hd) as [D Ee]. destruct (total_prefix Ts i HF) as [A _]. destruct (total_prefix Ts (S i) HF) as [B _]. change (phase_start Ts (S i)) with (phase_end Ts i) in B. rewrite Ee in B.
  assert (P0 : 0 < INR p) by (apply lt_0_INR; lia). assert (J : 0 <= INR j / INR p <= 1).
  { split; [apply Rmult_le_pos; [apply pos_INR|left; apply Rinv_0_lt_compat, P0]|]. apply (Rmult_le_reg_r (INR p)); [exact P0|]. unfold Rdiv. rewrite Rmult_assoc, Rinv_l by lra.
    rewrite Rmult_1_r, Rmult_1_l. apply le_INR, Hj. }
  nra.
Qed.

Lemma step_gap sl dt : 0 < dt ->
  (forall i c t, nth_error (contacts pData) i = Some c -> sampled_step Ts dt i t -> contact_ok pData sl c (cv_fun cv) t /\ accel_ok pData (cv_fun cv) t) ->
  forall i c t, nth_error (contacts pData) i = Some c -> in_phase Ts i t ->
  let n := pred (length (bc_pts cv)) in
  contact_near pData (gap_pos n (total Ts) M dt) (sl + gap_wrench G n (total Ts) M dt) c (cv_fun cv) t /\
  accel_near pData (gap_acc n (total Ts) M dt) (cv_fun cv) t.
Proof.
  intros D H i c t Hc Ht. destruct (step_neighbours Ts dt i t D Ht) as (a & b & Sa & Sb & Hab & Hh).
  pose proof (step_range dt i a D Sa). pose proof (step_range dt i b D Sb).
  apply (plan_gap sl i c a b dt t Hc); try lra; apply (H i c); assumption.
Qed.
Lemma fixed_gap sl p : (1 <= p)%nat ->
  (forall i c t, nth_error (contacts pData) i = Some c -> sampled_fixed Ts p i t -> contact_ok pData sl c (cv_fun cv) t /\ accel_ok pData (cv_fun cv) t) ->
  forall i c d t, nth_error (contacts pData) i = Some c -> nth_error Ts i = Some d -> in_phase Ts i t ->
  let n := pred (length (bc_pts cv)) in
  contact_near pData (gap_pos n (total Ts) M (d / INR p)) (sl + gap_wrench G n (total Ts) M (d / INR p)) c (cv_fun cv) t /\
  accel_near pData (gap_acc n (total Ts) M (d / INR p)) (cv_fun cv) t.
Proof.
  intros Hp H i c d t Hc Hd Ht. pose proof WP as (_ & _ & _ & HF & _).
  destruct (fixed_neighbours Ts p i d t HF Hp Hd Ht) as (a & b & Sa & Sb & Hab & Hh).
  pose proof (fixed_range p i a Hp Sa). pose proof (fixed_range p i b Hp Sb).
  apply (plan_gap sl i c a b (d / INR p) t Hc); try lra; apply (H i c); assumption.
Qed.
End Plan.


Lemma c81_step scaled with_glpk quadprog glpk : qp_sound quadprog -> lp_sound glpk ->
  forall pData Ts dt solver g G r M, well_posed pData Ts -> 0 < dt -> same_gravity pData g -> within G g -> In (flag_of pData) exact_w_flags ->
  computeCOMTraj scaled with_glpk quadprog glpk pData Ts dt solver = Ok r -> rc_success r = true ->
  0 <= M -> Forall (within M) (bc_pts (rc_c r)) ->
  forall i c t, nth_error (contacts pData) i = Some c -> in_phase Ts i t ->
    let n := pred (length (bc_pts (rc_c r))) in
    contact_near pData (gap_pos n (total Ts) M dt) (gap_wrench G n (total Ts) M dt) c (cv_fun (rc_c r)) t /\
    accel_near pData (gap_acc n (total Ts) M dt) (cv_fun (rc_c r)) t.
Proof.
  intros Q L pData Ts dt solver g G r M WP D Hg HG Hf E S M0 HM i c t Hc Ht. cbv zeta.
  destruct (C16_plan_step scaled with_glpk quadprog glpk Q L pData Ts dt solver g r WP D Hg Hf E S) as [(HT & _) H].
  rewrite <- (Rplus_0_l (gap_wrench _ _ _ _ _)). exact (step_gap pData Ts (rc_c r) M G g WP HT M0 HM HG Hg 0 dt D H i c t Hc Ht).
Qed.
Lemma c81_step_dec scaled with_glpk quadprog glpk : qp_sound quadprog -> lp_sound glpk ->
  forall pData Ts dt solver g G r M, well_posed pData Ts -> 0 < dt -> same_gravity pData g -> within G g -> In (flag_of pData) dec_w_flags ->
  computeCOMTraj scaled with_glpk quadprog glpk pData Ts dt solver = Ok r -> rc_success r = true ->
  0 <= M -> Forall (within M) (bc_pts (rc_c r)) ->
  forall i c t, nth_error (contacts pData) i = Some c -> in_phase Ts i t ->
    let n := pred (length (bc_pts (rc_c r))) in
    contact_near pData (gap_pos n (total Ts) M dt)
      (3 * (err_force M (total Ts) + err_moment G M (total Ts)) + gap_wrench G n (total Ts) M dt) c (cv_fun (rc_c r)) t /\
    accel_near pData (gap_acc n (total Ts) M dt) (cv_fun (rc_c r)) t.
Proof.
  intros Q L pData Ts dt solver g G r M WP D Hg HG Hf E S M0 HM i c t Hc Ht. cbv zeta.
  destruct (C16_plan_step_decimal scaled with_glpk quadprog glpk Q L pData Ts dt solver g G r M WP D Hg HG Hf E S HM) as [(HT & _) H].
  exact (step_gap pData Ts (rc_c r) M G g WP HT M0 HM HG Hg _ dt D H i c t Hc Ht).
Qed.
Lemma c81_fixed scaled with_glpk quadprog glpk : qp_sound quadprog -> lp_sound glpk ->
  forall pData Ts p g G r M, well_posed pData Ts -> (1 <= p)%nat -> same_gravity pData g -> within G g -> In (flag_of pData) exact_w_flags ->
  computeCOMTrajFixedSize scaled with_glpk quadprog glpk pData Ts p = Ok r -> rc_success r = true ->
  0 <= M -> Forall (within M) (bc_pts (rc_c r)) ->
  forall i c d t, nth_error (contacts pData) i = Some c -> nth_error Ts i = Some d -> in_phase Ts i t ->
    let n := pred (length (bc_pts (rc_c r))) in
    contact_near pData (gap_pos n (total Ts) M (d / INR p)) (gap_wrench G n (total Ts) M (d / INR p)) c (cv_fun (rc_c r)) t /\
    accel_near pData (gap_acc n (total Ts) M (d / INR p)) (cv_fun (rc_c r)) t.
Proof.
  intros Q L pData Ts p g G r M WP D Hg HG Hf E S M0 HM i c d t Hc Hd Ht. cbv zeta.
  destruct (C16_plan_fixed scaled with_glpk quadprog glpk Q L pData Ts p g r WP D Hg Hf E S) as [(HT & _) H].
  rewrite <- (Rplus_0_l (gap_wrench _ _ _ _ _)). exact (fixed_gap pData Ts (rc_c r) M G g WP HT M0 HM HG Hg 0 p D H i c d t Hc Hd Ht).
Qed.
Lemma c81_fixed_dec scaled with_glpk quadprog glpk : qp_sound quadprog -> lp_sound glpk ->
  forall pData Ts p g G r M, well_posed pData Ts -> (1 <= p)%nat -> same_gravity pData g -> within G g -> In (flag_of pData) dec_w_flags ->
  computeCOMTrajFixedSize scaled with_glpk quadprog glpk pData Ts p = Ok r -> rc_success r = true ->
  0 <= M -> Forall (within M) (bc_pts (rc_c r)) ->
  forall i c d t, nth_error (contacts pData) i = Some c -> nth_error Ts i = Some d -> in_phase Ts i t ->
    let n := pred (length (bc_pts (rc_c r))) in
    contact_near pData (gap_pos n (total Ts) M (d / INR p))
      (3 * (err_force M (total Ts) + err_moment G M (total Ts)) + gap_wrench G n (total Ts) M (d / INR p)) c (cv_fun (rc_c r)) t /\
    accel_near pData (gap_acc n (total Ts) M (d / INR p)) (cv_fun (rc_c r)) t.
Proof.
  intros Q L pData Ts p g G r M WP D Hg HG Hf E S M0 HM i c d t Hc Hd Ht. cbv zeta.
  destruct (C16_plan_fixed_decimal scaled with_glpk quadprog glpk Q L pData Ts p g G r M WP D Hg HG Hf E S HM) as [(HT & _) H].
  exact (fixed_gap pData Ts (rc_c r) M G g WP HT M0 HM HG Hg _ p D H i c d t Hc Hd Ht).
Qed.
