(** Costs (C22, C23). *)
From Verif Require Import Vec SpecBezier SpecTime ModelData ModelDispatch ModelUtils ModelRows ModelCom ModelNd ModelCont ModelSolver ModelTraj
  SpecCom SpecWp SpecCtr SpecSolver SpecTraj ProofBezier ProofCurve ProofWaypoints ProofWaypoints2 ProofWaypointsErr ProofTime ProofTime2 ProofCom ProofCom2 ProofCom3 ProofCont3 ProofSolver.
Open Scope R_scope.

Lemma rdot_app a b c d : length a = length c -> rdot (a ++ b) (c ++ d) = rdot a c + rdot b d.
Proof.
  revert c; induction a as [|x a IH]; intros [|y c] L; try discriminate; cbn; [lra|].
  rewrite IH by (cbn in L; lia). lra.
Qed.
Lemma rdot_repeat0 n v : rdot (repeat 0 n) v = 0.
Proof. apply rdot_zero_l. Qed.
Lemma rdot_scal_l k a b : rdot (map (Rmult k) a) b = k * rdot a b.
Proof. revert b; induction a as [|x a IH]; intros [|y b]; cbn; try lra. rewrite IH. lra. Qed.

Lemma identity_mul n k v : length v = n -> map (fun r => rdot r v) (identity n k) = map (Rmult k) v.
Proof.
  intros L. apply nth_ext with (d := 0) (d' := 0).
  - rewrite !map_length, identity_len. auto.
  - intros i Hi. rewrite map_length, identity_len in Hi.
    rewrite (nth_indep _ 0 (rdot [] v)) by (rewrite map_length, identity_len; lia).
    rewrite (map_nth (fun r => rdot r v)).
    assert (E : nth i (identity n k) [] = identity_row n i k).
    { unfold identity. rewrite (nth_indep _ [] (identity_row n 0 k)) by (rewrite map_length, seq_length; lia).
      rewrite (map_nth (fun i => identity_row n i k)), seq_nth by lia. reflexivity. }
    rewrite E. unfold identity_row. pose proof (identity_row_rdot k n 0 v i L Hi) as HR. cbn [Nat.add] in HR. rewrite HR.
    rewrite (nth_indep (map (Rmult k) v) 0 (k * 0)) by (rewrite map_length; lia). rewrite (map_nth (Rmult k)). reflexivity.
Qed.

Lemma id_row_tail (k : R) i n s : (i < s)%nat -> map (fun j => if Nat.eqb i j then k else 0) (seq s n) = repeat 0 n.
Proof.
  revert s; induction n as [|n IH]; intros s H; [reflexivity|]. cbn [seq map repeat].
  destruct (Nat.eqb_spec i s); [lia|]. rewrite IH by lia. reflexivity.
Qed.

Definition Hmat (M : mat3) (n : nat) (k : R) : list (list R) :=
  map (fun r => r ++ repeat 0 n) (m_rows M) ++ skipn 3 (identity (3 + n) k).

Lemma set_Hg_ok M v n k : set_Hg M v (identity (3 + n) k, repeat 0 (3 + n)) = Ok (Hmat M n k, l3 v ++ repeat 0 n).
Proof.
  unfold set_Hg. cbn [fst snd].
  assert (E : write_block (identity (3 + n) k) 0 0 (m_rows M) = Ok (Hmat M n k)).
  { unfold write_block. rewrite identity_len. cbn [length m_rows].
    destruct (Nat.leb_spec (0 + 3) (3 + n)) as [_|]; [|lia].
    assert (W : forall a b c d e f (l : list R), write_rows (a :: b :: c :: l) 0 [d; e; f] = Ok (d :: e :: f :: l)).
    { intros. exact (write_at [] [a; b; c] l [d; e; f] eq_refl). }
    assert (EI : exists rest, identity (3 + n) k = ([k;0;0] ++ repeat 0 n) :: ([0;k;0] ++ repeat 0 n) :: ([0;0;k] ++ repeat 0 n) :: rest).
    { exists (map (fun i => identity_row (3 + n) i k) (seq 3 n)). unfold identity. cbn [seq plus map].
      unfold identity_row at 1 2 3. cbn [seq plus map]. rewrite !id_row_tail by lia. reflexivity. }
    destruct EI as [rest EI]. unfold Hmat. rewrite EI. unfold m_rows, l3. cbn [skipn firstn app zipM plus length map].
    rewrite !W. cbn [bind zipM app]. reflexivity. }
  rewrite E. cbn [bind].
  pose proof (write_at [] [0;0;0] (repeat 0 n) (l3 v) eq_refl) as W. cbn [length app] in W. cbn [plus repeat]. rewrite W. reflexivity.
Qed.

Lemma quad_Hmat M n k x beta : length beta = n ->
  quad (Hmat M n k) (l3 x ++ beta) = vdot (mvmul M x) x + k * sumsq beta.
Proof.
  intros L. unfold quad, Hmat. rewrite map_app.
  assert (E1 : map (fun r => rdot r (l3 x ++ beta)) (map (fun r => r ++ repeat 0 n) (m_rows M)) = l3 (mvmul M x)).
  { unfold m_rows. cbn [map]. rewrite !rdot_app by reflexivity. rewrite !rdot_repeat0, !rdot_l3, !Rplus_0_r. reflexivity. }
  rewrite E1, <- skipn_map, identity_mul by (rewrite app_length; cbn; lia).
  unfold l3 at 2. cbn [app map skipn]. rewrite rdot_app by reflexivity. rewrite rdot_l3, rdot_scal_l. reflexivity.
Qed.
Lemma lin_g v n x beta : rdot (l3 v ++ repeat 0 n) (l3 x ++ beta) = vdot v x.
Proof. rewrite rdot_app by reflexivity. rewrite rdot_l3, rdot_repeat0. lra. Qed.

Lemma Hmat_len M n k : length (Hmat M n k) = (3 + n)%nat.
Proof. unfold Hmat. rewrite app_length, map_length, skipn_length, identity_len. cbn [m_rows length]. lia. Qed.
Lemma Hmat_wf M n k : Forall (fun r => length r = (3 + n)%nat) (Hmat M n k).
Proof.
  unfold Hmat. apply Forall_app; split.
  - cbn [m_rows map]. repeat constructor; rewrite app_length, repeat_length; reflexivity.
  - pose proof (identity_wf (3 + n) k) as H. rewrite <- (firstn_skipn 3 (identity (3 + n) k)) in H.
    apply Forall_app in H. apply H.
Qed.

(** C22, distance *)
Lemma c22_dist pData Ts T ta n : costFunction pData = DISTANCE_TRAVELED -> exists H g K,
  genCostFunction pData Ts T ta (3 + n) = Ok (H, g) /\
  length H = (3 + n)%nat /\ Forall (fun r => length r = (3 + n)%nat) H /\ length g = (3 + n)%nat /\
  forall x beta, length beta = n ->
    quad H (l3 x ++ beta) + 2 * rdot g (l3 x ++ beta) + K =
    vnorm2 (vsub x (mid_of pData)) + 1 / 1000000 * sumsq beta.
Proof.
  intros HC. set (m := vdivs (vadd (c0 pData) (c1 pData)) 2).
  exists (Hmat mid n (1 / 1000000)), (l3 (vopp m) ++ repeat 0 n), (vnorm2 m). split; [|split; [|split; [|split]]].
  - unfold genCostFunction, cost_genCostFunction. rewrite HC. cbn [Z.eqb ACCELERATION DISTANCE_TRAVELED Pos.eqb].
    apply set_Hg_ok.
  - apply Hmat_len.
  - apply Hmat_wf.
  - rewrite app_length, repeat_length. reflexivity.
  - intros x beta L. rewrite quad_Hmat by exact L. rewrite lin_g. unfold m, mid_of, mid, mvmul, vnorm2, vdot, vdivs, vopp, vsub, vadd, vscal.
    cbn [vx vy vz row0 row1 row2]. field.
Qed.

Lemma sum_acc_ok x : forall ws M v M' v', sum_acc ws M v = (M', v') ->
  vdot (mvmul M' x) x + 2 * vdot v' x + sum_list (map (fun w => vnorm2 (snd w)) ws) =
  vdot (mvmul M x) x + 2 * vdot v x + sum_list (map (fun w => vnorm2 (ev_coefs w x)) ws).
Proof.
  induction ws as [|w ws IH]; intros M v M' v' E; cbn in E; [injection E as <- <-; cbn; lra|].
  apply IH in E. cbn [map sum_list fold_right]. unfold sum_list in *.
  assert (A : vdot (mvmul (madd M (mscal (fst w) (mscal (fst w) mid))) x) x + 2 * vdot (vadd v (vscal (fst w) (snd w))) x
    + vnorm2 (snd w) = vdot (mvmul M x) x + 2 * vdot v x + vnorm2 (ev_coefs w x)).
  { unfold ev_coefs, mid, mvmul, madd, mscal, vnorm2, vdot, vsub, vadd, vscal. cbn [vx vy vz row0 row1 row2]. ring. }
  lra.
Qed.

Lemma total_posd pData Ts : well_posed pData Ts -> 0 < total Ts.
Proof.
  intros WP. pose proof (wp_ne _ _ WP) as NE. pose proof (wp_pos _ _ WP) as HF. clear WP.
  destruct HF as [|a l Ha HF]; [congruence|]. cbn.
  assert (0 <= total l) by (clear NE; induction HF; cbn; lra). lra.
Qed.
Lemma disc_acc_ok pData Ts ta : well_posed pData Ts -> times_of Ts ta -> exists ws,
  computeDiscretizedAccelerationWaypoints pData (sumR Ts) ta = Ok ws /\
  forall x cv, com_curve pData (total Ts) x = Ok cv ->
    Forall2 (fun tp w => is_deriv_n 2 (cv_fun cv) (fst tp) (ev_coefs w x)) ta ws.
Proof.
  intros WP HT. pose proof WP as (Hf & Hcap & _). pose proof (total_posd pData Ts WP) as TP.
  destruct (com_curve_total pData (total Ts) vzero Hf Hcap TP) as [cv0 Hcv0].
  pose proof Hcv0 as Hcv0'. unfold com_curve in Hcv0'. destruct (computeConstantWaypoints pData (total Ts)) as [pi| |] eqn:E; try discriminate.
  cbn [bind] in Hcv0'.
  exists (map (fun tp => aof pData Ts pi (fst tp)) ta). split.
  - unfold computeDiscretizedAccelerationWaypoints. rewrite total_sumR, E. cbn [bind]. apply mapM_ok. intros tp Hin.
    unfold times_of in HT. rewrite Forall_forall in HT. specialize (HT tp Hin).
    assert (fst tp / total Ts <= 1). { apply Rmult_le_reg_r with (total Ts); [lra|]. unfold Rdiv. rewrite Rmult_assoc, Rinv_l; lra. }
    rewrite Rmin_left by assumption. unfold aof.
    destruct (c03_ok pData (total Ts) vzero pi cv0 (fst tp / total Ts) Hf E Hcv0') as (co & -> & _). reflexivity.
  - intros x cv Hcv. apply forall2_nth. split; [now rewrite map_length|]. intros i tp w Hi Hw. rewrite nth_error_map, Hi in Hw.
    injection Hw as <-. unfold com_curve in Hcv. rewrite E in Hcv. cbn [bind] in Hcv.
    destruct (c03_ok pData (total Ts) x pi cv (fst tp / total Ts) Hf E Hcv) as (co & Hco & Hev). unfold aof. rewrite Hco. cbn [okd].
    replace (fst tp / total Ts * total Ts) with (fst tp) in Hev by (field; lra). exact Hev.
Qed.

Lemma c22_acc pData Ts ta n : well_posed pData Ts -> times_of Ts ta -> costFunction pData = ACCELERATION -> exists H g K,
  genCostFunction pData Ts (total Ts) ta (3 + n) = Ok (H, g) /\
  length H = (3 + n)%nat /\ Forall (fun r => length r = (3 + n)%nat) H /\ length g = (3 + n)%nat /\
  forall x cv beta, com_curve pData (total Ts) x = Ok cv -> length beta = n -> exists s,
    sum_acc2 (cv_fun cv) ta s /\
    quad H (l3 x ++ beta) + 2 * rdot g (l3 x ++ beta) + K = s + 1 / 1000000 * sumsq beta.
Proof.
  intros WP HT HC. destruct (disc_acc_ok pData Ts ta WP HT) as (ws & Ews & Hws).
  destruct (sum_acc ws mzero vzero) as [M v] eqn:ES.
  exists (Hmat M n (1 / 1000000)), (l3 v ++ repeat 0 n), (sum_list (map (fun w => vnorm2 (snd w)) ws)).
  split; [|split; [|split; [|split]]].
  - unfold genCostFunction, cost_genCostFunction. rewrite HC. cbn [Z.eqb ACCELERATION Pos.eqb].
    unfold computeCostMinAcceleration. rewrite Ews. cbn [bind]. rewrite ES. apply set_Hg_ok.
  - apply Hmat_len.
  - apply Hmat_wf.
  - rewrite app_length, repeat_length. reflexivity.
  - intros x cv beta Hcv L. exists (sum_list (map vnorm2 (map (fun w => ev_coefs w x) ws))). split.
    + exists (map (fun w => ev_coefs w x) ws). split; [|reflexivity]. specialize (Hws x cv Hcv).
      rewrite <- (map_id ta). apply forall2_map. exact Hws.
    + rewrite quad_Hmat by exact L. rewrite lin_g, map_map. pose proof (sum_acc_ok x ws mzero vzero M v ES) as HS.
      replace (vdot (mvmul mzero x) x) with 0 in HS by (unfold mvmul, mzero, vzero, vdot; cbn; ring).
      replace (vdot vzero x) with 0 in HS by (unfold vzero, vdot; cbn; ring). lra.
Qed.

Lemma c22_unknown pData Ts T ta n : costFunction pData <> ACCELERATION -> costFunction pData <> DISTANCE_TRAVELED ->
  costFunction pData <> TARGET_END_VELOCITY -> genCostFunction pData Ts T ta n = Throw.
Proof.
  intros H1 H2 H3. unfold genCostFunction, cost_genCostFunction.
  destruct (Z.eqb_spec (costFunction pData) ACCELERATION); [tauto|].
  destruct (Z.eqb_spec (costFunction pData) DISTANCE_TRAVELED); [tauto|].
  destruct (Z.eqb_spec (costFunction pData) TARGET_END_VELOCITY); [tauto|]. reflexivity.
Qed.

(** C23 *)
Lemma c23_ok pData Ts T ta n : costFunction pData = TARGET_END_VELOCITY -> genCostFunction pData Ts T ta n = Throw.
Proof.
  intros HC. unfold genCostFunction, cost_genCostFunction. rewrite HC. cbn [Z.eqb ACCELERATION DISTANCE_TRAVELED TARGET_END_VELOCITY Pos.eqb].
  unfold computeCostEndVelocity. destruct (Z.eqb_spec (flag_of pData) 0) as [E|E]; cbn [negb andb Z.eqb END_VEL]; [|reflexivity].
  unfold computeFinalVelocityPoint. rewrite E. reflexivity.
Qed.

Lemma fixed_times_of Ts p : (1 <= p)%nat -> Ts <> [] -> Forall (Rlt 0) Ts -> times_of Ts (computeDiscretizedTimeFixed Ts p).
Proof.
  intros Hp Hne HF. rewrite (fixed_tagged Ts p Hp Hne). apply Forall_forall. intros tp Hin.
  apply (in_map fst) in Hin. unfold tagged in Hin. rewrite tagged_fst in Hin. apply in_concat in Hin.
  destruct Hin as (b & Hb & Ht). eapply fixed_times; eauto.
Qed.
Lemma step_times_of Ts dt ta : 0 < dt -> Forall (Rlt 0) Ts -> computeDiscretizedTime Ts dt = Ok ta -> times_of Ts ta.
Proof.
  intros Hdt HF E. destruct (c11_ok Ts dt Hdt HF) as (bs & Et & HL & Hbs & _). rewrite E in Et. injection Et as ->.
  apply Forall_forall. intros tp Hin. apply (in_map fst) in Hin. unfold tagged in Hin. rewrite tagged_fst in Hin.
  apply in_concat in Hin. destruct Hin as (b & Hb & Ht). eapply step_times; eauto.
Qed.
