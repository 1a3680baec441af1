(** The end-effector planner with the bundled QP solver: the constraints and the plan. *)
From Coq Require Import Lia Lra Psatz.
From Verif Require Import ProofQp ProofQp4  Vec SpecBezier ModelData ModelUtils ModelRows ModelWaypointsJerk ModelDispatch ModelCont ModelSolver ModelTraj ModelEff ModelQp
  Spec0Step SpecCom SpecWp SpecSolver SpecTraj SpecEff SpecEnd3 SpecEnd4 ProofBezier ProofCurve ProofCom ProofWp ProofWaypoints ProofWaypoints2 ProofSolver ProofTraj ProofTraj2 Proof0Step2
  ProofEff ProofEff2 ProofEff3 ProofEff4 ProofEff5 ProofEff6 ProofEff7 ProofEff8 ProofEff11 ProofEff13 ProofEff14 ProofEnd4 ProofQp ProofQp3 ProofQp16 ProofEnd11 SpecQp.
Import ListNotations.
Open Scope R_scope.

(** * Norms of the rows *)
Definition slope (B : R) (w : wpn) : Prop := forall r, In r (wpn_rows w) -> rdot r r <= B.
Ltac slopes := unfold Rdiv;
  match goal with |- Forall (slope (_ * (?u * ?u))) _ => let a := fresh "a" in let P := fresh "P" in pose proof (Rle_0_sqr u) as P; unfold Rsqr in P; revert P; generalize u; intros a P end;
  repeat (apply Forall_cons; [let r := fresh "r" in let Hr := fresh "Hr" in intros r Hr; unfold wpn_rows in Hr; cbn [wn_blocks map concat In] in Hr;
    repeat (destruct Hr as [<-|Hr]; [cbn [app l3 row0 row1 row2 mscal mid mzero vscal vzero vx vy vz]; unfold rdot; cbn [map combine fold_right fst snd]; lra|]); destruct Hr|]); apply Forall_nil.
Lemma wps_slopes pData T xs pi pts : 0 < T -> eff_shape pData T xs pi pts -> let s := eff_slope (flag_of pData) in
  exists wa wv wj, computeAccelerationWaypoints pData T pi = Ok wa /\ computeVelocityWaypoints pData T pi = Ok wv /\
    computeJerkWaypoints pData T pi = Ok wj /\
    Forall (slope (s * s * (/ (T * T) * / (T * T)))) wa /\ Forall (slope (s * s * (/ T * / T))) wv /\
    Forall (slope (s * s * (/ (T * T * T) * / (T * T * T)))) wj /\
    (6 * (length wa + length wv + length wj) + dimVar pData <= eff_rowcount (flag_of pData))%nat.
Proof.
  intros HT Hs.
  eff_cases Hs; unfold computeAccelerationWaypoints, computeVelocityWaypoints, computeJerkWaypoints, eff_slope, eff_rowcount, dimVar; rewrite E; simpl Z.eqb; cbv iota zeta;
    eexists _, _, _; (split; [reflexivity|]); (split; [reflexivity|]); (split; [reflexivity|]).
  all: split; [|split; [|split; [|apply Nat.leb_le; reflexivity]]]; slopes.
Qed.

(** * The rows *)
Lemma loop_in s b ws r : In r (loop_rows s b ws) -> exists w r0, In w ws /\ In r0 (wpn_rows w) /\ fst r = map (Rmult s) r0.
Proof.
  unfold loop_rows. intros H. apply in_concat in H. destruct H as (l & Hl & Hr). apply in_map_iff in Hl. destruct Hl as (w & <- & Hw).
  unfold deps in Hw. apply filter_In in Hw. destruct Hw as [Hw _]. unfold eff_rows in Hr. destruct r as [r b0]. apply in_combine_l in Hr. apply in_map_iff in Hr. destruct Hr as (r0 & <- & Hr).
  exists w, r0. auto.
Qed.
Lemma rdot_scal_sq s r : rdot (map (Rmult s) r) (map (Rmult s) r) = s * s * rdot r r.
Proof. induction r as [|a r IH]; cbn; [ring|]. rewrite IH. ring. Qed.
Lemma identity_row_len n j k : length (identity_row n j k) = n.
Proof. unfold identity_row. rewrite map_length, seq_length. reflexivity. Qed.
Lemma identity_row_nth n j k : (j < n)%nat -> nth j (identity_row n j k) 0 = k.
Proof.
  intros Hj. unfold identity_row. rewrite (nth_indep _ 0 (if Nat.eqb j 0 then k else 0)) by (rewrite map_length, seq_length; exact Hj).
  rewrite (map_nth (fun i => if Nat.eqb j i then k else 0)), seq_nth by exact Hj. rewrite Nat.eqb_refl. reflexivity.
Qed.
Lemma floor_in pData n r : In r (z_floor pData n) -> rdot (fst r) (fst r) <= 1.
Proof.
  intros H. unfold z_floor in H. apply in_map_iff in H. destruct H as (j & <- & Hj). apply in_seq in Hj. destruct (Nat.eqb _ _); cbn [fst].
  - rewrite identity_row_dot by (rewrite ?identity_row_len; lia). rewrite identity_row_nth by lia. lra.
  - rewrite rdot_repeat0. lra.
Qed.

Section Eff.
  Variables (pData : problem) (T : R) (pi : list vec3) (M : list (list R * R)).
  Hypothesis Hin : In (flag_of pData) effector_flags.
  Hypothesis HT : 0 < T.
  Hypothesis Hc : computeConstantWaypoints pData T = Ok pi.
  Hypothesis HM : computeEndEffectorConstraints pData T pi = Ok M.
  Let nf := eff_free (flag_of pData).
  Let s := eff_slope (flag_of pData).

  Lemma matrix_shape : exists wa wv wj, computeAccelerationWaypoints pData T pi = Ok wa /\ computeVelocityWaypoints pData T pi = Ok wv /\
    computeJerkWaypoints pData T pi = Ok wj /\ blocks_ok pData (wa ++ wv ++ wj) /\ M = eff_matrix pData wa wv eff_bounds eff_bounds wj eff_bounds /\
    Forall (slope (s * s * (/ (T * T) * / (T * T)))) wa /\ Forall (slope (s * s * (/ T * / T))) wv /\
    Forall (slope (s * s * (/ (T * T * T) * / (T * T * T)))) wj /\
    (6 * (length wa + length wv + length wj) + dimVar pData <= eff_rowcount (flag_of pData))%nat.
  Proof.
    assert (HT0 : T <> 0) by lra.
    destruct (eff_shape_total pData T (repeat vzero nf) Hin (repeat_length _ _)) as (pi' & pts & Hc' & Hs). rewrite Hc in Hc'. injection Hc' as <-.
    destruct (eff_constraints pData T _ pi pts HT0 Hs) as (wa & wv & wj & M' & Ha & Hv & Hj & Hb & HM' & HC). rewrite HM in HM'. injection HM' as <-.
    destruct (wps_slopes pData T _ pi pts HT Hs) as (wa' & wv' & wj' & Ha' & Hv' & Hj' & Sa & Sv & Sj & HL).
    rewrite Ha in Ha'. injection Ha' as <-. rewrite Hv in Hv'. injection Hv' as <-. rewrite Hj in Hj'. injection Hj' as <-.
    rewrite (constraints_eq _ _ _ _ _ _ _ Hb) in HC. injection HC as <-.
    exists wa, wv, wj. repeat (split; [assumption || reflexivity|]). exact HL.
  Qed.
  Lemma matrix_rows : (length M <= eff_rowcount (flag_of pData))%nat.
  Proof.
    destruct matrix_shape as (wa & wv & wj & _ & _ & _ & _ & -> & _ & _ & _ & HL). unfold eff_matrix. rewrite !app_length, !loop_rows_len, z_floor_len.
    assert (D : forall ws, (length (deps ws) <= length ws)%nat).
    { intros ws. unfold deps. induction ws as [|w ws IH]; [apply Nat.le_refl|]. cbn [filter]. destruct (dependsb w); cbn [length]; lia. }
    pose proof (D wa). pose proof (D wv). pose proof (D wj). lia.
  Qed.
  Lemma slope_pos : 1 <= s. Proof. unfold s, eff_slope. destruct (Z.eqb _ _); [lra|]. destruct (Z.eqb _ _); lra. Qed.
  Lemma matrix_scale wd : eff_on_scale (flag_of pData) T wd -> forall r, In r M ->
    eps52 * rdot (fst r) (fst r) < ((1 - wd) * eff_convexity (flag_of pData)) * ((1 - wd) * eff_convexity (flag_of pData)).
  Proof.
    intros [H1 H3] r Hr. fold s in H1, H3. set (lam := (1 - wd) * _) in *. pose proof eps_pos as EP. pose proof slope_pos as SP.
    assert (SS : 0 < s * s) by nra. set (u := / T). assert (Hu : 0 < u) by (apply Rinv_0_lt_compat; exact HT).
    assert (E2 : / (T * T) = u * u) by (unfold u; field; lra). assert (E3 : / (T * T * T) = u * u * u) by (unfold u; field; lra).
    replace (s / (T * T * T) * (s / (T * T * T))) with (s * s * ((u * u * u) * (u * u * u))) in H3 by (unfold Rdiv; rewrite E3; ring).
    assert (G : forall k, 0 <= k -> (k <= 1 \/ k <= (u * u * u) * (u * u * u)) -> eps52 * (s * s * k) < lam * lam).
    { intros k Hk [L|L].
      - eapply Rle_lt_trans; [|exact H1]. apply Rmult_le_compat_l; [lra|]. nra.
      - eapply Rle_lt_trans; [|exact H3]. apply Rmult_le_compat_l; [lra|]. apply Rmult_le_compat_l; lra. }
    assert (LO : forall sg b ws B, (sg = 1 \/ sg = -1) -> Forall (slope B) ws -> eps52 * B < lam * lam -> In r (loop_rows sg b ws) -> eps52 * rdot (fst r) (fst r) < lam * lam).
    { intros sg b ws B Hsg HF HB Hin'. apply loop_in in Hin'. destruct Hin' as (w & r0 & Hw & Hr0 & ->). rewrite rdot_scal_sq.
      rewrite Forall_forall in HF. specialize (HF w Hw r0 Hr0). eapply Rle_lt_trans; [|exact HB]. apply Rmult_le_compat_l; [lra|]. destruct Hsg as [-> | ->]; lra. }
    assert (U1 : u * u <= 1 \/ u * u <= (u * u * u) * (u * u * u)).
    { destruct (Rle_dec u 1) as [L|L]; [left; nra|right]. assert (1 <= u) by lra. assert (1 <= u * u) by nra.
      replace (u * u * u * (u * u * u)) with (u * u * ((u * u) * (u * u))) by ring. assert (1 <= (u * u) * (u * u)) by nra. nra. }
    assert (U2 : u * u * (u * u) <= 1 \/ u * u * (u * u) <= (u * u * u) * (u * u * u)).
    { destruct (Rle_dec u 1) as [L|L].
      - left. assert (0 <= u * u <= 1) by nra. nra.
      - right. assert (1 <= u * u) by nra. replace (u * u * u * (u * u * u)) with ((u * u * (u * u)) * (u * u)) by ring. assert (0 <= u * u * (u * u)) by nra. nra. }
    assert (BA : eps52 * (s * s * (/ (T * T) * / (T * T))) < lam * lam) by (rewrite E2; apply G; [nra|exact U2]).
    assert (BV : eps52 * (s * s * (/ T * / T)) < lam * lam) by (fold u; apply G; [nra|exact U1]).
    assert (BJ : eps52 * (s * s * (/ (T * T * T) * / (T * T * T))) < lam * lam) by (rewrite E3; exact H3).
    destruct matrix_shape as (wa & wv & wj & _ & _ & _ & _ & EM & Sa & Sv & Sj & _). rewrite EM in Hr. unfold eff_matrix in Hr.
    repeat (apply in_app_or in Hr; destruct Hr as [Hr|Hr]).
    - exact (LO 1 _ wa _ ltac:(lra) Sa BA Hr).
    - exact (LO (-1) _ wa _ ltac:(lra) Sa BA Hr).
    - exact (LO 1 _ wv _ ltac:(lra) Sv BV Hr).
    - exact (LO (-1) _ wv _ ltac:(lra) Sv BV Hr).
    - exact (LO 1 _ wj _ ltac:(lra) Sj BJ Hr).
    - exact (LO (-1) _ wj _ ltac:(lra) Sj BJ Hr).
    - apply floor_in in Hr. eapply Rle_lt_trans; [|exact H1]. apply Rmult_le_compat_l; [lra|]. nra.
  Qed.

  (** * Meaning up to a tolerance *)
  Definition near (tau : R) (N : list (list R * R)) (v : list R) : Prop := forall r, In r N -> rdot (fst r) v <= snd r + tau.
  Definition widen (tau : R) (b : vec3) : vec3 := vadd b (V3 tau tau tau).
  Lemma near_app tau A B v : near tau (A ++ B) v -> near tau A v /\ near tau B v.
  Proof. intros H. split; intros r Hr; apply H, in_or_app; auto. Qed.
  Lemma near_loop tau sg b ws v : near tau (loop_rows sg b ws) v -> satX (loop_rows sg (widen tau b) ws) v.
  Proof.
    unfold loop_rows. generalize (deps ws). clear. induction l as [|w l IH]; [intros _; apply Forall_nil|].
    cbn [map concat]. intros H. apply near_app in H. destruct H as [Hw Hl]. apply satX_app. split; [|exact (IH Hl)].
    revert Hw. unfold near, eff_rows, wpn_rows, satX. cbn [map combine l3]. intros Hw.
    repeat apply Forall_cons; [| | |apply Forall_nil]; cbn [fst snd widen vadd vsub vx vy vz].
    - specialize (Hw _ (or_introl eq_refl)). cbn [fst snd vsub vx] in Hw. lra.
    - specialize (Hw _ (or_intror (or_introl eq_refl))). cbn [fst snd vsub vy] in Hw. lra.
    - specialize (Hw _ (or_intror (or_intror (or_introl eq_refl)))). cbn [fst snd vsub vz] in Hw. lra.
  Qed.
  Lemma near_floor tau xs : (3 * length xs = dimVar pData)%nat -> near tau (z_floor pData (dimVar pData)) (flat xs) ->
    Forall (fun x => Rmin (vz (c0 pData)) (vz (c1 pData)) - tau <= vz x) xs.
  Proof.
    intros Hx H. apply Forall_forall. intros x Hxx. destruct (In_nth xs x vzero Hxx) as (i & Hi & <-).
    rewrite <- flat_nth_z by exact Hi.
    assert (Hin' : In (3 * i + 2)%nat (seq 0 (dimVar pData))) by (apply in_seq; lia).
    pose proof (H _ (in_map _ _ _ Hin')) as B. cbn beta in B.
    replace ((3 * i + 2) mod 3)%nat with 2%nat in B by (rewrite Nat.mul_comm, Nat.add_comm, Nat.mod_add by lia; reflexivity).
    cbn [Nat.eqb fst snd] in B. rewrite identity_row_dot in B by (rewrite ?flat_len; lia). lra.
  Qed.
  Lemma le3_within_near tau v : 0 <= tau -> le3 (vopp (widen tau eff_bounds)) v /\ le3 v (widen tau eff_bounds) -> within (10000 + tau) v.
  Proof.
    intros Ht [(H1 & H2 & H3) (K1 & K2 & K3)]. cbn [vx vy vz vopp eff_bounds widen vadd] in *.
    split; [|split]; apply Rabs_le; lra.
  Qed.
  Lemma within_more B tau v : 0 <= tau -> within B v -> within (B + tau) v.
  Proof. intros Ht (A & C & D). split; [|split]; lra. Qed.
  Lemma near_cover tau ws xs fixed : 0 <= tau -> Forall (fun w => length (wn_blocks w) = length xs) ws ->
    satX (loop_rows 1 (widen tau eff_bounds) ws) (flat xs) -> satX (loop_rows (-1) (widen tau eff_bounds) ws) (flat xs) ->
    Forall (within 10000) fixed -> Forall (fun w => dependsb w = true \/ In (ev_wpn w xs) fixed) ws ->
    Forall (within (10000 + tau)) (at_free xs ws).
  Proof.
    intros Ht HL S1 S2 HF HC. apply loop_rows_sat in S1; [|exact HL]. apply loop_rows_sat in S2; [|exact HL].
    unfold at_free. rewrite Forall_map. rewrite !Forall_forall in *. intros w Hw.
    destruct (HC w Hw) as [Hd|Hi]; [|apply within_more; [exact Ht|apply HF; exact Hi]].
    apply le3_within_near; [exact Ht|]. pose proof (S1 w Hw Hd) as P. pose proof (S2 w Hw Hd) as Q.
    unfold le3 in *. cbn [vx vy vz vscal vopp widen vadd eff_bounds] in *. decompose [and] P. decompose [and] Q. repeat split; lra.
  Qed.
  Lemma near_meaning tau xs : 0 <= tau -> T <= 1000000 -> length xs = nf ->
    near tau M (flat xs) ->
    exists cv, eff_curve pData T xs = Ok cv /\
      (boundary_within 10000 pData T -> forall t, 0 <= t <= T ->
         exists v j, is_deriv_n 1 (cv_fun cv) t v /\ within (10000 + tau) v /\ is_deriv_n 3 (cv_fun cv) t j /\ within (10000 + tau) j) /\
      (boundary_above (Rmin (vz (c0 pData)) (vz (c1 pData))) pData T -> forall t, 0 <= t <= T ->
         Rmin (vz (c0 pData)) (vz (c1 pData)) - tau <= vz (cv_fun cv t)).
  Proof.
    intros Ht HT6 Hl HN. assert (HT0 : T <> 0) by lra.
    destruct (eff_curve_ok pData T xs Hin Hl HT) as (pi' & pts & Hc' & Hs & He). rewrite Hc in Hc'. injection Hc' as <-.
    exists (BCurve pts T). split; [exact He|].
    destruct matrix_shape as (wa & wv & wj & Ha & Hv & Hj & Hb & EM & _). rewrite EM in HN. unfold eff_matrix in HN.
    assert (DX := eff_dim _ _ Hin Hl).
    apply near_app in HN. destruct HN as [_ HN]. apply near_app in HN. destruct HN as [_ HN]. apply near_app in HN. destruct HN as [V1 HN].
    apply near_app in HN. destruct HN as [V2 HN]. apply near_app in HN. destruct HN as [J1 HN]. apply near_app in HN. destruct HN as [J2 HZ].
    apply near_loop in V1, V2, J1, J2. apply near_floor in HZ; [|exact DX].
    unfold blocks_ok in Hb. rewrite !Forall_app in Hb. destruct Hb as (_ & Bv & Bj).
    assert (HB : forall ws, Forall (fun w => (3 * length (wn_blocks w) = dimVar pData)%nat) ws -> Forall (fun w => length (wn_blocks w) = length xs) ws).
    { intros ws H. eapply Forall_impl; [|exact H]. cbn beta. intros; lia. }
    destruct (shape_hodo_ne _ _ _ _ _ Hs) as (N1 & N3 & N0).
    split.
    - intros (B1 & B2 & B3 & B4).
      destruct (vel_points pData T xs pi pts HT0 Hs) as (wv' & Hv' & Ev). rewrite Hv in Hv'. injection Hv' as <-.
      destruct (jerk_points pData T xs pi pts HT0 Hs) as (wj' & Hj' & Ej). rewrite Hj in Hj'. injection Hj' as <-.
      destruct (vel_cover pData T xs pi pts HT HT6 Hs) as (wv' & Hv' & Cv). rewrite Hv in Hv'. injection Hv' as <-.
      destruct (jerk_cover pData T xs pi pts HT HT6 Hs) as (wj' & Hj' & Cj). rewrite Hj in Hj'. injection Hj' as <-.
      assert (Fv : Forall (within (10000 + tau)) (hodo_n 1 T pts)).
      { rewrite <- Ev. eapply near_cover; [exact Ht|exact (HB _ Bv)|exact V1|exact V2| |exact Cv]. unfold vel_fixed. rewrite Forall_app. split; assumption. }
      assert (Fj : Forall (within (10000 + tau)) (hodo_n 3 T pts)).
      { rewrite <- Ej. eapply near_cover; [exact Ht|exact (HB _ Bj)|exact J1|exact J2| |exact Cj]. apply Forall_cons; [exact B3|]. apply Forall_cons; [exact B4|apply Forall_nil]. }
      intros t Ht'. exists (curve (hodo_n 1 T pts) T t), (curve (hodo_n 3 T pts) T t). unfold cv_fun. cbn [bc_pts bc_T].
      split; [apply curve_is_deriv_n|]. split; [apply curve_within; assumption|].
      split; [apply curve_is_deriv_n|apply curve_within; assumption].
    - intros [B1 B2] t Ht'. unfold cv_fun. cbn [bc_pts bc_T]. apply curve_above; try assumption.
      rewrite (eff_pts _ _ _ _ _ HT0 Hs). rewrite !Forall_app. split; [|split; [exact HZ|]].
      + eapply Forall_impl; [|exact B1]. cbn beta. intros; lra.
      + rewrite Forall_forall in *. intros p Hp. apply in_rev in Hp. specialize (B2 p Hp). lra.
  Qed.
End Eff.

(** * Minimum without constraints *)
Lemma objective_step q x z t : symmetric q ->
  objective q (fun i => x i + t * z i) = objective q x + t * dot (e_n q) z (fun i => hmul q x i + e_g q i) + 1 / 2 * (t * t) * dot (e_n q) z (hmul q z).
Proof.
  intros S. unfold objective. set (n := e_n q).
  assert (E1 : dot n (fun i => x i + t * z i) (hmul q (fun i => x i + t * z i)) = dot n x (hmul q x) + 2 * t * dot n z (hmul q x) + t * t * dot n z (hmul q z)).
  { rewrite (dot_ext n (fun i => x i + t * z i) (fun i => x i + t * z i) (hmul q (fun i => x i + t * z i)) (fun i => hmul q x i + t * hmul q z i) (fun i _ => eq_refl) (fun i _ => hmul_lin q x z t i)).
    rewrite dot_lin. rewrite (dot_sym n (fun i => x i + t * z i)), dot_lin. rewrite (dot_sym n (fun i => x i + t * z i)), dot_lin.
    rewrite (dot_sym n (hmul q x) x), (dot_sym n (hmul q x) z), (dot_sym n (hmul q z) x), (dot_sym n (hmul q z) z).
    unfold n. rewrite (hmul_sym q x z S). ring. }
  assert (E3 : dot n z (fun i => hmul q x i + e_g q i) = dot n z (hmul q x) + dot n z (e_g q)).
  { rewrite (dot_ext n z z _ (fun i => hmul q x i + 1 * e_g q i)) by (intros; try reflexivity; ring). rewrite dot_lin. ring. }
  rewrite E1, dot_lin, E3, (dot_sym n (e_g q) z). field.
Qed.
Lemma best_gradient q x : symmetric q -> (forall y, objective q x <= objective q y) -> forall i, (i < e_n q)%nat -> hmul q x i + e_g q i = 0.
Proof.
  intros S HB. set (n := e_n q). set (G := fun i => hmul q x i + e_g q i). set (K := dot n G (hmul q G)).
  assert (Z : dot n G G = 0).
  { apply Rle_antisym; [|apply sumf_sq_nonneg]. apply le_epsilon. intros e He. rewrite Rplus_0_l.
    set (t := e / (1 + Rabs K)). assert (HK : 0 < 1 + Rabs K) by (pose proof (Rabs_pos K); lra).
    assert (Ht : 0 < t) by (apply Rdiv_lt_0_compat; assumption).
    pose proof (HB (fun i => x i + (- t) * G i)) as B. rewrite (objective_step q x G (- t) S) in B. fold n G in B. fold K in B.
    assert (L : dot n G G <= 1 / 2 * t * K) by (apply Rmult_le_reg_l with t; [exact Ht|]; lra).
    assert (L2 : t * K <= e).
    { apply Rle_trans with (t * (1 + Rabs K)); [apply Rmult_le_compat_l; [lra|]; pose proof (Rle_abs K); lra|]. unfold t, Rdiv. rewrite Rmult_assoc, Rinv_l by lra. lra. }
    lra. }
  intros i Hi. exact (sumf_sq_zero n G Z i Hi).
Qed.

(** * The plan *)
Section Plan.
  Variables (wg : bool) (mem : qst) (glpk : lp -> outcome (Z * R * list R)) (init : nat -> list R).
  Variables (pData : problem) (path : R -> outcome vec3) (p : R -> vec3) (T wd : R).
  Hypothesis HI : forall n, length (init n) = n.
  Hypothesis Hin : In (flag_of pData) effector_flags.
  Hypothesis HT : 0 < T.
  Hypothesis Hp : forall s, 0 <= s <= 1 -> path s = Ok (p s).
  Hypothesis Hw : 0 <= wd <= 1.
  Let nf := eff_free (flag_of pData).
  Let lam := (1 - wd) * eff_convexity (flag_of pData).

  Lemma eff_data : exists pi M H g, computeConstantWaypoints pData T = Ok pi /\ computeEndEffectorConstraints pData T pi = Ok M /\
    computeEndEffectorCost pData path T wd pi = Ok (H, g) /\ Forall (fun r => length (fst r) = (3 * nf)%nat) M /\
    (forall xs, length xs = nf -> xs <> repeat vzero (length xs) -> 0 < quad H (flat xs)).
  Proof.
    destruct (eff_constraints_total pData T Hin HT) as (pi & M & Hc & HM & HL).
    destruct (eff_cost pData T path p Hin HT Hp) as (pi' & a & b & Hc' & Ha & Hb & HW). rewrite Hc in Hc'. injection Hc' as <-.
    destruct (HW wd Hw) as (H & g & K & HE & PD & _). exists pi, M, H, g.
    split; [exact Hc|]. split; [exact HM|]. split; [exact HE|]. split; [|exact PD]. rewrite (dim_nf pData Hin) in HL. exact HL.
  Qed.

  Section Given.
    Variables (pi : list vec3) (M : list (list R * R)) (H : list (list R)) (g : list R).
    Hypothesis Hc : computeConstantWaypoints pData T = Ok pi.
    Hypothesis HM : computeEndEffectorConstraints pData T pi = Ok M.
    Hypothesis HE : computeEndEffectorCost pData path T wd pi = Ok (H, g).
    Let n := (3 * nf)%nat.

    Lemma g_facts : length g = n /\ square n H /\ symx n H /\ (forall v, length v = n -> lam * rdot v v <= quad H v) /\ trace n (mat_of H) <= INR n /\
      Forall (fun r => length (fst r) = n) M /\ (forall xs, length xs = nf -> xs <> repeat vzero (length xs) -> 0 < quad H (flat xs)).
    Proof.
      destruct eff_data as (pi' & M' & H' & g' & Hc' & HM' & HE' & HL & PD). rewrite Hc in Hc'. injection Hc' as <-. rewrite HM in HM'. injection HM' as <-. rewrite HE in HE'. injection HE' as <- <-.
      destruct (eff_hessian pData T path p pi wd H g Hin HT Hp Hw Hc HE) as (A & B & C & D & F).
      split; [exact A|]. split; [exact B|]. split; [exact C|]. split; [exact D|]. split; [apply trace_le; exact F|]. split; [exact HL|exact PD].
    Qed.
    Lemma eff_answer res : solve_noeq wg (solve_quadprog mem) glpk (MX n (map fst M)) (map snd M) H g (init n) SOLVER_QUADPROG = Ok res ->
      (rd_success res = true -> length (rd_x res) = n) ->
      exists r, solveEndEffector wg (solve_quadprog mem) glpk init pData path T wd = Ok r /\ rc_success r = rd_success res /\
        (rd_success res = true -> rc_x r = rd_x res /\ exists xs, length xs = nf /\ rd_x res = flat xs /\ eff_curve pData T xs = Ok (rc_c r) /\
           bc_T (rc_c r) = T /\ meets_all pData T (cv_fun (rc_c r))).
    Proof.
      intros ES HL. unfold solveEndEffector. rewrite Hc. cbn [bind]. rewrite HM. cbn [bind]. rewrite HE. cbn [bind fst snd].
      rewrite (dim_nf pData Hin). fold nf n. rewrite ES. cbn [bind]. destruct (rd_success res) eqn:ER.
      - destruct (unflat nf (rd_x res) (HL eq_refl)) as (xs & Lx & Ex). destruct (eff_boundary pData T xs Hin Lx HT) as (cv & Ecv & ET & _ & HB).
        pose proof Ecv as Ecv'. unfold eff_curve in Ecv'. rewrite <- Ex in Ecv'. rewrite Ecv'. cbn [bind]. eexists. split; [reflexivity|]. split; [reflexivity|]. intros _. cbn [rc_x rc_c].
        split; [reflexivity|]. exists xs. auto.
      - eexists. split; [reflexivity|]. split; [reflexivity|]. discriminate.
    Qed.
    Lemma sym_ok : forall i j, (i < n)%nat -> (j < n)%nat -> mat_of H i j = mat_of H j i.
    Proof. intros i j Hi Hj. destruct g_facts as (_ & _ & Y & _). exact (Y i j Hi Hj). Qed.

    (** without constraints *)
    Lemma eff_best ys : length ys = nf -> unconstrained_best H g (flat ys) -> satX M (flat ys) ->
      exists r, solveEndEffector wg (solve_quadprog mem) glpk init pData path T wd = Ok r /\ rc_success r = true /\ rc_x r = flat ys /\ eff_curve pData T ys = Ok (rc_c r).
    Proof.
      intros Ly HB HS. destruct g_facts as (Lg & [LH FH] & Y & _ & _ & HL & PD). set (q := eqp_of (ineq_qp H g M)).
      assert (En : e_n q = n) by exact Lg. assert (Lf : length (flat ys) = n) by (rewrite flat_len, Ly; reflexivity).
      assert (SY : symmetric q) by (intros i j Hi Hj; rewrite En in *; apply sym_ok; assumption).
      assert (CV : convex q).
      { split; [exact SY|]. intros v (i & Hi & Hv). rewrite En in *. change q with (eqp_of (pl H g M)). rewrite (pl_quad n H g M Lg LH FH).
        destruct (unflat nf (list_of n v) (list_of_len _ _)) as (xs & Lx & Ex). rewrite Ex. apply PD; [exact Lx|]. intros Z. apply Hv.
        rewrite <- (list_of_nth n v i Hi), Ex, Z, flat_zero. apply nth_repeat. }
      assert (G : forall i, (i < n)%nat -> hmul q (vec_of (flat ys)) i + e_g q i = 0).
      { intros i Hi. apply best_gradient; [exact SY| |rewrite En; exact Hi]. intros y.
        change q with (eqp_of (pl H g M)). rewrite !(pl_objective n H g M Lg LH FH), (list_of_vec (flat ys) n Lf).
        specialize (HB (list_of n y)). rewrite list_of_len, Lf in HB. specialize (HB eq_refl). lra. }
      destruct (solve_direct mem (ineq_qp H g M) (init n) (vec_of (flat ys)) CV eq_refl (pl_ineqs n H g M Lg LH HL (flat ys) Lf HS)) as (obj & ES).
      { intros i Hi. change (e_n (eqp_of (ineq_qp H g M))) with (e_n q) in Hi. rewrite En in Hi. apply G. exact Hi. }
      change (qp_g (ineq_qp H g M)) with g in ES. rewrite Lg, (list_of_vec (flat ys) n Lf) in ES.
      pose proof (pl_solve wg mem glpk n H g M (init n) _ _ _ (HI n) ES) as EP. rewrite Z.eqb_refl in EP.
      destruct (eff_answer _ EP) as (r & Er & Sr & Xr); [intros _; exact Lf|]. cbn [rd_success rd_x] in *. destruct (Xr eq_refl) as (E1 & xs & Lx & Ex & Ec & _).
      exists r. split; [exact Er|]. split; [exact Sr|]. split; [exact E1|]. unfold eff_curve in *. rewrite Ex. exact Ec.
    Qed.

    (** in general *)
    Hypothesis HS : eff_on_scale (flag_of pData) T wd.
    Let tau := eff_tol (flag_of pData) wd.
    Lemma lam_pos : 0 < lam /\ eps52 < lam.
    Proof.
      destruct HS as [H1 _]. pose proof eps_pos as EP. pose proof (slope_pos pData) as SP. destruct (hconv (flag_of pData)) as (_ & _ & CP).
      set (s := eff_slope (flag_of pData)) in *. cbv zeta in H1. fold lam in H1. assert (L0 : 0 <= lam) by (apply Rmult_le_pos; lra).
      assert (SS : 1 <= s * s) by nra. assert (EL : eps52 < lam * lam) by (eapply Rle_lt_trans; [|exact H1]; nra).
      assert (L1 : lam <= 1). { unfold lam, eff_convexity in *. destruct (Z.eqb _ _); [|destruct (Z.eqb _ _)]; nra. }
      split; nra.
    Qed.
    Lemma tau_ok : accuracy n (length M) (trace n (mat_of H)) lam <= tau /\ 0 <= tau.
    Proof.
      destruct lam_pos as [LP _]. pose proof eps_pos as EP. pose proof (matrix_rows pData T pi M Hin HT Hc HM) as MR. apply le_INR in MR.
      destruct g_facts as (_ & _ & _ & _ & TR & _). unfold tau, eff_tol, accuracy. fold nf n lam.
      assert (SQ : 0 < / sqrt lam) by (apply Rinv_0_lt_compat, sqrt_lt_R0; exact LP). unfold Rdiv.
      pose proof (pos_INR n) as Pn. pose proof (pos_INR (length M)) as Pm. pose proof (pos_INR (eff_rowcount (flag_of pData))) as Pr.
      split.
      - apply Rmult_le_compat_r; [lra|]. apply Rle_trans with (100 * INR n * INR (length M) * eps52 * INR n).
        + apply Rmult_le_compat_l; [|exact TR]. repeat apply Rmult_le_pos; lra.
        + apply Rmult_le_compat_r; [exact Pn|]. apply Rmult_le_compat_r; [lra|]. apply Rmult_le_compat_l; [|exact MR]. lra.
      - repeat apply Rmult_le_pos; lra.
    Qed.
    Lemma eff_solved : exists s st r, returns (eqp_of (ineq_qp H g M)) mem s st /\
      solveEndEffector wg (solve_quadprog mem) glpk init pData path T wd = Ok r /\ rc_success r = Z.eqb s EIQUADPROG_FAST_OPTIMAL /\
      (rc_success r = true -> exists xs, length xs = nf /\ rc_x r = flat xs /\ list_of n (q_x st) = flat xs /\ eff_curve pData T xs = Ok (rc_c r) /\
         bc_T (rc_c r) = T /\ meets_all pData T (cv_fun (rc_c r)) /\ near tau M (flat xs)).
    Proof.
      destruct g_facts as (Lg & [LH FH] & Y & HB & _ & HL & _). destruct lam_pos as [LP LE].
      destruct (pl_ok wg mem glpk n H g M lam Lg LH FH HL sym_ok HB LP LE (matrix_scale pData T pi M Hin HT Hc HM wd HS) (init n) (HI n)) as (s & st & ES & RT & HV).
      destruct (eff_answer _ ES) as (r & Er & Sr & Xr); [intros _; apply list_of_len|]. cbn [rd_success rd_x] in *.
      exists s, st, r. split; [exact RT|]. split; [exact Er|]. split; [exact Sr|]. rewrite Sr. intros EO. destruct (Xr EO) as (E1 & xs & Lx & Ex & Ec & ET & MA).
      exists xs. split; [exact Lx|]. split; [rewrite E1; exact Ex|]. split; [exact Ex|]. split; [exact Ec|]. split; [exact ET|]. split; [exact MA|].
      apply Z.eqb_eq in EO. intros row Hr. specialize (HV EO row Hr). rewrite Ex in HV. destruct tau_ok as [TO _]. lra.
    Qed.
  End Given.
End Plan.

Lemma c66_plan wg mem glpk init pData path (p : R -> vec3) T wd :
  (forall n, length (init n) = n) -> In (flag_of pData) effector_flags -> 0 < T -> T <= 1000000 ->
  (forall s, 0 <= s <= 1 -> path s = Ok (p s)) -> 0 <= wd <= 1 -> eff_on_scale (flag_of pData) T wd ->
  let tau := eff_tol (flag_of pData) wd in
  exists r, solveEndEffector wg (solve_quadprog mem) glpk init pData path T wd = Ok r /\
    (rc_success r = true -> exists xs, length xs = eff_free (flag_of pData) /\ rc_x r = flat xs /\ eff_curve pData T xs = Ok (rc_c r) /\
      bc_T (rc_c r) = T /\ meets_all pData T (cv_fun (rc_c r)) /\
      (boundary_within 10000 pData T -> forall t, 0 <= t <= T ->
         exists v j, is_deriv_n 1 (cv_fun (rc_c r)) t v /\ within (10000 + tau) v /\ is_deriv_n 3 (cv_fun (rc_c r)) t j /\ within (10000 + tau) j) /\
      (boundary_above (Rmin (vz (c0 pData)) (vz (c1 pData))) pData T -> forall t, 0 <= t <= T ->
         Rmin (vz (c0 pData)) (vz (c1 pData)) - tau <= vz (cv_fun (rc_c r) t))).
Proof.
  intros HI Hin HT HT6 Hp Hw HS tau.
  destruct (eff_data pData path p T wd Hin HT Hp Hw) as (pi & M & H & g & Hc & HM & HE & _).
  destruct (eff_solved wg mem glpk init pData path p T wd HI Hin HT Hp Hw pi M H g Hc HM HE HS) as (s & st & r & _ & Er & _ & HX).
  exists r. split; [exact Er|]. intros SU. destruct (HX SU) as (xs & Lx & E1 & _ & Ec & ET & MA & NR).
  destruct (tau_ok pData path p T wd Hin HT Hp Hw pi M H g Hc HM HE HS) as [_ TP].
  destruct (near_meaning pData T pi M Hin HT Hc HM tau xs TP HT6 Lx NR) as (cv & Ecv & BW & BA). rewrite Ec in Ecv. injection Ecv as <-.
  exists xs. auto 10.
Qed.

Lemma c67_best wg mem glpk init pData path (p : R -> vec3) T wd :
  (forall n, length (init n) = n) -> In (flag_of pData) effector_flags -> 0 < T ->
  (forall s, 0 <= s <= 1 -> path s = Ok (p s)) -> 0 <= wd <= 1 ->
  exists pi M H g, computeConstantWaypoints pData T = Ok pi /\ computeEndEffectorConstraints pData T pi = Ok M /\
    computeEndEffectorCost pData path T wd pi = Ok (H, g) /\
    forall ys, length ys = eff_free (flag_of pData) -> unconstrained_best H g (flat ys) -> satX M (flat ys) ->
    exists r, solveEndEffector wg (solve_quadprog mem) glpk init pData path T wd = Ok r /\ rc_success r = true /\
      rc_x r = flat ys /\ eff_curve pData T ys = Ok (rc_c r).
Proof.
  intros HI Hin HT Hp Hw.
  destruct (eff_data pData path p T wd Hin HT Hp Hw) as (pi & M & H & g & Hc & HM & HE & _).
  exists pi, M, H, g. split; [exact Hc|]. split; [exact HM|]. split; [exact HE|].
  exact (eff_best wg mem glpk init pData path p T wd HI Hin HT Hp Hw pi M H g Hc HM HE).
Qed.

Lemma c67_optimal pData path (p : R -> vec3) T :
  In (flag_of pData) effector_flags -> 0 < T -> (forall s, 0 <= s <= 1 -> path s = Ok (p s)) ->
  exists a b, 0 < a /\ 0 < b /\ forall wg mem glpk init wd,
  (forall n, length (init n) = n) -> 0 <= wd <= 1 -> eff_on_scale (flag_of pData) T wd ->
  exists pi M H g r, computeConstantWaypoints pData T = Ok pi /\ computeEndEffectorConstraints pData T pi = Ok M /\
    computeEndEffectorCost pData path T wd pi = Ok (H, g) /\
    solveEndEffector wg (solve_quadprog mem) glpk init pData path T wd = Ok r /\
    let q := eqp_of (ineq_qp H g M) in
    (well_scaled q -> forall ys, length ys = eff_free (flag_of pData) -> satX M (flat ys) ->
     (rc_success r = true /\ exists xs, length xs = eff_free (flag_of pData) /\ rc_x r = flat xs /\ eff_curve pData T xs = Ok (rc_c r) /\
        forall zs cv B i j, length zs = eff_free (flag_of pData) -> satX M (flat zs) -> eff_curve pData T zs = Ok cv ->
          Forall (within B) (bc_pts (rc_c r)) -> Forall (within B) (bc_pts cv) ->
          speed_integral (rc_c r) T i -> speed_integral cv T j ->
          (1 - wd) * a * i + wd * b * path_gap 50 pData T (rc_c r) (fun k => p (INR k * (1 / (INR 50 - 1)))) <=
          (1 - wd) * a * j + wd * b * path_gap 50 pData T cv (fun k => p (INR k * (1 / (INR 50 - 1))))
          + (1 - wd) * a * (6 * velocity_eps (flag_of pData) * (B * B)) / ((2 * eff_degree (flag_of pData) - 1) * T)) \/
     (rc_success r = false /\ (1000 <= subsets (length M) (3 * eff_free (flag_of pData)))%nat /\ exists st, returns q mem st_MAX_ITER st)).
Proof.
  intros Hin HT Hp.
  destruct (eff_cost pData T path p Hin HT Hp) as (pi2 & a & b & Hc2 & Ha & Hb & HW).
  exists a, b. split; [exact Ha|]. split; [exact Hb|]. intros wg mem glpk init wd HI Hw HS.
  destruct (eff_data pData path p T wd Hin HT Hp Hw) as (pi & M & H & g & Hc & HM & HE & _). rewrite Hc in Hc2. injection Hc2 as <-.
  destruct (HW wd Hw) as (H2 & g2 & K & HE2 & _ & HQ). rewrite HE in HE2. injection HE2 as <- <-.
  destruct (eff_solved wg mem glpk init pData path p T wd HI Hin HT Hp Hw pi M H g Hc HM HE HS) as (s & st & r & RT & Er & Sr & HX).
  destruct (g_facts pData path p T wd Hin HT Hp Hw pi M H g Hc HM HE) as (Lg & [LH FH] & Y & HBd & _ & HL & _).
  destruct (lam_pos pData T wd Hw HS) as [LP LE].
  exists pi, M, H, g, r. split; [exact Hc|]. split; [exact HM|]. split; [exact HE|]. split; [exact Er|]. intros q WS ys Ly Sy.
  assert (FL : forall zs, length zs = eff_free (flag_of pData) -> length (flat zs) = (3 * eff_free (flag_of pData))%nat) by (intros zs Lz; rewrite flat_len, Lz; reflexivity).
  assert (OPT : forall zs, length zs = eff_free (flag_of pData) -> satX M (flat zs) -> _) by
    (intros zs Lz Sz; exact (pl_optimal mem _ H g M _ Lg LH FH HL (fun i j Hi Hj => Y i j Hi Hj) HBd LP s st (flat zs) RT WS (FL zs Lz) Sz)).
  destruct (OPT ys Ly Sy) as [[ES _]|[ES SB]].
  - left. assert (SU : rc_success r = true) by (rewrite Sr, ES; apply Z.eqb_refl). split; [exact SU|]. destruct (HX SU) as (xs & Lx & E1 & E2 & Ec & _).
    exists xs. split; [exact Lx|]. split; [exact E1|]. split; [exact Ec|].
    intros zs cvz B i j Lz Sz Ez Bx Bz Hi Hj.
    pose proof (HQ xs (rc_c r) B i Lx Ec Bx Hi) as Q1. pose proof (HQ zs cvz B j Lz Ez Bz Hj) as Q2.
    destruct (OPT zs Lz Sz) as [[_ Ox]|[ES' _]]; [|rewrite ES in ES'; discriminate]. rewrite E2 in Ox.
    set (F1 := (1 - wd) * a * i + _) in *. set (F2 := (1 - wd) * a * j + wd * b * _) in *.
    replace ((1 - wd) * a * (6 * velocity_eps (flag_of pData) * (B * B)) / ((2 * eff_degree (flag_of pData) - 1) * T))
      with (2 * ((1 - wd) * a * (3 * velocity_eps (flag_of pData) * (B * B)) / ((2 * eff_degree (flag_of pData) - 1) * T))) by (unfold Rdiv; ring).
    set (er := (1 - wd) * a * (3 * velocity_eps (flag_of pData) * (B * B)) / ((2 * eff_degree (flag_of pData) - 1) * T)) in *.
    set (A1 := quad H (flat xs)) in *. set (A2 := quad H (flat zs)) in *. set (B1 := rdot g (flat xs)) in *. set (B2 := rdot g (flat zs)) in *.
    clearbody A1 A2 B1 B2 F1 F2 er. clear - Ox Q1 Q2.
    revert Q1 Q2. unfold Rabs. destruct (Rcase_abs _); destruct (Rcase_abs _); lra.
  - right. split; [rewrite Sr, ES; reflexivity|]. split; [exact SB|]. exists st. rewrite <- ES. exact RT.
Qed.

(** * Following a path *)
Lemma some_bound (P : list vec3) : exists B, Forall (within B) P.
Proof.
  induction P as [|p P [B IH]]; [exists 0; constructor|]. set (b := Rabs (vx p) + Rabs (vy p) + Rabs (vz p)).
  pose proof (Rabs_pos (vx p)). pose proof (Rabs_pos (vy p)). pose proof (Rabs_pos (vz p)). pose proof (Rmax_l B b). pose proof (Rmax_r B b).
  exists (Rmax B b). constructor; [unfold within; unfold b in *; lra|]. eapply Forall_impl; [|exact IH]. unfold within. intros; lra.
Qed.
Lemma gap_nonneg N pData T cv f : 0 <= path_gap N pData T cv f.
Proof.
  unfold path_gap. induction (seq 0 N) as [|i l IH]; cbn [map]; [unfold sum_list; cbn; lra|].
  assert (E : forall a m, sum_list (a :: m) = a + sum_list m) by (intros; unfold sum_list; cbn [fold_right]; reflexivity). rewrite E.
  match goal with |- 0 <= vnorm2 ?v + _ => assert (0 <= vnorm2 v) by (unfold vnorm2, vdot; nra) end. lra.
Qed.
Lemma c67_follow wg mem glpk init pData path (p : R -> vec3) T pi M ys cv :
  (forall n, length (init n) = n) -> In (flag_of pData) effector_flags -> 0 < T ->
  (forall s, 0 <= s <= 1 -> path s = Ok (p s)) ->
  computeConstantWaypoints pData T = Ok pi -> computeEndEffectorConstraints pData T pi = Ok M ->
  length ys = eff_free (flag_of pData) -> satX M (flat ys) -> eff_curve pData T ys = Ok cv ->
  path_gap 50 pData T cv (fun k => p (INR k * (1 / (INR 50 - 1)))) = 0 ->
  exists r, solveEndEffector wg (solve_quadprog mem) glpk init pData path T 1 = Ok r /\ rc_success r = true /\ rc_x r = flat ys /\ rc_c r = cv.
Proof.
  intros HI Hin HT Hp Hc HM Ly Sy Ey G0.
  destruct (eff_cost pData T path p Hin HT Hp) as (pi2 & a & b & Hc2 & Ha & Hb & HW). rewrite Hc in Hc2. injection Hc2 as <-.
  destruct (HW 1 ltac:(lra)) as (H & g & K & HE & _ & HQ).
  destruct (c36_velocity pData T Hin HT) as (pi9 & H9 & g9 & N9 & K9 & _ & _ & _ & _ & HV).
  assert (Q : forall zs, length zs = eff_free (flag_of pData) -> exists cz, eff_curve pData T zs = Ok cz /\
    quad H (flat zs) + 2 * rdot g (flat zs) + K = b * path_gap 50 pData T cz (fun k => p (INR k * (1 / (INR 50 - 1))))).
  { intros zs Lz. destruct (HV zs 0 Lz) as (cz & Ez & _). exists cz. split; [exact Ez|].
    destruct (some_bound (bc_pts cz)) as [B HB]. destruct (HV zs B Lz) as (cz' & Ez' & HI'). rewrite Ez in Ez'. injection Ez' as <-.
    destruct (HI' HB) as (i & Hi & _). pose proof (HQ zs cz B i Lz Ez HB Hi) as Q. revert Q.
    replace (1 - 1) with 0 by ring. rewrite !Rmult_0_l. unfold Rdiv at 2. rewrite Rmult_0_l, Rplus_0_l, Rmult_1_l.
    generalize (b * path_gap 50 pData T cz (fun k => p (INR k * (1 / (INR 50 - 1))))) (quad H (flat zs) + 2 * rdot g (flat zs) + K). intros u v. unfold Rabs. destruct (Rcase_abs _); lra. }
  destruct (eff_best wg mem glpk init pData path p T 1 HI Hin HT Hp ltac:(lra) pi M H g Hc HM HE ys Ly) as (r & Er & Sr & Xr & Cr).
  - intros v Lv. rewrite flat_len, Ly in Lv. destruct (unflat _ v Lv) as (zs & Lz & ->).
    destruct (Q ys Ly) as (c & Ec & Q1). rewrite Ey in Ec. injection Ec as <-. rewrite G0 in Q1.
    destruct (Q zs Lz) as (cz & _ & Q2). pose proof (gap_nonneg 50 pData T cz (fun k => p (INR k * (1 / (INR 50 - 1))))) as GN.
    apply (Rmult_le_compat_l b) in GN; lra.
  - exact Sy.
  - rewrite Ey in Cr. injection Cr as Cr. exists r. auto.
Qed.
