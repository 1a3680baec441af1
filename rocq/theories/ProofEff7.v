(** End-effector distance cost: its meaning. *)
From Verif Require Import Vec SpecBezier ModelData ModelUtils ModelRows ModelWaypointsJerk ModelDispatch ModelCont ModelSolver ModelTraj ModelEff
  SpecCom SpecWp SpecSolver SpecTraj SpecEff ProofBezier ProofCurve ProofCom ProofWaypoints ProofWaypoints2 ProofSolver ProofTraj
  ProofEff ProofEff2 ProofEff3 ProofEff4 ProofEff6.
Open Scope R_scope.

Definition wpn0 : wpn := Wn [] vzero.
Definition okw (o : outcome wpn) : wpn := match o with Ok w => w | _ => wpn0 end.

(** one evaluation, for every value of the free points *)
Lemma eval_at pData T s : In (flag_of pData) effector_flags -> 0 < T ->
  exists pi w, computeConstantWaypoints pData T = Ok pi /\ evaluateCurveWaypointAtTime pData pi s = Ok w /\
    length (wn_blocks w) = eff_free (flag_of pData) /\
    (forall xs, length xs = eff_free (flag_of pData) -> exists cv, eff_curve pData T xs = Ok cv /\
       ev_wpn w xs = vadd (cv_fun cv (s * T)) (eval_shift pData s)) /\
    (0 < s < 1 -> exists xs, length xs = eff_free (flag_of pData) /\ 0 < vnorm2 (ev_blocks (wn_blocks w) xs)) /\
    (s = 0 \/ s = 1 -> Forall (Forall (eq 0)) (wpn_rows w)).
Proof.
  intros Hin HT.
  destruct (c32_curve pData T (repeat vzero (eff_free (flag_of pData))) s Hin (repeat_length _ _) HT) as (pi & _ & w & Hc & _ & Hw & _).
  exists pi, w. split; [exact Hc|]. split; [exact Hw|].
  split; [|split; [|split]].
  - destruct (eff_shape_total pData T (repeat vzero (eff_free (flag_of pData))) Hin (repeat_length _ _)) as (pi' & pts & Hc' & Hs).
    rewrite Hc in Hc'. injection Hc' as <-. revert Hw. eff_cases Hs; unfold evaluateCurveWaypointAtTime; eff_flag; intros Hw; injection Hw as <-; reflexivity.
  - intros xs Lx. destruct (c32_curve pData T xs s Hin Lx HT) as (pi' & cv & w' & Hc' & Hv & Hw' & Hx).
    rewrite Hc in Hc'. injection Hc' as <-. rewrite Hw in Hw'. injection Hw' as <-. exists cv. split; [exact Hv|]. exact Hx.
  - intros Hs01. exists (V3 1 0 0 :: repeat vzero (pred (eff_free (flag_of pData)))). split.
    { cbn [length]. rewrite repeat_length. in_cases Hin; rewrite Hin; reflexivity. }
    destruct (eff_shape_total pData T (repeat vzero (eff_free (flag_of pData))) Hin (repeat_length _ _)) as (pi' & pts & Hc' & Hs).
    rewrite Hc in Hc'. injection Hc' as <-. 
    assert (P4 : 0 < s ^ 4) by (apply pow_lt; lra).
    assert (Q4 : 0 < (1 - s) ^ 4) by (apply pow_lt; lra).
    assert (Q6 : 0 < (1 - s) ^ 6) by (apply pow_lt; lra).
    assert (Q8 : 0 < (1 - s) ^ 8) by (apply pow_lt; lra).
    revert Hw. eff_cases Hs; unfold evaluateCurveWaypointAtTime; eff_flag; intros Hw; injection Hw as <-.
    + replace (vnorm2 _) with ((70 * (s ^ 4 * (1 - s) ^ 4)) * (70 * (s ^ 4 * (1 - s) ^ 4)));
        [|unfold eff_free; simpl Z.eqb; cbv iota; cbn [pred repeat]; unfold vnorm2; ecbn; ring].
      pose proof (Rmult_lt_0_compat _ _ P4 Q4). apply Rmult_lt_0_compat; lra.
    + replace (vnorm2 _) with ((210 * (s ^ 4 * (1 - s) ^ 6)) * (210 * (s ^ 4 * (1 - s) ^ 6)));
        [|unfold eff_free; simpl Z.eqb; cbv iota; cbn [pred repeat]; unfold vnorm2; ecbn; ring].
      pose proof (Rmult_lt_0_compat _ _ P4 Q6). apply Rmult_lt_0_compat; lra.
    + replace (vnorm2 _) with ((495 * (s ^ 4 * (1 - s) ^ 8)) * (495 * (s ^ 4 * (1 - s) ^ 8)));
        [|unfold eff_free; simpl Z.eqb; cbv iota; cbn [pred repeat]; unfold vnorm2; ecbn; ring].
      pose proof (Rmult_lt_0_compat _ _ P4 Q8). apply Rmult_lt_0_compat; lra.
  - intros Hs01. destruct (eff_shape_total pData T (repeat vzero (eff_free (flag_of pData))) Hin (repeat_length _ _)) as (pi' & pts & Hc' & Hs).
    rewrite Hc in Hc'. injection Hc' as <-.
    revert Hw. eff_cases Hs; unfold evaluateCurveWaypointAtTime; eff_flag; intros Hw; injection Hw as <-;
      unfold wpn_rows; ecbn; cbn [map concat l3 app]; ecbn; cbn [map concat l3 app]; ecbn; destruct Hs01 as [-> | ->];
      repeat (first [apply Forall_nil | apply Forall_cons]); ring.
Qed.

Lemma ev_blocks_zero : forall bs n, ev_blocks bs (repeat vzero n) = vzero.
Proof.
  induction bs as [|b bs IH]; intros [|n]; try reflexivity. cbn [repeat ev_blocks]. rewrite IH. apply v3_eq; vcbn; ring.
Qed.
Lemma wsum_ext f g i n : (forall k, (i <= k < i + n)%nat -> f k = g k) -> wsum f i n = wsum g i n.
Proof.
  intros H. unfold wsum. f_equal. apply map_ext_in. intros k Hk. apply in_seq in Hk. apply H. lia.
Qed.
Lemma sum_list_add (f g h : nat -> R) (a : R) l : (forall k, f k = g k + a * h k) ->
  sum_list (map f l) = sum_list (map g l) + a * sum_list (map h l).
Proof. intros E. unfold sum_list. induction l as [|k l IH]; cbn; [ring|]. rewrite IH, E. ring. Qed.
Lemma wsum_lin a f g i n : wsum (fun k => f k + a * g k) i n = wsum f i n + a * wsum g i n.
Proof. unfold wsum. apply sum_list_add; reflexivity. Qed.
Lemma wsum_nonneg f i n : (forall k, 0 <= f k) -> 0 <= wsum f i n.
Proof. intros H. unfold wsum, sum_list. induction (seq i n); cbn; [lra|]. pose proof (H a). lra. Qed.
Lemma wsum_ge f i n k : (forall k, 0 <= f k) -> (i <= k < i + n)%nat -> f k <= wsum f i n.
Proof.
  intros H Hk. assert (Hi : In k (seq i n)) by (apply in_seq; lia). unfold wsum, sum_list. clear Hk.
  induction (seq i n) as [|a l IH]; [contradiction|]. cbn.
  assert (0 <= fold_right Rplus 0 (map f l)) by (clear - H; induction l; cbn; [lra|]; pose proof (H a); lra).
  destruct Hi as [-> | Hi]; [lra|]. specialize (IH Hi). pose proof (H a). lra.
Qed.
Lemma vnorm2_nonneg v : 0 <= vnorm2 v.
Proof. unfold vnorm2, vdot. pose proof (Rle_0_sqr (vx v)). pose proof (Rle_0_sqr (vy v)). pose proof (Rle_0_sqr (vz v)). unfold Rsqr in *. lra. Qed.

Section Dist.
  Variables (pData : problem) (T : R) (pi : list vec3) (N : nat).
  Hypotheses (Hin : In (flag_of pData) effector_flags) (HT : 0 < T) (Hpi : computeConstantWaypoints pData T = Ok pi).
  Let nf := eff_free (flag_of pData).
  Let st k := INR k * (1 / (INR N - 1)).
  Let W k := okw (evaluateCurveWaypointAtTime pData pi (st k)).

  Lemma W_ok k : evaluateCurveWaypointAtTime pData pi (st k) = Ok (W k) /\ length (wn_blocks (W k)) = nf /\
    (forall xs cv, length xs = nf -> eff_curve pData T xs = Ok cv -> ev_wpn (W k) xs = vadd (cv_fun cv (st k * T)) (eval_shift pData (st k))) /\
    (0 < st k < 1 -> exists xs, length xs = nf /\ 0 < vnorm2 (ev_blocks (wn_blocks (W k)) xs)) /\
    (st k = 0 \/ st k = 1 -> Forall (Forall (eq 0)) (wpn_rows (W k))).
  Proof.
    destruct (eval_at pData T (st k) Hin HT) as (pi' & w & Hc & Hw & Hl & Hx & Hp & Hz).
    rewrite Hpi in Hc. injection Hc as <-. unfold W. rewrite Hw. cbn [okw]. split; [reflexivity|]. split; [exact Hl|].
    split; [|split; assumption]. intros xs cv Lx Ec. destruct (Hx xs Lx) as (cv' & Ec' & Hv). rewrite Ec in Ec'. injection Ec' as <-. exact Hv.
  Qed.
  Lemma dim_nf : dimVar pData = (3 * nf)%nat.
  Proof. unfold dimVar, nf. clear - Hin. pose proof Hin as H. in_cases H; rewrite H; reflexivity. Qed.

  Lemma st_open : (3 <= N)%nat -> 0 < st 1 < 1.
  Proof.
    intros HN. unfold st. apply le_INR in HN. replace (INR 3) with 3 in HN by (simpl; ring).
    replace (INR 1) with 1 by reflexivity.
    assert (0 < / (INR N - 1)) by (apply Rinv_0_lt_compat; lra).
    assert (/ (INR N - 1) < 1) by (rewrite <- Rinv_1; apply Rinv_lt_contravar; lra). unfold Rdiv. lra.
  Qed.

  Lemma c35_dist pts : (3 <= N)%nat -> (N <= length pts)%nat ->
    exists H g k K, computeDistanceCostFunction N pData T pts = Ok (H, g) /\ 0 < k /\ square (3 * nf) H /\ length g = (3 * nf)%nat /\
      forall xs cv, length xs = nf -> eff_curve pData T xs = Ok cv ->
        k * (quad H (flat xs) + 2 * rdot g (flat xs)) + K = path_gap N pData T cv (fun i => nth i pts vzero).
  Proof.
    intros HN HL. pose (P i := nth i pts vzero).
    destruct (dist_loop_ok pData pi (1 / (INR N - 1)) pts W P nf dim_nf N 0 (matx_zero (3 * nf)) (repeat 0 (3 * nf))) as (H & g & E & SH & LG & HQ).
    { intros k Hk. destruct (W_ok k) as (A & B & _). split; [exact A|]. split; [exact B|].
      unfold P. apply nth_error_nth'. lia. }
    { apply square_zero. } { apply repeat_length. }
    assert (HN0 : matx_norm H <> 0).
    { intros Z. destruct (W_ok 1) as (_ & _ & _ & Hp & _). destruct (Hp (st_open HN)) as (xs & Lx & Px).
      destruct (HQ xs Lx) as [Q _]. rewrite (norm_zero_quad H (flat xs) Z), quad_zero, Rplus_0_l in Q.
      pose proof (wsum_ge (fun k => vnorm2 (ev_blocks (wn_blocks (W k)) xs)) 0 N 1 (fun k => vnorm2_nonneg _) ltac:(lia)) as G.
      cbv beta in G. lra. }
    assert (HNP : 0 < matx_norm H) by (pose proof (sqrt_pos (sumR (map sumsqx H))); unfold matx_norm in *; lra).
    exists (matx_div H (matx_norm H)), (vecx_div g (matx_norm H)), (matx_norm H),
      (wsum (fun k => vnorm2 (vsub (wn_pt (W k)) (P k))) 0 N).
    split.
    { unfold computeDistanceCostFunction. destruct (Nat.eqb_spec N 1); [lia|]. rewrite Hpi. cbn [bind]. rewrite dim_nf, E. cbn [bind fst snd].
      destruct (Req_EM_T (matx_norm H) 0); [contradiction|]. reflexivity. }
    split; [exact HNP|]. split; [apply square_div; exact SH|]. split; [unfold vecx_div; rewrite map_length; exact LG|].
    intros xs cv Lx Ec. rewrite quad_div, rdot_div. destruct (HQ xs Lx) as [Q1 Q2]. rewrite Q1, Q2, quad_zero, rdot_repeat0.
    transitivity (wsum (fun k => vnorm2 (ev_blocks (wn_blocks (W k)) xs)) 0 N
       + 2 * wsum (fun k => vdot (ev_blocks (wn_blocks (W k)) xs) (vsub (wn_pt (W k)) (P k))) 0 N
       + 1 * wsum (fun k => vnorm2 (vsub (wn_pt (W k)) (P k))) 0 N); [field; exact HN0|].
    rewrite <- !wsum_lin. unfold path_gap. fold (wsum (fun i => let s := INR i * (1 / (INR N - 1)) in
      vnorm2 (vsub (vadd (cv_fun cv (s * T)) (eval_shift pData s)) (nth i pts vzero))) 0 N).
    apply wsum_ext. intros k _. cbv zeta. fold (st k). destruct (W_ok k) as (_ & _ & Hx & _). rewrite <- (Hx xs cv Lx Ec).
    unfold ev_wpn. fold (P k). unfold vnorm2. vcbn. ring.
  Qed.

  Lemma mtm_zero n : forall M, Forall (fun r => length r = n) M -> Forall (Forall (eq 0)) M -> mtm n M = matx_zero n.
  Proof.
    intros M FL FZ. induction M as [|r M IH]; [reflexivity|]. inversion FL; inversion FZ; subst. cbn [mtm]. rewrite IH by assumption.
    clear - H5. assert (G : forall l (m : nat), Forall (eq 0) l -> matx_add (map (fun a => vecx_scal a r) l) (repeat (repeat 0 (length r)) (length l)) = repeat (repeat 0 (length r)) (length l)).
    { induction l as [|a l IH]; intros m F; [reflexivity|]. inversion F; subst. cbn. fold (matx_add (map (fun a => vecx_scal a r) l) (repeat (repeat 0 (length r)) (length l))).
      rewrite (IH m) by assumption. f_equal. clear. induction r as [|b r IH]; [reflexivity|]. cbn. f_equal; [ring|exact IH]. }
    unfold matx_zero. apply (G r 0%nat H5).
  Qed.
  Lemma add_zero n : matx_add (matx_zero n) (matx_zero n) = matx_zero n.
  Proof.
    unfold matx_zero. set (m := n) at 1 3 5. generalize m. clear m. intros m. revert n.
    assert (V : forall k, vecx_add (repeat 0 k) (repeat 0 k) = repeat 0 k) by (induction k as [|k IH]; [reflexivity|]; cbn; f_equal; [ring|exact IH]).
    induction n as [|n IH]; [reflexivity|]. cbn. f_equal; [apply V|exact IH].
  Qed.
  Lemma norm_zero n : matx_norm (matx_zero n) = 0.
  Proof.
    unfold matx_norm. replace (sumR _) with 0; [apply sqrt_0|]. unfold matx_zero. set (m := n) at 1. generalize m. intros k. induction n as [|n IH]; [reflexivity|].
    cbn. rewrite <- IH. unfold sumsqx. clear. induction k as [|k IHk]; cbn; lra.
  Qed.
  Lemma c35_few pts : (N <= 2)%nat -> (N <= length pts)%nat -> computeDistanceCostFunction N pData T pts = UB.
  Proof.
    intros HN HL. unfold computeDistanceCostFunction. destruct (Nat.eqb_spec N 1); [reflexivity|]. rewrite Hpi. cbn [bind].
    assert (E : exists g, dist_loop pData pi (1 / (INR N - 1)) pts 0 N (matx_zero (dimVar pData)) (repeat 0 (dimVar pData)) = Ok (matx_zero (dimVar pData), g)).
    { assert (Z : forall k, (k < N)%nat -> exists p, nth_error pts k = Some p /\ evaluateCurveWaypointAtTime pData pi (INR k * (1 / (INR N - 1))) = Ok (W k) /\
         length (wn_blocks (W k)) = nf /\ mtm (dimVar pData) (wpn_rows (W k)) = matx_zero (dimVar pData)).
      { intros k Hk. exists (nth k pts vzero). split; [apply nth_error_nth'; lia|]. destruct (W_ok k) as (A & B & _ & _ & Hz). split; [exact A|]. split; [exact B|].
        apply mtm_zero; [apply wpn_rows_len; rewrite B, dim_nf; reflexivity|]. apply Hz. unfold st.
        assert (EN : N = 2%nat) by lia. rewrite EN. destruct k as [|[|k]]; [left|right|lia]; simpl; field. }
      destruct N as [|[|[|n']]] eqn:EN; [eexists; reflexivity|contradiction| |lia].
      destruct (Z 0%nat ltac:(lia)) as (p0 & G0 & A0 & B0 & C0). destruct (Z 1%nat ltac:(lia)) as (p1 & G1 & A1 & B1 & C1).
      eexists. cbn [dist_loop]. rewrite A0. cbn [bind]. unfold get at 1. rewrite G0. cbn [bind]. rewrite B0, <- dim_nf, Nat.eqb_refl. cbn [negb].
      rewrite A1. cbn [bind]. unfold get at 1. rewrite G1. cbn [bind]. rewrite B1, <- dim_nf, Nat.eqb_refl. cbn [negb].
      rewrite C0, C1, !add_zero. reflexivity. }
    destruct E as [g E]. rewrite E. cbn [bind fst]. rewrite norm_zero. destruct (Req_EM_T 0 0); [reflexivity|lra].
  Qed.
End Dist.

Lemma c35_distance N pData T pts : In (flag_of pData) effector_flags -> 0 < T -> (3 <= N <= length pts)%nat ->
  exists H g k K, computeDistanceCostFunction N pData T pts = Ok (H, g) /\ 0 < k /\
    length H = (3 * eff_free (flag_of pData))%nat /\ Forall (fun r => length r = (3 * eff_free (flag_of pData))%nat) H /\
    length g = (3 * eff_free (flag_of pData))%nat /\
    forall xs, length xs = eff_free (flag_of pData) -> exists cv, eff_curve pData T xs = Ok cv /\
      k * (quad H (flat xs) + 2 * rdot g (flat xs)) + K = path_gap N pData T cv (fun i => nth i pts vzero).
Proof.
  intros Hin HT HN. destruct (eval_at pData T 0 Hin HT) as (pi & _ & Hpi & _).
  destruct (c35_dist pData T pi N Hin HT Hpi pts) as (H & g & k & K & A1 & A2 & [A3 A3'] & A4 & A5); try lia.
  exists H, g, k, K. repeat (split; [assumption|]). intros xs Hl.
  destruct (eff_curve_ok pData T xs Hin Hl HT) as (_ & pts' & _ & _ & E). exists (BCurve pts' T). split; [exact E|]. apply A5; assumption.
Qed.
Lemma c35_short N pData T pts : In (flag_of pData) effector_flags -> 0 < T -> (N <= 2)%nat -> (N <= length pts)%nat ->
  computeDistanceCostFunction N pData T pts = UB.
Proof. intros Hin HT HN HL. destruct (eval_at pData T 0 Hin HT) as (pi & _ & Hpi & _). apply (c35_few pData T pi N Hin HT Hpi pts HN HL). Qed.
