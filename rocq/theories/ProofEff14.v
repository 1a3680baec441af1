(** End-effector cost: existence, convexity and optimal trajectories. *)
From Verif Require Import Vec SpecBezier ModelData ModelUtils ModelRows ModelWaypointsJerk ModelDispatch ModelCont ModelSolver ModelTraj ModelEff
  Spec0Step SpecCom SpecWp SpecSolver SpecTraj SpecEff ProofBezier ProofCurve ProofCom ProofWaypoints ProofWaypoints2 ProofSolver ProofTraj ProofTraj2 Proof0Step2
  ProofEff ProofEff2 ProofEff3 ProofEff4 ProofEff5 ProofEff6 ProofEff7 ProofEff8 ProofEff9 ProofEff11 ProofEff13.
Open Scope R_scope.

(** * Distance to a path *)
Lemma sample01 N k : (2 <= N)%nat -> (k < N)%nat -> 0 <= INR k * (1 / (INR N - 1)) <= 1.
Proof.
  intros HN Hk. assert (2 <= INR N) by (apply le_INR in HN; simpl in HN; lra).
  assert (INR k <= INR N - 1).
  { replace (INR N) with (INR (pred N) + 1) by (rewrite <- S_INR; f_equal; lia). assert (INR k <= INR (pred N)) by (apply le_INR; lia). lra. }
  pose proof (pos_INR k). assert (0 < / (INR N - 1)) by (apply Rinv_0_lt_compat; lra). unfold Rdiv. rewrite Rmult_1_l. split.
  - apply Rmult_le_pos; lra.
  - apply Rmult_le_reg_r with (INR N - 1); [lra|]. rewrite Rmult_assoc, Rinv_l by lra. lra.
Qed.
Lemma path_ok N pData T path (p : R -> vec3) : (2 <= N)%nat -> (forall s, 0 <= s <= 1 -> path s = Ok (p s)) ->
  computeDistanceCostFunction_path N pData T path =
  computeDistanceCostFunction N pData T (map (fun i => p (INR i * (1 / (INR N - 1)))) (seq 0 N)).
Proof.
  intros HN Hp. unfold computeDistanceCostFunction_path. destruct (Nat.eqb_spec N 1); [lia|].
  rewrite (mapM_ok _ (fun i => p (INR i * (1 / (INR N - 1))))); [reflexivity|].
  intros i Hi. apply in_seq in Hi. apply Hp, sample01; lia.
Qed.
Lemma path_gap_ext N pData T cv p q : (forall i, (i < N)%nat -> p i = q i) -> path_gap N pData T cv p = path_gap N pData T cv q.
Proof.
  intros H. unfold path_gap. f_equal. apply map_ext_in. intros i Hi. apply in_seq in Hi. rewrite H by lia. reflexivity.
Qed.
Lemma c35_path N pData T path (p : R -> vec3) :
  In (flag_of pData) effector_flags -> 0 < T -> (3 <= N)%nat -> (forall s, 0 <= s <= 1 -> path s = Ok (p s)) ->
  exists H g k K, computeDistanceCostFunction_path N pData T path = Ok (H, g) /\ 0 < k /\
    square (3 * eff_free (flag_of pData)) H /\ length g = (3 * eff_free (flag_of pData))%nat /\
    forall xs cv, length xs = eff_free (flag_of pData) -> eff_curve pData T xs = Ok cv ->
      k * (quad H (flat xs) + 2 * rdot g (flat xs)) + K = path_gap N pData T cv (fun i => p (INR i * (1 / (INR N - 1)))).
Proof.
  intros Hin HT HN Hp. destruct (eff_curve_ok pData T _ Hin (repeat_length vzero _) HT) as (pi & pts0 & Hc & _).
  destruct (c35_dist pData T pi N Hin HT Hc (map (fun i => p (INR i * (1 / (INR N - 1)))) (seq 0 N)) HN) as (H & g & k & K & E & Hk & SH & LG & HQ).
  { rewrite map_length, seq_length. lia. }
  exists H, g, k, K. split; [rewrite (path_ok N pData T path p) by (try lia; exact Hp); exact E|]. split; [exact Hk|]. split; [exact SH|]. split; [exact LG|].
  intros xs cv Lx Ec. rewrite (HQ xs cv Lx Ec). apply path_gap_ext. intros i Hi.
  rewrite (nth_indep _ vzero (p (INR 0 * (1 / (INR N - 1))))) by (rewrite map_length, seq_length; exact Hi).
  rewrite (map_nth (fun i => p (INR i * (1 / (INR N - 1))))), seq_nth by exact Hi. reflexivity.
Qed.

(** the quadratic part *)
Lemma dist_quad pData T pi pts H g N :
  In (flag_of pData) effector_flags -> 0 < T -> computeConstantWaypoints pData T = Ok pi -> (3 <= N)%nat -> (N <= length pts)%nat ->
  computeDistanceCostFunction N pData T pts = Ok (H, g) ->
  exists k, 0 < k /\ forall xs, length xs = eff_free (flag_of pData) ->
    k * quad H (flat xs) = wsum (fun i => vnorm2 (ev_blocks (wn_blocks (okw (evaluateCurveWaypointAtTime pData pi (INR i * (1 / (INR N - 1)))))) xs)) 0 N.
Proof.
  intros Hin HT Hpi HN HL E. set (nf := eff_free (flag_of pData)).
  destruct (dist_loop_ok pData pi (1 / (INR N - 1)) pts (fun i => okw (evaluateCurveWaypointAtTime pData pi (INR i * (1 / (INR N - 1))))) (fun i => nth i pts vzero) nf
     (dim_nf pData Hin) N 0 (matx_zero (3 * nf)) (repeat 0 (3 * nf))) as (H' & g' & E' & _ & _ & HQ).
  { intros k Hk. destruct (W_ok pData T pi N Hin HT Hpi k) as (A & B & _). split; [exact A|]. split; [exact B|]. apply nth_error_nth'. lia. }
  { apply square_zero. } { apply repeat_length. }
  unfold computeDistanceCostFunction in E. destruct (Nat.eqb_spec N 1); [lia|]. rewrite Hpi in E. cbn [bind] in E.
  rewrite (dim_nf pData Hin) in E. fold nf in E. rewrite E' in E. cbn [bind fst snd] in E.
  destruct (Req_EM_T (matx_norm H') 0) as [|HN0]; [discriminate|]. injection E as <- _.
  exists (matx_norm H'). split; [pose proof (sqrt_pos (sumR (map sumsqx H'))); unfold matx_norm in *; lra|].
  intros xs Lx. rewrite quad_div. destruct (HQ xs Lx) as [Q _]. rewrite Q, quad_zero. field. exact HN0.
Qed.

Lemma vnorm2_zero v : vnorm2 v = 0 -> vx v = 0 /\ vy v = 0 /\ vz v = 0.
Proof.
  unfold vnorm2, vdot. intros E. pose proof (Rle_0_sqr (vx v)) as A. pose proof (Rle_0_sqr (vy v)) as B. pose proof (Rle_0_sqr (vz v)) as C. unfold Rsqr in *.
  split; [|split]; apply Rsqr_0_uniq; unfold Rsqr; lra.
Qed.
Definition bsum (n : nat) (s : R) (a : nat -> R) (k : nat) : R := sumf k (fun j => bern n (4 + j) s * a j).
Lemma eff_blocks pData T pi pts xs s f : In f [vx; vy; vz] -> eff_shape pData T xs pi pts ->
  f (ev_blocks (wn_blocks (okw (evaluateCurveWaypointAtTime pData pi s))) xs) =
  bsum (ndeg (flag_of pData)) s (coord f xs) (length xs).
Proof.
  intros Hf Hs. unfold bsum, bern. eff_cases Hs; unfold evaluateCurveWaypointAtTime; rewrite E; unfold ndeg; simpl Z.eqb; cbv iota;
  match goal with |- context [okw ?x] => let w := eval hnf in x in change x with w end; cbn [okw length sumf Nat.add Nat.sub];
  rewrite ?INR_IZR_INZ, ?zbin_ok;
  repeat match goal with |- context [zbin ?n ?i] => let v := eval vm_compute in (zbin n i) in change (zbin n i) with v end;
  unfold coord; cbn [map nth];
  destruct Hf as [<-|[<-|[<-|[]]]]; ecbn; ring.
Qed.
Lemma dist_pd pData T pi xs :
  In (flag_of pData) effector_flags -> 0 < T -> computeConstantWaypoints pData T = Ok pi -> length xs = eff_free (flag_of pData) ->
  wsum (fun i => vnorm2 (ev_blocks (wn_blocks (okw (evaluateCurveWaypointAtTime pData pi (INR i * (1 / (INR 50 - 1)))))) xs)) 0 50 = 0 ->
  xs = repeat vzero (length xs).
Proof.
  intros Hin HT Hpi Lx E.
  assert (Z : forall i, (i < 50)%nat -> vnorm2 (ev_blocks (wn_blocks (okw (evaluateCurveWaypointAtTime pData pi (INR i * (1 / (INR 50 - 1)))))) xs) = 0).
  { intros i Hi. apply Rle_antisym; [|apply vnorm2_nonneg]. rewrite <- E.
    apply (wsum_ge (fun i => vnorm2 (ev_blocks (wn_blocks (okw (evaluateCurveWaypointAtTime pData pi (INR i * (1 / (INR 50 - 1)))))) xs)) 0 50 i); [intros; apply vnorm2_nonneg|lia]. }
  clear E. pose proof (Z 1%nat ltac:(lia)) as Z1. pose proof (Z 2%nat ltac:(lia)) as Z2. pose proof (Z 3%nat ltac:(lia)) as Z3. pose proof (Z 4%nat ltac:(lia)) as Z4. pose proof (Z 5%nat ltac:(lia)) as Z5. clear Z.
  replace (INR 50) with 50 in * by (rewrite INR_IZR_INZ; reflexivity). 
  replace (INR 1) with 1 in * by reflexivity. replace (INR 2) with 2 in * by (rewrite INR_IZR_INZ; reflexivity). replace (INR 3) with 3 in * by (rewrite INR_IZR_INZ; reflexivity).
  replace (INR 4) with 4 in * by (rewrite INR_IZR_INZ; reflexivity). replace (INR 5) with 5 in * by (rewrite INR_IZR_INZ; reflexivity).
  destruct (eff_shape_total pData T xs Hin Lx) as (pi' & pts & Hc & Hs). rewrite Hpi in Hc. injection Hc as <-.
  apply vnorm2_zero in Z1, Z2, Z3, Z4, Z5.
  assert (G : forall f, In f [vx; vy; vz] -> forall i, (i < length xs)%nat -> coord f xs i = 0).
  { intros f Hf.
    assert (B : forall s, (vx (ev_blocks (wn_blocks (okw (evaluateCurveWaypointAtTime pData pi s))) xs) = 0 /\
       vy (ev_blocks (wn_blocks (okw (evaluateCurveWaypointAtTime pData pi s))) xs) = 0 /\
       vz (ev_blocks (wn_blocks (okw (evaluateCurveWaypointAtTime pData pi s))) xs) = 0) -> bsum (ndeg (flag_of pData)) s (coord f xs) (length xs) = 0).
    { intros s (Ax & Ay & Az). rewrite <- (eff_blocks pData T pi pts xs s f Hf Hs). destruct Hf as [<-|[<-|[<-|[]]]]; assumption. }
    apply B in Z1, Z2, Z3, Z4, Z5. clear B. revert Z1 Z2 Z3 Z4 Z5. generalize (coord f xs). intros a. rewrite Lx. clear - Hin.
    replace (1 * (1 / (50 - 1))) with (1 / 49) by field. replace (2 * (1 / (50 - 1))) with (2 / 49) by field. replace (3 * (1 / (50 - 1))) with (3 / 49) by field.
    replace (4 * (1 / (50 - 1))) with (4 / 49) by field. replace (5 * (1 / (50 - 1))) with (5 / 49) by field.
    unfold bsum, bern, eff_free, ndeg. in_cases Hin; rewrite Hin; simpl Z.eqb; cbv iota; cbn [sumf Nat.add Nat.sub]; rewrite ?INR_IZR_INZ, ?zbin_ok;
    repeat match goal with |- context [zbin ?n ?i] => let v := eval vm_compute in (zbin n i) in change (zbin n i) with v end;
    intros Z1 Z2 Z3 Z4 Z5 i Hi.
    - destruct i; [|lia]. lra.
    - destruct i as [|[|[|i]]]; [| | |lia]; lra.
    - destruct i as [|[|[|[|[|i]]]]]; [| | | | |lia]; lra. }
  apply nth_ext with vzero vzero; [now rewrite repeat_length|]. intros i Hi. rewrite nth_repeat.
  assert (C : forall f : vec3 -> R, f vzero = 0 -> In f [vx; vy; vz] -> f (nth i xs vzero) = 0).
  { intros f Hf Hff. specialize (G f Hff i Hi). unfold coord in G. rewrite <- Hf in G at 1. rewrite map_nth in G. rewrite G. reflexivity. }
  apply v3_eq; apply C; cbn; tauto || reflexivity.
Qed.

(** * The whole cost *)
Lemma speed_integral_unique cv T i j : speed_integral cv T i -> speed_integral cv T j -> i = j.
Proof.
  intros (d & D & I) (e & E & J). apply (integral_unique (fun t => vnorm2 (d t)) 0 T); [exact I|].
  apply (integral_ext (fun t => vnorm2 (e t))); [|exact J]. intros t. f_equal. eapply (is_deriv_n_unique 1); [| apply E | apply D]; reflexivity.
Qed.

Lemma eff_free_pos flag : (0 < eff_free flag)%nat.
Proof. unfold eff_free. destruct (Z.eqb flag F_jerk); [lia|]. destruct (Z.eqb flag F_x3); lia. Qed.
Lemma flat_zero n : flat (repeat vzero n) = repeat 0 (3 * n).
Proof. induction n as [|n IH]; [reflexivity|]. cbn [repeat]. unfold flat. cbn [map concat]. fold (flat (repeat vzero n)). rewrite IH. replace (3 * S n)%nat with (S (S (S (3 * n)))) by lia. reflexivity. Qed.

Lemma blocks_square n B : length B = n -> Forall (fun bs => length bs = n) B -> square (3 * n) (blocks_matx B).
Proof.
  intros L F.
  assert (HL : forall (bs : list mat3) (f : mat3 -> vec3), length (concat (map (fun m => l3 (f m)) bs)) = (3 * length bs)%nat).
  { intros bs f. induction bs as [|m l IH]; [reflexivity|]. cbn [map concat]. rewrite app_length, IH. cbn [length l3]. lia. }
  split.
  - rewrite <- L. clear. induction B as [|b B IH]; [reflexivity|]. unfold blocks_matx in *. cbn [map concat]. rewrite app_length, IH. cbn [length]. lia.
  - clear L. induction F as [|b B E F IH]; [constructor|]. unfold blocks_matx in *. cbn [map concat]. apply Forall_app. split; [|exact IH].
    repeat apply Forall_cons; try apply Forall_nil; rewrite HL, E; reflexivity.
Qed.

Lemma eff_cost pData T path (p : R -> vec3) :
  In (flag_of pData) effector_flags -> 0 < T -> (forall s, 0 <= s <= 1 -> path s = Ok (p s)) ->
  exists pi a b, computeConstantWaypoints pData T = Ok pi /\ 0 < a /\ 0 < b /\
  forall wd, 0 <= wd <= 1 -> exists H g K, computeEndEffectorCost pData path T wd pi = Ok (H, g) /\
    (forall xs, length xs = eff_free (flag_of pData) -> xs <> repeat vzero (length xs) -> 0 < quad H (flat xs)) /\
    forall xs cv B i, length xs = eff_free (flag_of pData) -> eff_curve pData T xs = Ok cv -> Forall (within B) (bc_pts cv) ->
      speed_integral cv T i ->
      Rabs (quad H (flat xs) + 2 * rdot g (flat xs) + K
        - ((1 - wd) * a * i + wd * b * path_gap 50 pData T cv (fun k => p (INR k * (1 / (INR 50 - 1))))))
      <= (1 - wd) * a * (3 * velocity_eps (flag_of pData) * (B * B)) / ((2 * eff_degree (flag_of pData) - 1) * T).
Proof.
  intros Hin HT Hp. set (nf := eff_free (flag_of pData)).
  assert (Dg : 0 < 2 * eff_degree (flag_of pData) - 1) by (unfold eff_degree; destruct (Z.eqb _ _); [|destruct (Z.eqb _ _)]; lra).
  destruct (c36_velocity pData T Hin HT) as (pi & Hv & gv & N & Kv & Hc & HE & HN & _ & HV).
  destruct (eff_shape_total pData T _ Hin (repeat_length vzero _)) as (pi' & pts0 & Hc' & Hs0). rewrite Hc in Hc'. injection Hc' as <-.
  assert (SZ : length Hv = nf /\ Forall (fun bs => length bs = nf) Hv /\ length gv = nf).
  { destruct (velcost_form _ _ _ _ _ HT Hs0) as (H' & g' & N' & HE' & _ & A & B & C & _). rewrite HE in HE'. injection HE' as <- <-.
    rewrite repeat_length in *. auto. }
  destruct SZ as (LH & FH & Lg).
  pose proof (blocks_square nf Hv LH FH) as SqV.
  assert (LgV : length (concat (map l3 gv)) = (3 * nf)%nat).
  { rewrite <- Lg. clear. induction gv as [|a l IH]; [reflexivity|]. cbn [map concat]. rewrite app_length, IH. cbn [length l3]. lia. }
  destruct (c35_path 50 pData T path p Hin HT ltac:(lia) Hp) as (Hd & gd & k & K & Ed & Hk & Sd & Ld & Qd).
  set (b := / k). assert (Hb : 0 < b) by (apply Rinv_0_lt_compat; exact Hk).
  exists pi, ((2 * eff_degree (flag_of pData) - 1) / N), b. split; [exact Hc|]. split; [apply Rdiv_lt_0_compat; lra|]. split; [exact Hb|].
  intros wd Hw.
  (* the distance part *)
  assert (DP : exists Hd gd Kd, (if Rlt_dec 0 wd then computeDistanceCostFunction_path 50 pData T path
          else Ok (matx_zero (dimVar pData), repeat 0 (dimVar pData))) = Ok (Hd, gd) /\ square (3 * nf) Hd /\ length gd = (3 * nf)%nat /\
      (forall xs, length xs = nf -> 0 <= quad Hd (flat xs) /\ (0 < wd -> xs <> repeat vzero (length xs) -> 0 < quad Hd (flat xs))) /\
      forall xs cv, length xs = nf -> eff_curve pData T xs = Ok cv ->
        wd * (quad Hd (flat xs) + 2 * rdot gd (flat xs)) + Kd = wd * b * path_gap 50 pData T cv (fun k => p (INR k * (1 / (INR 50 - 1))))).
  { destruct (Rlt_dec 0 wd) as [Pw|Pw].
    - exists Hd, gd, (wd * K / k). split; [exact Ed|]. split; [exact Sd|]. split; [exact Ld|].
      split.
      + rewrite (path_ok 50 pData T path p ltac:(lia) Hp) in Ed.
        destruct (dist_quad pData T pi _ Hd gd 50 Hin HT Hc ltac:(lia) (Nat.eq_le_incl _ _ (eq_sym (eq_trans (map_length _ _) (seq_length 50 0)))) Ed) as (k' & Hk' & HQ').
        intros xs Lx. specialize (HQ' xs Lx).
        pose proof (wsum_nonneg (fun i => vnorm2 (ev_blocks (wn_blocks (okw (evaluateCurveWaypointAtTime pData pi (INR i * (1 / (INR 50 - 1)))))) xs)) 0 50 (fun k => vnorm2_nonneg _)) as P0.
        rewrite <- HQ' in P0.
        assert (Q0 : 0 <= quad Hd (flat xs)) by (apply Rmult_le_reg_l with k'; [exact Hk'|lra]).
        split; [exact Q0|]. intros _ Hne. destruct (Rle_lt_or_eq_dec _ _ Q0) as [L|Z]; [exact L|]. exfalso. apply Hne.
        apply (dist_pd pData T pi xs Hin HT Hc Lx). rewrite <- HQ', <- Z. ring.
      + intros xs cv Lx Ec. rewrite <- (Qd xs cv Lx Ec). unfold b. field. lra.
    - assert (wd = 0) by lra. subst wd. exists (matx_zero (3 * nf)), (repeat 0 (3 * nf)), 0. rewrite (dim_nf pData Hin). split; [reflexivity|].
      split; [apply square_zero|]. split; [apply repeat_length|]. split; [|intros; ring].
      intros xs Lx. rewrite quad_zero. split; [lra|]. intros; lra. }
  clear Hd gd K Ed Sd Ld Qd. destruct DP as (Hd & gd & Kd & Ed & Sd & Ld & Pd & Qd).
  exists (matx_add (matx_scal (1 - wd) (blocks_matx Hv)) (matx_scal wd Hd)), (vecx_add (vecx_scal (1 - wd) (concat (map l3 gv))) (vecx_scal wd gd)),
    ((1 - wd) * Kv / N + Kd).
  split.
  { unfold computeEndEffectorCost. rewrite Ed. cbn [bind]. rewrite HE. cbn [bind fst snd]. reflexivity. }
  assert (QE : forall v, quad (matx_add (matx_scal (1 - wd) (blocks_matx Hv)) (matx_scal wd Hd)) v = (1 - wd) * quad (blocks_matx Hv) v + wd * quad Hd v).
  { intros v. rewrite (quad_add (3 * nf)) by (apply square_scal; assumption). rewrite !quad_scal. reflexivity. }
  split.
  - intros xs Lx Hne. rewrite QE. destruct (velcost_pd _ _ _ _ _ _ _ xs HT Hs0 HE Lx) as [V0 V1]. specialize (V1 Hne).
    destruct (Pd xs Lx) as [D0 D1]. destruct (Rlt_dec 0 wd) as [Pw|Pw].
    + specialize (D1 Pw Hne). assert (0 <= (1 - wd) * quad (blocks_matx Hv) (flat xs)) by (apply Rmult_le_pos; lra).
      assert (0 < wd * quad Hd (flat xs)) by (apply Rmult_lt_0_compat; assumption). lra.
    + assert (wd = 0) by lra. subst wd. lra.
  - intros xs cv B i Lx Ec HB Hi. rewrite QE. rewrite rdot_add by (unfold vecx_scal; rewrite !map_length; lia). rewrite !rdot_scal.
    destruct (HV xs B Lx) as (cv' & Ec' & HI). rewrite Ec in Ec'. injection Ec' as <-. destruct (HI HB) as (i' & Hi' & Hbd).
    rewrite (speed_integral_unique _ _ _ _ Hi' Hi) in Hbd. clear HI Hi'. rewrite <- (Qd xs cv Lx Ec).
    set (qv := quad (blocks_matx Hv) (flat xs)) in *. set (rv := rdot (concat (map l3 gv)) (flat xs)) in *.
    set (dg := 2 * eff_degree (flag_of pData) - 1) in *.
    replace ((1 - wd) * qv + wd * quad Hd (flat xs) + 2 * ((1 - wd) * rv + wd * rdot gd (flat xs)) + ((1 - wd) * Kv / N + Kd)
      - ((1 - wd) * (dg / N) * i + (wd * (quad Hd (flat xs) + 2 * rdot gd (flat xs)) + Kd)))
      with (((1 - wd) / N) * (N * (qv + 2 * rv) + Kv - dg * i)) by (field; lra).
    assert (W0 : 0 <= (1 - wd) / N) by (apply Rmult_le_pos; [lra|left; apply Rinv_0_lt_compat; exact HN]).
    rewrite Rabs_mult, (Rabs_pos_eq ((1 - wd) / N)) by exact W0.
    replace ((1 - wd) * (dg / N) * (3 * velocity_eps (flag_of pData) * (B * B)) / (dg * T))
      with ((1 - wd) / N * (3 * velocity_eps (flag_of pData) * (B * B) / T)) by (field; repeat split; lra).
    apply Rmult_le_compat_l; assumption.
Qed.

(** * Optimal trajectories *)
Lemma c36_plan pData path (p : R -> vec3) T :
  In (flag_of pData) effector_flags -> 0 < T -> (forall s, 0 <= s <= 1 -> path s = Ok (p s)) ->
  exists a b, 0 < a /\ 0 < b /\ forall wg quadprog glpk init wd pi M ys,
  qp_solves quadprog -> (forall n, length (init n) = n) -> 0 <= wd <= 1 ->
  computeConstantWaypoints pData T = Ok pi -> computeEndEffectorConstraints pData T pi = Ok M ->
  length ys = eff_free (flag_of pData) -> satX M (flat ys) ->
  exists r xs, solveEndEffector wg quadprog glpk init pData path T wd = Ok r /\ rc_success r = true /\
    length xs = eff_free (flag_of pData) /\ rc_x r = flat xs /\ eff_curve pData T xs = Ok (rc_c r) /\ satX M (flat xs) /\
    forall zs cv B i j, length zs = eff_free (flag_of pData) -> satX M (flat zs) -> eff_curve pData T zs = Ok cv ->
      Forall (within B) (bc_pts (rc_c r)) -> Forall (within B) (bc_pts cv) ->
      speed_integral (rc_c r) T i -> speed_integral cv T j ->
      (1 - wd) * a * i + wd * b * path_gap 50 pData T (rc_c r) (fun k => p (INR k * (1 / (INR 50 - 1)))) <=
      (1 - wd) * a * j + wd * b * path_gap 50 pData T cv (fun k => p (INR k * (1 / (INR 50 - 1))))
      + (1 - wd) * a * (6 * velocity_eps (flag_of pData) * (B * B)) / ((2 * eff_degree (flag_of pData) - 1) * T).
Proof.
  intros Hin HT Hp.
  destruct (eff_cost pData T path p Hin HT Hp) as (pi2 & a & b & Hc2 & Ha & Hb & HW).
  exists a, b. split; [exact Ha|]. split; [exact Hb|].
  intros wg quadprog glpk init wd pi M ys QO HI Hw Hc HM Ly Hy. rewrite Hc in Hc2. injection Hc2 as <-.
  destruct (eff_constraints_total pData T Hin HT) as (pi1 & M1 & Hc1 & HM1 & HL). rewrite Hc in Hc1. injection Hc1 as <-. rewrite HM in HM1. injection HM1 as <-.
  destruct (HW wd Hw) as (H & g & K & HE & PD & HQ).
  assert (DV : dimVar pData = (3 * eff_free (flag_of pData))%nat) by (apply (dim_nf pData Hin)).
  destruct (solve_optX wg quadprog glpk M H g (init (dimVar pData)) (flat ys) QO) as (x' & ES & Lx' & Sx & Ox).
  { rewrite HI. exact HL. }
  { rewrite HI. intros v Lv Hne. rewrite DV in Lv. destruct (unflat _ v Lv) as (vs & Lvs & ->). apply PD; [exact Lvs|].
    intros Z. apply Hne. rewrite Z, flat_zero, DV, Lvs. reflexivity. }
  { rewrite HI, DV, flat_len, Ly. reflexivity. }
  { exact Hy. }
  rewrite HI in Lx', Ox. rewrite DV in Lx'. destruct (unflat _ x' Lx') as (xs & Lxs & ->).
  destruct (eff_boundary pData T xs Hin Lxs HT) as (cv & Ecv & _).
  unfold solveEndEffector. rewrite Hc. cbn [bind]. rewrite HM. cbn [bind]. rewrite HE. cbn [bind fst snd]. rewrite HI in ES. rewrite ES. cbn [bind rd_success rd_x].
  pose proof Ecv as Ecv'. unfold eff_curve in Ecv'. rewrite Ecv'. cbn [bind].
  eexists _, xs. split; [reflexivity|]. split; [reflexivity|]. split; [exact Lxs|]. split; [reflexivity|]. cbn [rc_c]. split; [exact Ecv|]. split; [exact Sx|].
  intros zs cvz B i j Lz Sz Ez Bx Bz Hi Hj.
  pose proof (HQ xs cv B i Lxs Ecv Bx Hi) as Q1. pose proof (HQ zs cvz B j Lz Ez Bz Hj) as Q2.
  specialize (Ox (flat zs)). rewrite DV, flat_len, Lz in Ox. specialize (Ox eq_refl Sz).
  set (E1 := (1 - wd) * a * i + _) in *. set (E2 := (1 - wd) * a * j + wd * b * _) in *.
  replace ((1 - wd) * a * (6 * velocity_eps (flag_of pData) * (B * B)) / ((2 * eff_degree (flag_of pData) - 1) * T))
    with (2 * ((1 - wd) * a * (3 * velocity_eps (flag_of pData) * (B * B)) / ((2 * eff_degree (flag_of pData) - 1) * T))) by (unfold Rdiv; ring).
  set (er := (1 - wd) * a * (3 * velocity_eps (flag_of pData) * (B * B)) / ((2 * eff_degree (flag_of pData) - 1) * T)) in *.
  set (A1 := quad H (flat xs)) in *. set (A2 := quad H (flat zs)) in *. set (B1 := rdot g (flat xs)) in *. set (B2 := rdot g (flat zs)) in *.
  clearbody A1 A2 B1 B2 E1 E2 er. clear - Ox Q1 Q2.
  revert Q1 Q2. unfold Rabs. destruct (Rcase_abs _); destruct (Rcase_abs _); lra.
Qed.
