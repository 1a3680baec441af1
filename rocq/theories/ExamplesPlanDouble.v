(** Cases that meet the hypotheses of the theorems of PropertiesPlanDouble.v: standing still at (1, 0, 1) for two phases of half a
    second, in the boxes of ExamplesRowsDouble.v. *)
From Flocq Require Import Core BinarySingleNaN.
From Coq Require Import List Lia Lra.
From Verif Require Import Vec SpecBezier SpecTime ModelData ModelWaypoints ModelDispatch SpecCom SpecGap Double ModelDouble ModelPtsDouble ModelCoefDouble ModelRowsDouble
  SpecDouble SpecDouble2 SpecGapDouble SpecPtsDouble SpecCoefDouble SpecRowsDouble SpecPlanDouble
  ProofCurve ProofWaypoints ProofWaypoints2 ProofDouble ProofDouble2 ProofDouble3 ProofDouble5 ProofDouble7 ProofPtsDouble ProofPtsDouble6 ProofPtsDouble9 ProofPlanDouble2
  PropertiesDouble ExamplesDouble ExamplesGapDouble ExamplesPtsDouble ExamplesCoefDouble ExamplesRowsDouble PropertiesRowsDouble PropertiesPlanDouble.
Import ListNotations.
Open Scope R_scope.

Definition still : fdata := FD F_acc_dc1_c1 (FV (of_Z 1) f0 (of_Z 1)) fv_zero fv_zero fv_zero (FV (of_Z 1) f0 (of_Z 1)) fv_zero fv_zero fv_zero.
Definition here : vec3 := V3 1 0 1.
Definition still_cv : bcurve := BCurve (repeat here 6) 1.
Lemma still_mild : mild_data still.
Proof.
  assert (Z3 : mild3 fv_zero) by exact (conj mild_0 (conj mild_0 mild_0)). assert (P : mild3 (FV (of_Z 1) f0 (of_Z 1))) by exact (conj (mild_Z 1 ltac:(lia)) (conj mild_0 (mild_Z 1 ltac:(lia)))).
  unfold mild_data, still. cbn [fd_c0 fd_dc0 fd_ddc0 fd_j0 fd_c1 fd_dc1 fd_ddc1 fd_j1]. repeat (split; [assumption|]). assumption.
Qed.
Definition still_pb : problem := let q := pb_of still in Problem (contacts q) here vzero vzero vzero here vzero vzero vzero (l0 q) (useAngularMomentum q) (constr q) (costFunction q) (representation q).
Lemma still_eq : pb_of still = still_pb.
Proof.
  assert (V1 : B2R (of_Z 1) = 1) by apply one_R. assert (V0 : B2R f0 = 0) by reflexivity. unfold still_pb, pb_of, still, fv_R, fv_zero, here, vzero.
  cbn [contacts l0 useAngularMomentum constr costFunction representation fd_c0 fd_dc0 fd_ddc0 fd_j0 fd_c1 fd_dc1 fd_ddc1 fd_j1 fx fy fz]. rewrite V1, V0. reflexivity.
Qed.
Lemma still_curve : com_curve (pb_of still) 1 here = Ok still_cv.
Proof.
  rewrite still_eq. cbv [com_curve]. cbn. unfold mk_bezier. destruct (Rle_dec 1 0); [lra|].
  unfold still_cv, here, repeat. repeat f_equal; apply v3_eq; cbn; field.
Qed.
Lemma still_pos t : cv_fun still_cv t = here.
Proof. apply v3_eq; cbv [cv_fun bc_pts bc_T still_cv here repeat length Nat.pred map curve bez3 bezl bez sumf bern binom nth vx vy vz Nat.add Nat.sub INR pow]; field. Qed.
Lemma still_acc t : is_deriv_n 2 (cv_fun still_cv) t vzero.
Proof.
  pose proof (curve_is_deriv_n 2 (bc_pts still_cv) 1 t) as Hd. replace vzero with (curve (hodo_n 2 1 (bc_pts still_cv)) 1 t); [exact Hd|].
  apply v3_eq; cbv [bc_pts still_cv here repeat hodo_n hodo vdiffs length Nat.pred map curve bez3 bezl bez sumf bern binom nth vx vy vz vscal vsub vzero Nat.add Nat.sub INR pow]; field.
Qed.
Lemma still_extent ax : axis ax -> 0 <= extent 1 (pb_of still) here ax <= 5.
Proof.
  intros Hax. unfold extent. assert (V1 : B2R (of_Z 1) = 1) by apply one_R. assert (V0 : B2R f0 = 0) by reflexivity.
  assert (A0 : Rabs 0 = 0) by apply Rabs_R0. assert (A1 : Rabs 1 = 1) by (apply Rabs_pos_eq; lra).
  assert (X : 0 <= Rabs (ax here) <= 1) by (unfold here; destruct Hax as [->|[->| ->]]; cbn [vx vy vz]; rewrite ?A0, ?A1; lra).
  assert (S0 : 0 <= reach 1 (map ax (start_state (pb_of still))) <= 4 /\ reach 1 (map ax (end_state (pb_of still))) <= 4).
  { unfold start_state, end_state, when; change (flag_of (pb_of still)) with F_acc_dc1_c1;
    repeat match goal with |- context [fl_has ?a ?b] => let v := eval vm_compute in (fl_has a b) in change (fl_has a b) with v end; cbv iota; cbn [app map pb_of c0 dc0 ddc0 c1 dc1 still fd_c0 fd_dc0 fd_ddc0 fd_c1 fd_dc1];
    destruct Hax as [->|[->| ->]]; unfold fv_R, fv_zero; cbn [vx vy vz fx fy fz reach]; rewrite ?V0, ?V1, ?A0, ?A1; repeat split; lra. }
  destruct S0 as [[S1 S2] S3]. pose proof (Rmax_l (reach 1 (map ax (start_state (pb_of still)))) (reach 1 (map ax (end_state (pb_of still))))).
  split; [lra|]. replace 5 with (4 + 1) by lra. apply Rplus_le_compat; [apply Rmax_lub; lra|apply X].
Qed.
Lemma still_kin K k : Rabs (vx K) = 1 -> vy K = 0 -> vz K = 0 -> Rabs k <= 2 -> kin_err 5 1 (pb_of still) here K k <= / 2.
Proof.
  intros Kx Ky Kz Hk. unfold kin_err. cbv zeta. rewrite Kx, Ky, Kz. unfold here. cbn [vx vy vz]. rewrite Rabs_R0, (Rabs_pos_eq 1) by lra.
  pose proof (stride_pos _ (still_extent vx (or_introl eq_refl))) as P. pose proof tiny_eta as Et. unfold u53. change (IZR (2 ^ 53)) with (IZR 9007199254740992).
  assert (Q37 : / 2 ^ 100 <= / 2 ^ 40) by (apply Rinv_le_contravar; [apply pow_lt; lra|apply Rle_pow; [lra|lia]]).
  assert (R40 : 2 ^ 40 = 1099511627776) by (cbn [pow]; lra). assert (R37 : 2 ^ 37 = 137438953472) by (cbn [pow]; lra). rewrite R37 in P. rewrite R40 in Q37. unfold here in P.
  set (e := pos_err 5 1 (extent 1 (pb_of still) (V3 1 0 1) vx)) in *. pose proof (Rabs_pos k). lra.
Qed.
Lemma still_ddc ax : axis ax -> accel_err 5 1 (pb_of still) here 2 ax <= / 2.
Proof.
  intros Hax. unfold accel_err. pose proof (stride_acc _ (still_extent ax Hax)) as P. rewrite (Rabs_pos_eq 2) by lra. unfold u53. change (IZR (2 ^ 53)) with (IZR 9007199254740992).
  assert (Q : 2 ^ 34 = 17179869184) by (cbn [pow]; lra). rewrite Q in P. set (e := acc_err 5 1 (extent 1 (pb_of still) here ax)) in *. lra.
Qed.
(** standing still meets the rows of any samples *)
Lemma still_meets bs rk ra : Forall (fun b => b <> [] /\ Forall (fun t => is_finite t = true /\ 0 <= B2R t) b) bs -> length bs = 2%nat -> times_ok (tagged_f 0 bs) ->
  assignKinematicConstraints_f sub_gemv still [box1; box2] (of_Z 1) (tagged_f 0 bs) = Ok rk -> assignAccelerationConstraints_f still (of_Z 2) (of_Z 1) (tagged_f 0 bs) = Ok ra ->
  Forall (fun r => holds 0 r here) (rk ++ ra).
Proof.
  intros Hb L Ht Ek Ea. destruct T1_ok as [F1 [B1 B2]]. apply Forall_app.
  assert (V1 : B2R (of_Z 1) = 1) by apply one_R. assert (V2 : B2R (of_Z 2) = 2) by (apply of_Z_val; lia). assert (V3 : B2R (of_Z (-1)) = -1) by (apply of_Z_val; lia). split.
  - destruct (C88_kinematics _ _ (of_Z 1) (pb_of_denotes still) still_mild F1 B1 B2) as (ev & He & H); [cbn; tauto|intros X; discriminate X|].
    destruct (H sub_gemv [box1; box2] bs sub_gemv_ok boxes_mild (eq_sym L) ltac:(intros X; rewrite X in L; discriminate L) Hb) as (rows & E & _ & G). rewrite Ek in E. injection E as <-.
    destruct (G here) as (cv & Ec & _ & G2). rewrite V1 in Ec, G2. rewrite still_curve in Ec. injection Ec as <-. apply G2. intros i c t K k Ei _ (j & E1 & E2). rewrite still_pos. change (degree still_cv) with 5%nat.
    assert (C : (K = FV (of_Z 1) f0 f0 /\ k = of_Z 2) \/ (K = FV (of_Z (-1)) f0 f0 /\ k = of_Z 1)).
    { destruct i as [|[|[|]]]; try discriminate Ei; injection Ei as <-; (destruct j as [|[|]]; [|discriminate E1|discriminate E1]); injection E1 as <-; injection E2 as <-; auto. }
    destruct C as [[-> ->]|[-> ->]]; unfold fv_R, vdot; cbn [fx fy fz vx vy vz]; rewrite ?V1, ?V2, ?V3; change (B2R f0) with 0; cbn [here vx vy vz].
    + pose proof (still_kin (Vec.V3 1 0 0) 2) as B. cbn [vx vy vz] in B. rewrite (Rabs_pos_eq 1), (Rabs_pos_eq 2) in B by lra. specialize (B eq_refl eq_refl eq_refl ltac:(lra)). lra.
    + pose proof (still_kin (Vec.V3 (-1) 0 0) 1) as B. cbn [vx vy vz] in B. rewrite (Rabs_left (-1)), (Rabs_pos_eq 1) in B by lra. specialize (B ltac:(lra) eq_refl eq_refl ltac:(lra)). lra.
  - destruct (C88_accelerations _ _ (of_Z 1) (pb_of_denotes still) still_mild F1 B1 B2) as (ev & He & H); [cbn; tauto|intros X; discriminate X| |].
    { rewrite one_R. rewrite <- Rinv_1. apply Rinv_le_contravar; [lra|apply pow_R1_Rle; lra]. }
    destruct (H (of_Z 2) _ (mild_Z 2 ltac:(lia)) Ht) as (rows & E & _ & _ & G). rewrite Ea in E. injection E as <-. rewrite V1, V2 in G. destruct (G here still_cv still_curve) as [_ G2]. apply G2. intros tp Hin.
    exists vzero. split; [apply still_acc|]. intros ax Hax. change (degree still_cv) with 5%nat. pose proof (still_ddc ax Hax) as B. assert (Z0 : ax vzero = 0) by (destruct Hax as [->|[->| ->]]; reflexivity). rewrite Z0, Rabs_R0. lra.
Qed.
Lemma within_some (l : list vec3) : exists M, 0 <= M /\ Forall (within M) l.
Proof.
  induction l as [|v l (M & M0 & H)]; [exists 0; split; [lra|apply Forall_nil]|].
  set (m := norm1 v). pose proof (Rabs_pos (vx v)). pose proof (Rabs_pos (vy v)). pose proof (Rabs_pos (vz v)).
  assert (W : forall w B C, within B w -> B <= C -> within C w) by (unfold within; intros w B C (A1 & A2 & A3) BC; repeat split; lra).
  exists (M + m). unfold m, norm1. split; [lra|]. apply Forall_cons; [unfold within; repeat split; lra|]. eapply Forall_impl; [|exact H]. intros w Hw. apply (W w M); [exact Hw|lra].
Qed.

Definition halves : list f64 := [half_f; half_f].
Lemma halves_posf : Forall posf halves.
Proof. assert (P : posf half_f) by (split; [vm_compute; reflexivity|rewrite half_val; lra]). exact (Forall_cons _ P (Forall_cons _ P (Forall_nil _))). Qed.
Lemma halves_end : end_f halves (length halves) = of_Z 1.
Proof. apply B2SF_inj; vm_compute; reflexivity. Qed.
Lemma halves_vals : map (fun d : f64 => B2R d) halves = [1 / 2; 1 / 2].
Proof. cbn [halves map]. rewrite half_val. reflexivity. Qed.
Lemma halves_run : exists fuel ta, computeDiscretizedTime_f fuel halves st_dt = Some ta.
Proof.
  destruct one_tenth as [_ Q]. pose proof tenth_ge as G. assert (F : is_finite (end_f halves (length halves)) = true) by (rewrite halves_end; apply T1_ok).
  assert (U : u53 <= / 100) by (unfold u53; apply Rinv_le_contravar; [lra|apply IZR_le; discriminate]).
  destruct (C76_ends halves st_dt halves_posf Q F) as (fuel & ta & H); [rewrite halves_end, one_R; unfold st_dt; pose proof u53_pos; lra|].
  exists fuel, ta. apply H. lia.
Qed.
Lemma one_long : / 2 ^ 100 <= B2R (of_Z 1).
Proof. rewrite one_R. rewrite <- Rinv_1. apply Rinv_le_contravar; [lra|apply pow_R1_Rle; lra]. Qed.
Lemma tagged_times bs : Forall (fun b => b <> [] /\ Forall (fun t => is_finite t = true /\ 0 <= B2R t) b) bs -> times_ok (tagged_f 0 bs).
Proof.
  intros H. assert (G : forall z, times_ok (tagged_f z bs)); [|apply G]. induction H as [|b l [_ Hb] _ IH]; intros z; cbn [tagged_f]; [apply Forall_nil|]. apply Forall_app. split; [|apply IH]. rewrite Forall_map. exact Hb.
Qed.

(** Steps of one tenth of a second: the rows hold at the free point (1, 0, 1), and the constraints at 0.37 s. *)
Example ex_C89_step : exists fuel ta rk ra cf, computeDiscretizedTime_f fuel halves st_dt = Some ta /\
  assignKinematicConstraints_f sub_gemv still [box1; box2] (of_Z 1) ta = Ok rk /\ assignAccelerationConstraints_f still (of_Z 2) (of_Z 1) ta = Ok ra /\
  Forall (fun r => holds 0 r here) (rk ++ ra) /\ com_curve_f still (of_Z 1) here = Ok cf /\
  exists i c M, nth_error [box1; box2] i = Some c /\ meets_between (pb_of still) 1 here c (of_Z 2) cf 0 M (gap_step 1 (B2R st_dt)) (37 / 100).
Proof.
  destruct halves_run as (fuel & ta & R). destruct one_tenth as [_ Q]. destruct T1_ok as [F1 [B1 B2]]. assert (F : is_finite (end_f halves (length halves)) = true) by (rewrite halves_end; exact F1).
  destruct (C89_step _ _ (of_Z 1) (pb_of_denotes still) still_mild F1 B1 B2) with (Ts := halves) (dt := st_dt) (fuel := fuel) (ta := ta) (sub := sub_gemv) (fcs := [box1; box2]) (amax := of_Z 2)
    as (ev & rk & ra & Ev & Cov & Ek & Ea & H); try assumption; [cbn; tauto|intros X; discriminate X|exact one_long|discriminate|exact halves_posf|exact sub_gemv_ok|exact boxes_mild|reflexivity|exact (mild_Z 2 ltac:(lia))|].
  destruct (step_blocks halves st_dt fuel ta halves_posf Q F R) as (bs & E & L & _ & N & Fb). pose proof (blocks_fit bs N Fb) as Hb.
  assert (S : Forall (fun r => holds 0 r here) (rk ++ ra)) by (rewrite E in Ek, Ea; apply (still_meets bs); [exact Hb|exact L|apply tagged_times, Hb|exact Ek|exact Ea]).
  destruct (H here) as (cf & Ef & G). exists fuel, ta, rk, ra, cf. split; [exact R|]. split; [exact Ek|]. split; [exact Ea|]. split; [exact S|]. split; [exact Ef|].
  destruct (Cov ltac:(rewrite halves_end; lra) (37 / 100) ltac:(rewrite one_R; lra)) as (i & Hi & B).
  destruct (nth_error [box1; box2] i) as [c|] eqn:Hc; [|apply nth_error_None in Hc; change (length [box1; box2]) with (length halves) in Hc; lia].
  destruct (within_some (bc_pts cf)) as (M & M0 & HM). exists i, c, M. split; [exact Hc|]. pose proof (G 0 M M0 HM S i c (37 / 100) Hc B) as X. rewrite one_R in X. exact X.
Qed.
(** Seven points per phase. *)
Example ex_C89_fixed : exists rk ra cf, let arr := computeDiscretizedTimeFixed_f (of_Z 1) halves 7 in
  assignKinematicConstraints_f sub_gemv still [box1; box2] (of_Z 1) arr = Ok rk /\ assignAccelerationConstraints_f still (of_Z 2) (of_Z 1) arr = Ok ra /\
  Forall (fun r => holds 0 r here) (rk ++ ra) /\ com_curve_f still (of_Z 1) here = Ok cf /\
  exists i c M, nth_error [box1; box2] i = Some c /\ meets_between (pb_of still) 1 here c (of_Z 2) cf 0 M (gap_fixed 2 7 1 0 1 (1 / 2)) (37 / 100).
Proof.
  destruct T1_ok as [F1 [B1 B2]]. assert (Tt : total (map (fun d : f64 => B2R d) halves) = 1) by (rewrite halves_vals; cbn; lra).
  assert (A1 : (Z.of_nat (length halves) * Z.of_nat 7 < 2 ^ 53)%Z) by reflexivity.
  assert (A2 : total (map (fun d : f64 => B2R d) halves) <= IZR (2 ^ 1000)) by (rewrite Tt; apply IZR_le; discriminate).
  assert (A3 : forall d, In d halves -> / IZR (2 ^ 1022) <= B2R d / INR 7).
  { assert (N : / IZR (2 ^ 1022) <= / 100) by (apply Rinv_le_contravar; [lra|apply IZR_le; discriminate]). intros d [<-|[<-|[]]]; rewrite half_val; cbn [INR]; lra. }
  assert (A4 : Rabs (B2R (of_Z 1) - total (map (fun d : f64 => B2R d) halves)) <= 0) by (rewrite Tt, one_R, Rminus_diag_eq, Rabs_R0; lra).
  destruct (C89_fixed _ _ (of_Z 1) (pb_of_denotes still) still_mild F1 B1 B2) with (Ts := halves) (p := 7%nat) (del0 := 0) (sub := sub_gemv) (fcs := [box1; box2]) (amax := of_Z 2)
    as (ev & rk & ra & Ev & Cov & Ek & Ea & H); try assumption; [cbn; tauto|intros X; discriminate X|exact one_long|discriminate|exact halves_posf|lia|exact sub_gemv_ok|exact boxes_mild|reflexivity|exact (mild_Z 2 ltac:(lia))|].
  destruct (dummy (pb_of still) ltac:(cbn; tauto) ltac:(intros X; discriminate X) halves ltac:(discriminate) halves_posf) as (p' & WP).
  destruct (fixed_cells p' halves (of_Z 1) 7 WP halves_posf (conj F1 B1) ltac:(lia) A1 A2 A3) as (cs & E & L & B).
  destruct (ws_facts p' halves 7 WP halves_posf ltac:(lia) A1 A2 A3 cs L B) as (L2 & N & Fb & Et). pose proof (blocks_fit _ N Fb) as Hb.
  assert (S : Forall (fun r => holds 0 r here) (rk ++ ra)).
  { apply (still_meets (with_start cs)); [exact Hb|exact L2|apply tagged_times, Hb| |]; rewrite Et, <- E; assumption. }
  destruct (H here) as (cf & Ef & G). exists rk, ra, cf. cbv zeta. split; [exact Ek|]. split; [exact Ea|]. split; [exact S|]. split; [exact Ef|].
  destruct (Cov (37 / 100) ltac:(rewrite one_R; lra)) as (i & s & zs & e & ze & Hi & Es & Ee & Bt).
  destruct (nth_error [box1; box2] i) as [c|] eqn:Hc; [|apply nth_error_None in Hc; change (length [box1; box2]) with (length halves) in Hc; lia].
  assert (HD : nth_error halves i = Some half_f) by (destruct i as [|[|i]]; [reflexivity|reflexivity|cbn [halves length] in Hi; lia]).
  destruct (within_some (bc_pts cf)) as (M & M0 & HM). exists i, c, M. split; [exact Hc|]. pose proof (G 0 M M0 HM S i c half_f s zs e ze (37 / 100) Hc HD Es Ee Bt) as X. rewrite one_R, Tt, half_val in X. exact X.
Qed.
