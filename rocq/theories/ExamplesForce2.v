(** Concrete inputs for the theorems of PropertiesForce2.v: the robot of ExamplesForce.v
    on its four corners, at rest at both ends of a second. *)
From Coq Require Import Lia Lra Psatz.
From Verif Require Import Vec SpecBezier SpecTime ModelData ModelWaypoints ModelDispatch ModelUtils ModelCont ModelSolver ModelTraj ModelQp
  SpecCom SpecWp SpecCtr SpecCont SpecTraj SpecEnd SpecEnd2 SpecEnd3 SpecForce SpecForce2 ModelCom SpecQp2 ProofBezier ProofWaypoints2 ProofCurve ProofNd ProofCom2 ProofCont ProofCont2 ProofCont3 ProofCont6 ProofCont8 ProofCont10 ProofQp3 ProofEnd PropertiesWaypoints PropertiesEnd2 PropertiesForce PropertiesForce2 ExamplesCom ExamplesTraj ExamplesEnd ExamplesEnd2 ExamplesForce ProofQp18 ExamplesQp ProofQp11 SpecQp.
Import ListNotations.
Open Scope R_scope.

Definition sd_x : vec3 := V3 0 0 (4/5).
Definition sd_pb : problem :=
  Problem [rb_c four_feet] sd_x vzero vzero vzero sd_x vzero vzero vzero vzero false
    (Constraints F_dc1_c1 true 5 0) DISTANCE_TRAVELED FORCE.
Lemma sd_total : total [1] = 1.
Proof. cbn. ring. Qed.
Lemma sd_wp : well_posed sd_pb [1].
Proof.
  split; [cbn; tauto|]. split; [reflexivity|]. split; [discriminate|].
  split; [repeat constructor; lra|]. split; [reflexivity|].
  repeat constructor; eexists; (split; [reflexivity|]; split; [cbn; lra|]; split; [constructor|cbn; lia]).
Qed.
Lemma sd_same : same_gravity sd_pb (V3 0 0 (-981/100)).
Proof. intros c ph [<-|[]] H; injection H as <-; reflexivity. Qed.
Definition sd_cv (y : vec3) : bcurve := BCurve [sd_x; sd_x; y; sd_x; sd_x] 1.
Lemma sd_curve y : com_curve sd_pb (total [1]) y = Ok (sd_cv y).
Proof.
  rewrite sd_total. cbv [com_curve]. cbn. unfold mk_bezier. destruct (Rle_dec 1 0); [lra|].
  unfold sd_cv, sd_x, vzero. destruct y. repeat f_equal; apply v3_eq; cbn; field.
Qed.
Lemma sd_ws : exists ws, computeWwaypoints sd_pb (total [1]) = Ok ws /\ length ws = 6%nat.
Proof. eexists. split; reflexivity. Qed.
Definition sd_ph : cphase := CPhase [] 50 (V3 0 0 (-981/100)) four_feet.
Lemma sd_values ws : computeWwaypoints sd_pb (total [1]) = Ok ws ->
  (forall y, sum_list (map (fun w => vz (fst (item_w (w, sd_ph) y))) ws) = -2943) /\
  map (fun w => item_w (w, sd_ph) sd_x) ws = repeat (V3 0 0 (-981/2), vzero) 6.
Proof.
  rewrite sd_total. intros E. cbn in E. injection E as <-. split.
  - intros y. unfold sum_list, item_w, ev_w6, v6_scal, v6sub, vzero. cbn. unfold vdot, vscal; cbn. field.
  - cbn [map repeat]. unfold item_w, ev_w6, v6_scal, v6sub, vzero, sd_x.
    repeat (apply (f_equal2 (@cons v6)); [apply (f_equal2 (@pair vec3 vec3)); apply v3_eq; cbn; unfold vdot, vscal; cbn; field|]). reflexivity.
Qed.
Lemma sd_phase : phase_start [1] 0 = 0 /\ phase_end [1] 0 = 1.
Proof. unfold phase_start, phase_end. cbn. split; ring. Qed.
Lemma sd_giw ws y Pw : computeWwaypoints sd_pb (total [1]) = Ok ws -> length Pw = length ws ->
  (ctrl_giw Pw (phase_start [1] 0) (phase_end [1] 0) sd_ph (cv_fun (sd_cv y)) <-> Pw = map (fun w => item_w (w, sd_ph) y) ws).
Proof.
  intros Ews L. destruct sd_phase as [-> ->].
  assert (C : ctrl_giw (map (fun w => item_w (w, sd_ph) y) ws) 0 1 sd_ph (cv_fun (sd_cv y))).
  { intros t acc Ha. destruct (C05_wrench_waypoints sd_pb (total [1]) y (sd_cv y) (V3 0 0 (-981/100)) ltac:(cbn; tauto) (sd_curve y) eq_refl) as (ws' & E & H).
    rewrite Ews in E. injection E as <-. specialize (H t acc Ha). rewrite sd_total in H.
    rewrite items_curve by (intros ->; destruct sd_ws as (? & E & X); rewrite Ews in E; injection E as <-; discriminate X).
    replace (1 - 0) with 1 by ring. replace (t - 0) with t by ring. rewrite H, wrench_giw2, giw2_same. reflexivity. }
  split; [|intros ->; exact C]. intros H. eapply ctrl_giw_uniq; [exact Rlt_0_1|rewrite map_length; exact L|exact H|exact C].
Qed.

Lemma sd_rate ws : computeWwaypoints sd_pb (total [1]) = Ok ws ->
  wrench_ctrl_rate sd_pb (total [1]) (V3 0 0 (-981/100)) (length ws) 171.
Proof.
  intros E. apply (C62_rate sd_pb (total [1]) (V3 0 0 (-981/100)) 10 1 (sd_cv vzero) ws 171 ltac:(cbn; tauto) eq_refl (sd_curve vzero)).
  - repeat (apply Forall_cons; [apply vnorm_bound; [lra|unfold vnorm2, vdot; cbn; lra]|]). apply Forall_nil.
  - apply vnorm_bound; [lra|unfold vnorm2, vdot; cbn; lra].
  - exact E.
  - rewrite sd_total. lra.
Qed.
Lemma sd_scale : force_scale sd_pb 1 171 1 1.
Proof.
  pose proof eps_small2. pose proof eps_pos. unfold force_scale, force_weight. repeat (split; [lra|]). split.
  - intros c K [<-|[]] [<-|[<-|[]]]; apply vnorm_bound; unfold vnorm2, vdot; cbn; lra.
  - destruct rb_values as [V4 _]. intros c ph [<-|[]] E; injection E as <-; eexists; (split; [eassumption|]); cbn; lra.
Qed.
Lemma comb_down G : Forall (fun g => vz (fst g) = -1) G -> forall b, length b = length G -> vz (fst (comb G b)) = - sum_list b.
Proof.
  induction 1 as [|g G Hg HG IH]; intros [|x b] L; try discriminate; [cbn; ring|]. cbn [comb]. specialize (IH b ltac:(cbn in L; lia)).
  unfold sum_list in *. cbn [fold_right]. destruct (comb G b) as [u w]. cbn in IH |- *. rewrite Hg, IH. ring.
Qed.
Lemma feet_down : Forall (fun g => vz (fst g) = -1) four_feet.
Proof. unfold four_feet, foot. cbn. repeat (apply Forall_cons; [cbn; lra|]). apply Forall_nil. Qed.
Lemma sq_below (beta : R) Bl : force_sq Bl >= 2 * beta * sum_list (map sum_list Bl) - beta * beta * INR (length (concat Bl)).
Proof.
  unfold force_sq, sum_list. induction Bl as [|b Bl IH]; [cbn; lra|]. cbn [map fold_right concat]. rewrite app_length, plus_INR.
  assert (H : fold_right Rplus 0 (map (fun x => x * x) b) >= 2 * beta * fold_right Rplus 0 b - beta * beta * INR (length b)).
  { clear. induction b as [|x b IH]; [cbn; lra|]. cbn [map fold_right length]. rewrite S_INR. pose proof (Rle_0_sqr (x - beta)) as Q. unfold Rsqr in Q. lra. }
  lra.
Qed.
Lemma foot_comb p b : comb (foot p) (repeat b 4) = (V3 0 0 (-4 * b), vcross p (V3 0 0 (-4 * b))).
Proof. destruct p as [p1 p2 p3]. unfold foot. cbn [map repeat comb]. unfold v6add, v6_scal, vcross, vzero, vadd, vscal. cbn [fst snd vx vy vz]. f_equal; apply v3_eq; cbn [vx vy vz]; field. Qed.
Definition sd_Bl : list (list R) := repeat (repeat (981/32) 16) 6.
Lemma sd_balances_iff ws y Bl : computeWwaypoints sd_pb (total [1]) = Ok ws ->
  (balances sd_pb [1] (length ws) (cv_fun (sd_cv y)) Bl <->
   Forall2 (fun w b => length b = 16%nat /\ comb four_feet b = item_w (w, sd_ph) y) ws Bl).
Proof.
  intros Ews. unfold balances.
  assert (EP : force_places (length ws) 0 0 (contacts sd_pb) = map (pair 0%nat) (seq 0 (length ws))).
  { change (force_places (length ws) 0 0 (contacts sd_pb)) with (map (pair 0%nat) (seq 0 (length ws - 0 - 0)) ++ []). rewrite app_nil_r, !Nat.sub_0_r. reflexivity. }
  rewrite EP. set (Q := fun (j : nat) b => exists w, nth_error ws j = Some w /\ length b = 16%nat /\ comb four_feet b = item_w (w, sd_ph) y).
  assert (EQ : forall ij b, fst ij = 0%nat ->
    ((exists c ph Pw w, nth_error (contacts sd_pb) (fst ij) = Some c /\ cd_phase c = Some ph /\
      length Pw = length ws /\ ctrl_giw Pw (phase_start [1] (fst ij)) (phase_end [1] (fst ij)) ph (cv_fun (sd_cv y)) /\
      nth_error Pw (snd ij) = Some w /\ length b = length (cp_G ph) /\ comb (cp_G ph) b = w) <-> Q (snd ij) b)).
  { intros [i j] b Hi. cbn [fst snd] in *. subst i. split.
    - intros (c & ph & Pw & w & E1 & E2 & E3 & E4 & E5 & E6 & E7). injection E1 as <-. injection E2 as <-. change (CPhase [] 50 (V3 0 0 (-981/100)) four_feet) with sd_ph in *.
      apply (sd_giw ws y Pw Ews E3) in E4. subst Pw. destruct (nth_error ws j) as [w0|] eqn:Ej.
      + rewrite (map_nth_error _ _ _ Ej) in E5. injection E5 as <-. exists w0. split; [exact Ej|]. split; [exact E6|exact E7].
      + apply nth_error_None in Ej. exfalso. assert (X : (j < length (map (fun w1 => item_w (w1, sd_ph) y) ws))%nat) by (apply nth_error_Some; rewrite E5; discriminate). rewrite map_length in X. lia.
    - intros (w0 & Ej & L & E). exists (rb_c four_feet), sd_ph, (map (fun w => item_w (w, sd_ph) y) ws), (item_w (w0, sd_ph) y).
      split; [reflexivity|]. split; [reflexivity|]. split; [apply map_length|]. split; [exact (proj2 (sd_giw ws y _ Ews (map_length _ _)) eq_refl)|].
      split; [rewrite (map_nth_error _ _ _ Ej); reflexivity|]. split; [exact L|exact E]. }
  assert (G : forall a n l, (forall j, (j < n)%nat -> nth_error l j = nth_error ws (a + j)) -> length l = n -> forall Bl,
    (Forall2 (fun ij b => Q (snd ij) b) (map (pair 0%nat) (seq a n)) Bl <-> Forall2 (fun w b => length b = 16%nat /\ comb four_feet b = item_w (w, sd_ph) y) l Bl)).
  { clear. intros a n. revert a. induction n as [|n IH]; intros a [|w l] H L Bl; try discriminate.
    - split; intros X; inversion X; constructor.
    - cbn [seq map]. pose proof (H 0%nat ltac:(lia)) as H0. cbn in H0. rewrite Nat.add_0_r in H0.
      assert (H' : forall j, (j < n)%nat -> nth_error l j = nth_error ws (S a + j)) by (intros j Hj; specialize (H (S j) ltac:(lia)); cbn in H; rewrite H; f_equal; lia).
      assert (L' : length l = n) by (cbn in L; lia).
      split; intros X; inversion X as [|? ? ? ? X1 X2]; subst; constructor; try (apply (IH (S a) l H' eq_refl); assumption).
      + destruct X1 as (w' & E & X1). cbn [snd] in E. rewrite <- H0 in E. injection E as <-. exact X1.
      + exists w. cbn [snd]. rewrite <- H0. auto. }
  rewrite <- (G 0%nat (length ws) ws (fun j _ => eq_refl) eq_refl Bl).
  assert (Z : Forall (fun ij => fst ij = 0%nat) (map (pair 0%nat) (seq 0 (length ws)))) by (rewrite Forall_map; apply Forall_forall; reflexivity).
  revert Z. generalize (map (pair 0%nat) (seq 0 (length ws))). clear - EQ. intros l Z. revert Bl. induction Z as [|ij l Hij Z IH]; intros Bl.
  - split; intros X; inversion X; constructor.
  - split; intros X; inversion X; subst; constructor; try (apply (EQ ij); assumption); apply IH; assumption.
Qed.

Lemma sd_acc t acc : is_deriv_n 2 (cv_fun (sd_cv sd_x)) t acc -> acc = vzero.
Proof.
  intros H. pose proof (curve_is_deriv_n 2 (bc_pts (sd_cv sd_x)) 1 t) as Hd.
  rewrite (is_deriv_n_unique 2 _ _ _ _ _ (fun _ => eq_refl) H Hd).
  cbn [bc_pts sd_cv sd_x]. apply v3_eq; cbv [sd_x hodo_n hodo vdiffs length pred map curve bez3 bezl bez sumf bern binom nth vx vy vz vscal vsub vzero Nat.add Nat.sub INR pow]; field.
Qed.
Lemma sd_moves scaled : ctrl_moves scaled sd_pb [1] (sd_cv sd_x).
Proof.
  intros [|i] c Pc Pa Hc L1 C1 L2 C2; [|destruct i; discriminate Hc]. injection Hc as <-. destruct sd_phase as [PS PE]. rewrite PS, PE in C1, C2.
  rewrite (ctrl_pos_uniq Pc (bc_pts (sd_cv sd_x)) 0 1 _ ltac:(lra) L1 C1) by (intros t; unfold cv_fun; cbn [bc_pts bc_T sd_cv]; f_equal; ring).
  rewrite (ctrl_acc_uniq Pa [vzero; vzero; vzero] 0 1 _ ltac:(lra) L2 C2).
  2: { intros t a Ha. rewrite (sd_acc t a Ha). apply v3_eq; cbv [length pred map curve bez3 bezl bez sumf bern binom nth vx vy vz vzero Nat.add Nat.sub INR pow]; field. }
  split.
  - assert (K : kin_ok (rb_c four_feet) sd_x).
    { intros [|[|j]] K k HK Hk; [| |destruct j; discriminate]; injection HK as <-; injection Hk as <-; unfold vdot, sd_x; cbn; lra. }
    repeat (apply Forall_cons; [exact K|]). apply Forall_nil.
  - assert (W : within (acc_bound scaled sd_pb [1]) vzero).
    { assert (0 <= acc_bound scaled sd_pb [1]) by (unfold acc_bound; rewrite sd_total; destruct scaled; cbn; lra).
      repeat split; cbn; rewrite Rabs_R0; assumption. }
    repeat (apply Forall_cons; [exact W|]). apply Forall_nil.
Qed.
(** Standing still with the same force on every edge of every friction cone is the
    cheapest: the vertical forces add up to the same for all motions, as these start
    and end at rest.  The planner finds it. *)
Example ex_C74 : forall scaled wg mem glpk, exists ws,
  computeWwaypoints sd_pb (total [1]) = Ok ws /\ length ws = 6%nat /\
  well_posed sd_pb [1] /\ long_phases [1] /\ same_gravity sd_pb (V3 0 0 (-981/100)) /\
  representation sd_pb <> DOUBLE_DESCRIPTION /\ In (flag_of sd_pb) exact_w_flags /\
  cost_weight sd_pb [1] (computeDiscretizedTimeFixed [1] 7) 1 /\ force_scale sd_pb 1 171 1 1 /\
  acc_ctrl_rate scaled [1] <= 171 /\ wrench_ctrl_rate sd_pb (total [1]) (V3 0 0 (-981/100)) (length ws) 171 /\
  no_zero_point (sd_cv sd_x) sd_x /\ ctrl_moves scaled sd_pb [1] (sd_cv sd_x) /\
  balances sd_pb [1] (length ws) (cv_fun (sd_cv sd_x)) sd_Bl /\ no_pull sd_Bl /\
  exists r, computeCOMTraj scaled wg (solve_quadprog mem) glpk sd_pb [1] (-1) SOLVER_QUADPROG = Ok r /\
    rc_success r = true /\ rc_x r = [0; 0; 4/5] /\ rc_c r = sd_cv sd_x.
Proof.
  intros scaled wg mem glpk. destruct sd_ws as (ws & Ews & Lws). exists ws. split; [exact Ews|]. split; [exact Lws|].
  split; [exact sd_wp|]. assert (HL : long_phases [1]) by (repeat constructor; lra). split; [exact HL|]. split; [exact sd_same|].
  split; [discriminate|]. split; [cbn; tauto|]. assert (CW : cost_weight sd_pb [1] (computeDiscretizedTimeFixed [1] 7) 1) by (left; split; reflexivity).
  split; [exact CW|]. split; [exact sd_scale|]. assert (HA : acc_ctrl_rate scaled [1] <= 171) by (unfold acc_ctrl_rate; rewrite sd_total; destruct scaled; lra).
  split; [exact HA|]. split; [apply sd_rate, Ews|].
  assert (NZ : no_zero_point (sd_cv sd_x) sd_x) by (intros p [<-|[<-|[<-|[<-|[<-|[]]]]]] _; reflexivity). split; [exact NZ|].
  split; [apply sd_moves|]. destruct (sd_values ws Ews) as [VS VX].
  assert (HB : balances sd_pb [1] (length ws) (cv_fun (sd_cv sd_x)) sd_Bl).
  { apply (sd_balances_iff ws sd_x sd_Bl Ews).
    assert (CB : Forall2 (fun w b => length b = 16%nat /\ comb four_feet b = w) (repeat (V3 0 0 (-981/2), vzero) 6) sd_Bl).
    { unfold sd_Bl. assert (C1 : comb four_feet (repeat (981/32) 16) = (V3 0 0 (-981/2), vzero)).
      { change (repeat (981/32) 16) with (repeat (981/32) 4 ++ repeat (981/32) 4 ++ repeat (981/32) 4 ++ repeat (981/32) 4).
        unfold four_feet. rewrite !comb_app by reflexivity. rewrite !foot_comb. unfold v6add, vcross, vzero, vadd; cbn [fst snd vx vy vz]. f_equal; apply v3_eq; cbn [vx vy vz]; field. }
      cbn [repeat] in C1 |- *. repeat (apply Forall2_cons; [split; [reflexivity|exact C1]|]). apply Forall2_nil. }
    rewrite <- VX in CB. clear - CB. revert CB. generalize sd_Bl. induction ws as [|w ws IH]; intros Bl CB; inversion CB; subst; constructor; auto. }
  assert (NP : no_pull sd_Bl) by (unfold no_pull, sd_Bl; cbn [repeat]; repeat constructor; lra).
  split; [exact HB|]. split; [exact NP|].
  destruct (C74_best scaled wg mem glpk sd_pb [1] (-1) (V3 0 0 (-981/100)) 1 171 1 1 ws sd_wp HL ltac:(lra) sd_same ltac:(discriminate) ltac:(cbn; tauto) Ews CW sd_scale HA (sd_rate ws Ews)
    sd_x (sd_cv sd_x) sd_Bl (sd_curve sd_x) NZ (sd_moves scaled) ltac:(cbn; lra) HB NP) as (r & E1 & E2 & E3 & E4); [|exists r; auto].
  intros y cvy By sx sy Hy HBy Sx Sy. rewrite sd_curve in Hy. injection Hy as <-. apply (sd_balances_iff ws y By Ews) in HBy.
  assert (S0 : sx = 0).
  { destruct Sx as [[_ ->]|[C _]]; [|discriminate C]. unfold mid_of, sd_x, vnorm2, vdot; cbn. field. }
  assert (S1 : 0 <= sy).
  { destruct Sy as [[_ ->]|[C _]]; [|discriminate C]. unfold vnorm2, vdot. pose proof (Rle_0_sqr (vx (vsub y (mid_of sd_pb)))). pose proof (Rle_0_sqr (vy (vsub y (mid_of sd_pb)))). pose proof (Rle_0_sqr (vz (vsub y (mid_of sd_pb)))). unfold Rsqr in *. lra. }
  assert (T1 : sum_list (map sum_list By) = 2943 /\ length (concat By) = (16 * length ws)%nat).
  { specialize (VS y). replace 2943 with (- -2943) by ring. rewrite <- VS. clear - HBy. unfold sum_list. induction HBy as [|w b ws By [Lb Eb] _ [IH1 IH2]]; [split; [cbn; ring|reflexivity]|].
    cbn [map fold_right concat length]. rewrite app_length, IH2, IH1, Lb. split; [|lia]. pose proof (comb_down four_feet feet_down b Lb) as D. rewrite Eb in D. unfold sum_list in D. lra. }
  destruct T1 as [T1 T2]. pose proof (sq_below (981/32) By) as SB. rewrite T1, T2, Lws in SB. replace (INR (16 * 6)) with 96 in SB by (rewrite INR_IZR_INZ; reflexivity).
  assert (SX : force_sq sd_Bl = 96 * (981/32 * (981/32))) by (unfold force_sq, sd_Bl, sum_list; cbn; field).
  rewrite SX, S0. unfold force_weight. lra.
Qed.

(** C74_solver: x0 + x1 = 1 and x0 >= 0; the answer is (1/2, 1/2). *)
Definition share := two [[1; 1]] [-1] [[1; 0]] [0].
Example ex_C74_solver : symmetric (eqp_of share) /\ weighted (eqp_of share) 1 /\ eqs_apart (eqp_of share) /\ (1 < e_max (eqp_of share))%nat /\
  feasible (eqp_of share) (vec_of [1/2; 1/2]) /\
  (forall z, eqs_hold (eqp_of share) z -> objective (eqp_of share) (vec_of [1/2; 1/2]) <= objective (eqp_of share) z).
Proof.
  pose proof eps_pos as EP. pose proof eps_small2 as ES.
  assert (HH : forall z i, (i < 2)%nat -> hmul (eqp_of share) z i = z i).
  { intros z i Hi. unfold hmul, dot, share, two, eqp_of. cbn [e_n e_H qp_H qp_g length sumf]. unfold mat_of. destruct i as [|[|i]]; [| |lia]; cbn [nth]; ring. }
  assert (HB : forall z, dot 2 (hmul (eqp_of share) z) (hmul (eqp_of share) z) <= 1 * 1 * dot 2 z z).
  { intros z. unfold dot. cbn [sumf]. rewrite !HH by lia. lra. }
  assert (HS : eqs_spread (eqp_of share) 1).
  { intros a. unfold share, two, eqp_of. cbn [e_n e_E e_CE qp_CE qp_ce0 qp_g length]. unfold dot, mat_of. cbn [sumf nth]. nra. }
  split; [intros i j Hi Hj; cbn in Hi, Hj; destruct i as [|[|i]]; [| |lia]; (destruct j as [|[|j]]; [| |lia]); reflexivity|].
  split; [split; [lra|split]|split; [|split; [|split]]].
  - intros z. change (e_n (eqp_of share)) with 2%nat. unfold dot. cbn [sumf]. rewrite !HH by lia. lra.
  - intros v w Hv Hw. change (e_n (eqp_of share)) with 2%nat in *.
    assert (W0 : w 0%nat = v 0%nat) by (rewrite <- Hw, HH by lia; reflexivity). assert (W1 : w 1%nat = v 1%nat) by (rewrite <- Hw, HH by lia; reflexivity).
    unfold dot. cbn [sumf]. rewrite W0, W1.
    assert (B : (v 0%nat = 1) /\ 0 <= v 1%nat <= 1).
    { destruct Hv as [(i & Hi & ->)|(i & Hi & ->)]; cbn in Hi; unfold share, two, eqp_of; cbn [e_CE e_CI qp_CE qp_CI]; unfold mat_of;
        (destruct i; [|lia]); cbn [nth]; lra. }
    destruct B as [-> [B1 B2]]. nra.
  - apply (spread_apart (eqp_of share) 1 1 HB HS). lra.
  - exact (proj1 (Nat.ltb_lt 1 DEFAULT_MAX_ITER) eq_refl).
  - split; intros i Hi; cbn in Hi; (destruct i; [|lia]); unfold eq_gap, slack, share, two, eqp_of; cbn [e_n e_CE e_CI e_ce e_ci qp_g qp_CE qp_CI qp_ce0 qp_ci0 length]; unfold dot, mat_of, vec_of; cbn [sumf nth]; lra.
  - intros z Hz. specialize (Hz 0%nat ltac:(cbn; lia)). revert Hz. unfold objective, eq_gap. change (e_n (eqp_of share)) with 2%nat. unfold dot. cbn [sumf]. rewrite !HH by lia.
    unfold share, two, eqp_of, mat_of, vec_of. cbn [e_g e_CE e_ce qp_g qp_CE qp_ce0 nth]. unfold mat_of, vec_of. cbn [nth]. intros Hz. assert (E : z 1%nat = 1 - z 0%nat) by lra. rewrite E. pose proof (Rle_0_sqr (z 0%nat - 1/2)) as Q. unfold Rsqr in Q. lra.
Qed.
