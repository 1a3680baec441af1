(** C94: a problem in other units. *)
From Coq Require Import List Lia Lra.
From Verif Require Import Vec SpecBezier SpecTime ModelData ModelDispatch ModelWaypoints ModelWaypointsJerk ModelUtils ModelCont ModelSolver ModelTraj
  SpecCom SpecWp SpecCtr SpecTraj SpecEnd SpecBest SpecMove SpecUnits ProofBezier ProofCurve ProofTime ProofWaypoints ProofWaypoints2 ProofCom ProofCom2 ProofCom3 ProofTraj ProofTraj2 ProofTraj3 ProofBest ProofBest2 ProofMove ProofMove2 ProofReverse.
Import ListNotations.
Open Scope R_scope.

Lemma best_transfer_scal k p q Ts Us m n ta ua phi phi' psi x cv : 0 < k ->
  (forall x cv, com_curve p (total Ts) x = Ok cv -> com_curve q (total Us) (phi x) = Ok (psi cv) /\
    (plan_feasible p (sampled Ts m) (cv_fun cv) <-> plan_feasible q (sampled Us n) (cv_fun (psi cv))) /\
    forall s, plan_cost p ta x (cv_fun cv) s <-> plan_cost q ua (phi x) (cv_fun (psi cv)) (k * s)) ->
  (forall y, phi (phi' y) = y) -> (forall y, exists cv, com_curve p (total Ts) y = Ok cv) ->
  best p Ts m ta x cv -> best q Us n ua (phi x) (psi cv).
Proof.
  intros Hk HC HI HT (Hx & Fx & Ox). destruct (HC x cv Hx) as (C & F & K). split; [exact C|]. split; [apply F; exact Fx|].
  intros y cvy s s' Hy Fy K1 K2. destruct (HT (phi' y)) as [cv' Hy']. destruct (HC (phi' y) cv' Hy') as (C' & F' & K'). rewrite HI in C', K'.
  rewrite Hy in C'. injection C' as ->.
  assert (E : forall w, w = k * (w / k)) by (intros w; field; lra). rewrite (E s) in K1. rewrite (E s') in K2.
  assert (s / k <= s' / k). { apply (Ox (phi' y) cv' _ _ Hy'); [apply F'; exact Fy|apply K; exact K1|apply K'; exact K2]. }
  rewrite (E s), (E s'). apply Rmult_le_compat_l; lra.
Qed.

(** ** Times *)
Section Times.
  Variable u : R.
  Hypothesis Hu : 0 < u.
  Lemma total_u Ts : total (map (Rmult u) Ts) = u * total Ts.
  Proof. induction Ts as [|d Ts IH]; cbn [map total]; [ring|]. rewrite IH. ring. Qed.
  Lemma start_u Ts i : phase_start (map (Rmult u) Ts) i = u * phase_start Ts i.
  Proof. unfold phase_start. rewrite firstn_map. apply total_u. Qed.
  Lemma end_u Ts i : phase_end (map (Rmult u) Ts) i = u * phase_end Ts i.
  Proof. unfold phase_end. rewrite firstn_map. apply total_u. Qed.
  Lemma mul_lt a b : u * a < u * b <-> a < b.
  Proof. split; intros H; [apply Rmult_lt_reg_l with u; assumption|apply Rmult_lt_compat_l; assumption]. Qed.
  Lemma sampled_u Ts m i t : sampled (map (Rmult u) Ts) (units_mode u m) i t <-> sampled Ts m i (t / u).
  Proof.
    assert (U : forall w, t = u * w <-> t / u = w) by (intros w; split; [intros ->; field; lra|intros <-; field; lra]).
    destruct m as [dt|n]; cbn [units_mode sampled].
    - unfold sampled_step. rewrite map_length, start_u, end_u. rewrite (U (phase_end Ts i)).
      assert (X : forall k, (t = u * phase_start Ts i + INR k * (u * dt) /\ t < u * phase_end Ts i) <-> (t / u = phase_start Ts i + INR k * dt /\ t / u < phase_end Ts i)).
      { intros k. rewrite <- (U (phase_start Ts i + INR k * dt)). rewrite <- (mul_lt (t / u)). replace (u * (t / u)) with t by (field; lra).
        replace (u * phase_start Ts i + INR k * (u * dt)) with (u * (phase_start Ts i + INR k * dt)) by ring. tauto. }
      split; intros (L & [E|(k & E)]); (split; [exact L|]); [left; exact E|right; exists k; apply X; exact E|left; exact E|right; exists k; apply X; exact E].
    - unfold sampled_fixed. split; intros (j & d & Hj & Hd & E).
      + rewrite nth_error_map in Hd. destruct (nth_error Ts i) as [d0|] eqn:E0; [|discriminate]. injection Hd as <-. exists j, d0. split; [exact Hj|]. split; [reflexivity|].
        rewrite start_u in E. rewrite <- (U (phase_start Ts i + INR j / INR n * d0)). rewrite E. unfold Rdiv. ring.
      + exists j, (u * d). split; [exact Hj|]. split; [rewrite nth_error_map, Hd; reflexivity|]. rewrite start_u.
        rewrite <- (U (phase_start Ts i + INR j / INR n * d)) in E. rewrite E. unfold Rdiv. ring.
  Qed.
  Let sc := map (fun tp : R * Z => (u * fst tp, snd tp)).
  Lemma while_u dt i : forall fuel t stop arr arr', while_push fuel t stop dt i arr = Some arr' ->
    while_push fuel (u * t) (u * stop) (u * dt) i (sc arr) = Some (sc arr').
  Proof.
    induction fuel as [|f IH]; intros t stop arr arr' E; [discriminate|]. cbn [while_push] in *.
    destruct (Rlt_dec t stop) as [L|L]; destruct (Rlt_dec (u * t) (u * stop)) as [L'|L']; try (rewrite mul_lt in L'; contradiction).
    - apply IH in E. unfold sc in *. rewrite map_app in E. cbn [map fst snd] in E. rewrite <- Rmult_plus_distr_l. exact E.
    - injection E as <-. reflexivity.
  Qed.
  Lemma outer_u dt fuel : forall Ts i c arr arr', step_outer fuel Ts dt i c arr = Some arr' ->
    step_outer fuel (map (Rmult u) Ts) (u * dt) i (u * c) (sc arr) = Some (sc arr').
  Proof.
    induction Ts as [|d Ts IH]; intros i c arr arr' E; cbn [step_outer map] in *; [injection E as <-; reflexivity|].
    destruct (while_push fuel c (c + d) dt i arr) as [a|] eqn:W; [|discriminate]. apply while_u in W. rewrite Rmult_plus_distr_l in W. rewrite W.
    apply IH in E. unfold sc in E. rewrite map_app in E. cbn [map fst snd] in E. rewrite Rmult_plus_distr_l in E. exact E.
  Qed.
  Lemma maxR_u Ts : maxR (map (Rmult u) Ts) = u * maxR Ts.
  Proof. induction Ts as [|d Ts IH]; cbn [map maxR]; [ring|]. rewrite IH, RmaxRmult by lra. reflexivity. Qed.
  Lemma times_u Ts m ta : Ts <> [] -> proper m -> cost_times Ts m ta ->
    exists ua, cost_times (map (Rmult u) Ts) (units_mode u m) ua /\ map fst ua = map (Rmult u) (map fst ta).
  Proof.
    intros NE PR CT. destruct m as [dt|n]; cbn [units_mode cost_times proper] in *.
    - exists (sc ta). split; [|unfold sc; rewrite !map_map; reflexivity]. unfold computeDiscretizedTime in *.
      replace (enough (map (Rmult u) Ts) (u * dt)) with (enough Ts dt).
      2:{ unfold enough. rewrite maxR_u. replace (u * maxR Ts / (u * dt)) with (maxR Ts / dt) by (field; lra). reflexivity. }
      unfold computeDiscretizedTime_fuel in *. destruct (step_outer (enough Ts dt) Ts dt 0%Z 0 []) as [a|] eqn:E; [|discriminate]. injection CT as <-.
      apply outer_u in E. rewrite Rmult_0_r in E. unfold sc in E at 1. cbn [map] in E. rewrite E. reflexivity.
    - exists (computeDiscretizedTimeFixed (map (Rmult u) Ts) n). split; [reflexivity|]. subst ta.
      assert (NM : map (Rmult u) Ts <> []) by (destruct Ts; [contradiction|discriminate]).
      rewrite (fixed_eq _ n PR NE), (fixed_eq _ n PR NM). cbn [map fst]. rewrite !fst_tagged, Rmult_0_r. f_equal.
      assert (G : forall Ts t, concat (fixed_blocks (map (Rmult u) Ts) n (u * t)) = map (Rmult u) (concat (fixed_blocks Ts n t))).
      { clear. induction Ts as [|d Ts IH]; intros t; [reflexivity|]. cbn [map fixed_blocks concat]. rewrite map_app, <- IH. f_equal.
        - unfold frac_samples. rewrite map_map. apply map_ext. intros k. unfold Rdiv. ring.
        - f_equal. f_equal. ring. }
      rewrite <- (Rmult_0_r u) at 1. apply G.
  Qed.
End Times.

(** ** Motions *)
Lemma deriv_time f u t a : is_deriv f (t / u) a -> is_deriv (fun s => f (s / u)) t (vscal (/ u) a).
Proof.
  intros (A & B & C).
  assert (G : forall (g : R -> R) d, derivable_pt_lim g (t / u) d -> derivable_pt_lim (fun s => g (s / u)) t (/ u * d)).
  { intros g d D. rewrite Rmult_comm. apply (derivable_pt_lim_comp (fun s => s / u) g t (/ u) d); [|exact D].
    apply (lim_ext (fun s => / u * s)); [intros s; unfold Rdiv; ring|]. pose proof (derivable_pt_lim_scal (fun s => s) (/ u) t 1 (derivable_pt_lim_id t)) as P. rewrite Rmult_1_r in P. exact P. }
  split; [exact (G _ _ A)|]. split; [exact (G _ _ B)|exact (G _ _ C)].
Qed.
Lemma deriv_scal k f t a : is_deriv f t a -> is_deriv (fun s => vscal k (f s)) t (vscal k a).
Proof.
  intros (A & B & C). repeat split; cbn [vscal vx vy vz]; [apply (derivable_pt_lim_scal (fun s => vx (f s)))|apply (derivable_pt_lim_scal (fun s => vy (f s)))|apply (derivable_pt_lim_scal (fun s => vz (f s)))]; assumption.
Qed.
Lemma deriv2_units l u f t a : u <> 0 -> is_deriv_n 2 f (t / u) a -> is_deriv_n 2 (fun s => vscal l (f (s / u))) t (vscal (l / u ^ 2) a).
Proof.
  intros Hu (f' & D1 & f2 & D2 & E). exists (fun s => vscal l (vscal (/ u) (f' (s / u)))). split.
  { intros s. apply (deriv_scal l (fun s => f (s / u))). apply deriv_time. apply D1. }
  exists (fun s => vscal l (vscal (/ u) (vscal (/ u) (f2 (s / u))))). split.
  { intros s. apply (deriv_scal l (fun s => vscal (/ u) (f' (s / u)))). apply (deriv_scal (/ u) (fun s => f' (s / u))). apply deriv_time. apply D2. }
  cbn. cbn in E. rewrite E. apply v3_eq; unfold vscal; cbn [vx vy vz]; field; exact Hu.
Qed.
Definition units_curve (l u : R) (cv : bcurve) : bcurve := BCurve (map (vscal l) (bc_pts cv)) (u * bc_T cv).

Section Units.
  Variables l u : R.
  Hypothesis Hl : 0 < l.
  Hypothesis Hu : 0 < u.
  Variable p : problem.
  Variable Ts : list R.
  Hypothesis PL : plannable p Ts.
  Hypothesis LF : length_free p l.
  Let q := units l u p.
  Let Us := map (Rmult u) Ts.
  Let k := l / u ^ 2.
  Lemma k_pos : 0 < k.
  Proof. unfold k. apply Rdiv_lt_0_compat; [exact Hl|]. apply pow_lt. exact Hu. Qed.
  Lemma u_wp : well_posed p Ts. Proof. apply PL. Qed.

  Lemma units_plannable : plannable q Us.
  Proof.
    destruct PL as ((F & C & N & P & L & W) & (g & SG) & Hf). split; [|split; [|exact Hf]].
    - split; [exact F|]. split; [intros E; unfold q, units; cbn [dc1]; rewrite (C E); apply v3_eq; cbn; ring|]. split; [unfold Us; destruct Ts; [contradiction|discriminate]|].
      split; [unfold Us; apply Forall_map; eapply Forall_impl; [|exact P]; intros d Hd; apply Rmult_lt_0_compat; assumption|].
      split; [unfold q, units, Us; cbn [contacts]; rewrite !map_length; exact L|]. unfold q, units; cbn [contacts]. apply Forall_map.
      rewrite Forall_forall in *. intros c Hc. destruct (W c Hc) as (ph & E & M & Z & K). exists (units_phase l u ph).
      split; [unfold units_contact; cbn [cd_phase]; rewrite E; reflexivity|]. split; [exact M|]. split.
      + unfold units_phase; cbn [cp_poly]. apply Forall_map. rewrite Forall_forall in *. intros Hh IH E'. apply (Z Hh IH).
        cbn [fst] in E'. unfold units_row in E'. pose proof (f_equal snd E') as E2. pose proof (f_equal fst E') as E1. cbn [fst snd] in E1, E2.
        assert (E3 : snd (fst Hh) = vzero).
        { transitivity (vscal l (vscal (/ l) (snd (fst Hh)))); [apply v3_eq; unfold vscal; cbn [vx vy vz]; field; lra|]. rewrite E2. apply v3_eq; cbn; ring. }
        transitivity (fst (fst Hh), snd (fst Hh)); [apply surjective_pairing|now rewrite E1, E3].
      + unfold units_contact; cbn [cd_kin cd_Kin]. rewrite map_length. exact K.
    - exists (vscal k g). intros c ph Hc E. unfold q, units in Hc; cbn [contacts] in Hc. apply in_map_iff in Hc. destruct Hc as (c' & <- & Hc).
      unfold units_contact in E; cbn [cd_phase] in E. destruct (cd_phase c') as [ph'|] eqn:E'; [|discriminate]. injection E as <-.
      unfold units_phase; cbn [cp_gravity]. now rewrite (SG c' ph' Hc E').
  Qed.

  Ltac pts := repeat f_equal; apply v3_eq; cbn [vx vy vz vadd vsub vscal vdivs vopp vzero]; try (field; lra).
  Lemma units_com x cv : com_curve p (total Ts) x = Ok cv -> com_curve q (total Us) (vscal l x) = Ok (units_curve l u cv).
  Proof.
    intros H. pose proof (total_posd p Ts u_wp) as HT. unfold Us. rewrite total_u. set (T := total Ts) in *. assert (HT0 : T <> 0) by lra.
    assert (HUT : 0 < u * T) by (apply Rmult_lt_0_compat; assumption).
    destruct (com_curve_inv p T x cv (proj1 u_wp) H) as (pi & pts & Hs & _ & _ & -> & Hcap).
    unfold com_curve. change (flag_of q) with (flag_of p).
    destruct Hs as [pi E Hc a b c d Ep|pi E Hc a b c d Ep|pi E Hc a b c d e Ep|pi E Hc a b c d Ep
      |pi E Hc a b c d e Ep|pi E Hc a b c d e f Ep|pi E Hc a b c d e f h Ep]; subst pi.
    - rewrite (ccw_c1 q _ E), E. unfold c0_dc0_c1_computeConstantWaypoints in *. injection Hc as; subst. cbn [bind]. rewrite bez_c1, mk_bezier_ok by assumption.
      unfold units_curve; cbn [bc_pts bc_T map c0 dc0 ddc0 c1 dc1 ddc1 q units]. pts.
    - rewrite (ccw_capture q _ E), E. unfold c0_dc0_dc1_computeConstantWaypoints in *. destruct (Req_EM_T (vnorm (dc1 p)) 0); [|discriminate]. destruct (Req_EM_T (vnorm (dc1 q)) 0) as [_|NZ];
      [|exfalso; apply NZ; apply vnorm_0; unfold q, units; cbn [dc1]; rewrite (Hcap E); apply v3_eq; cbn; ring]. injection Hc as; subst. cbn [bind]. rewrite bez_capture, mk_bezier_ok by assumption.
      unfold units_curve; cbn [bc_pts bc_T map c0 dc0 ddc0 c1 dc1 ddc1 q units]. pts.
    - rewrite (ccw_dc1_c1 q _ E), E. unfold c0_dc0_dc1_c1_computeConstantWaypoints in *. injection Hc as; subst. cbn [bind]. rewrite bez_dc1_c1, mk_bezier_ok by assumption.
      unfold units_curve; cbn [bc_pts bc_T map c0 dc0 ddc0 c1 dc1 ddc1 q units]. pts.
    - rewrite (ccw_acc q _ E), E. unfold c0_dc0_ddc0_computeConstantWaypoints in *. injection Hc as; subst. cbn [bind]. rewrite bez_acc, mk_bezier_ok by assumption.
      unfold units_curve; cbn [bc_pts bc_T map c0 dc0 ddc0 c1 dc1 ddc1 q units]. pts.
    - rewrite (ccw_acc_c1 q _ E), E. unfold c0_dc0_ddc0_c1_computeConstantWaypoints in *. injection Hc as; subst. cbn [bind]. rewrite bez_acc_c1, mk_bezier_ok by assumption.
      unfold units_curve; cbn [bc_pts bc_T map c0 dc0 ddc0 c1 dc1 ddc1 q units]. pts.
    - rewrite (ccw_acc_dc1_c1 q _ E), E. unfold c0_dc0_ddc0_dc1_c1_computeConstantWaypoints in *. injection Hc as; subst. cbn [bind]. rewrite bez_acc_dc1_c1, mk_bezier_ok by assumption.
      unfold units_curve; cbn [bc_pts bc_T map c0 dc0 ddc0 c1 dc1 ddc1 q units]. pts.
    - rewrite (ccw_acc_all q _ E), E. unfold c0_dc0_ddc0_ddc1_dc1_c1_computeConstantWaypoints in *. injection Hc as; subst. cbn [bind]. rewrite bez_acc_all, mk_bezier_ok by assumption.
      unfold units_curve; cbn [bc_pts bc_T map c0 dc0 ddc0 c1 dc1 ddc1 q units]. pts.
  Qed.
  Lemma units_fun cv x t : com_curve p (total Ts) x = Ok cv -> cv_fun (units_curve l u cv) t = vscal l (cv_fun cv (t / u)).
  Proof.
    intros H. pose proof (total_posd p Ts u_wp) as HT. destruct (com_curve_inv p _ x cv (proj1 u_wp) H) as (pi & pts & Hs & _ & _ & -> & _).
    unfold cv_fun, units_curve; cbn [bc_pts bc_T].
    assert (E : forall a, place (mscal l mid) vzero a = vscal l a) by (intros a; apply v3_eq; unfold place, mvmul, mscal, mid, vdot, vadd, vscal, vzero; cbn [vx vy vz row0 row1 row2]; ring).
    rewrite <- E, <- (curve_place (mscal l mid) vzero pts) by (destruct Hs; discriminate).
    rewrite (map_ext _ _ E). unfold curve. f_equal. field. split; lra.
  Qed.
  Lemma units_acc cv x t a : com_curve p (total Ts) x = Ok cv -> is_deriv_n 2 (cv_fun cv) (t / u) a -> is_deriv_n 2 (cv_fun (units_curve l u cv)) t (vscal k a).
  Proof. intros H D. eapply is_deriv_n_ext; [intros s; symmetry; apply (units_fun cv x s H)|]. apply deriv2_units; [lra|exact D]. Qed.
  Lemma units_acc_inv cv x t a : com_curve p (total Ts) x = Ok cv -> is_deriv_n 2 (cv_fun (units_curve l u cv)) t a ->
    exists a0, is_deriv_n 2 (cv_fun cv) (t / u) a0 /\ a = vscal k a0.
  Proof.
    intros H D. destruct (com_acc cv (t / u)) as [a0 D0]. exists a0. split; [exact D0|].
    exact (is_deriv_n_unique 2 _ _ _ _ _ (fun _ => eq_refl) D (units_acc cv x t a0 H D0)).
  Qed.
  Lemma units_dot6 H m g c a : dot6 (units_row l H) (giw m (vscal k g) (vscal l c) (vscal k a)) = k * dot6 H (giw m g c a).
  Proof. unfold giw, dot6, units_row, vdot, vcross, vscal, vsub; cbn [fst snd vx vy vz]. field. lra. Qed.
  Lemma units_norm H : l = 1 -> norm6 (units_row l H) = norm6 H.
  Proof. intros ->. unfold norm6. f_equal. unfold dot6, units_row, vdot, vscal; cbn [fst snd vx vy vz]. field. Qed.
  Lemma units_margin : margin q = k * margin p.
  Proof. unfold margin, q, units; cbn [constr k_reduce_h]. fold k. pose proof k_pos. rewrite <- (Rmult_0_r k) at 1. apply RmaxRmult. lra. Qed.
  Lemma units_kin c x : kin_ok (units_contact l u c) (vscal l x) <-> kin_ok c x.
  Proof.
    unfold kin_ok, units_contact; cbn [cd_Kin cd_kin]. assert (E : forall K, vdot K (vscal l x) = l * vdot K x) by (intros K; unfold vdot, vscal; cbn [vx vy vz]; ring).
    split.
    - intros H i K b H1 H2. specialize (H i K (l * b) H1 (map_nth_error (Rmult l) i _ H2)). rewrite E in H. apply Rmult_le_reg_l with l; assumption.
    - intros H i K b H1 H2. rewrite nth_error_map in H2. destruct (nth_error (cd_kin c) i) as [b0|] eqn:E2; [|discriminate]. injection H2 as <-. rewrite E.
      apply Rmult_le_compat_l; [lra|]. exact (H i K b0 H1 E2).
  Qed.
  Lemma units_cone ph c x a : In c (contacts p) -> cd_phase c = Some ph ->
    (cone_ok (margin q) 0 (units_phase l u ph) (giw (cp_mass ph) (vscal k (cp_gravity ph)) (vscal l x) (vscal k a)) <->
     cone_ok (margin p) 0 ph (giw (cp_mass ph) (cp_gravity ph) x a)).
  Proof.
    intros IC EC. rewrite units_margin. unfold cone_ok, units_phase; cbn [cp_poly cp_mass]. rewrite Forall_map. rewrite !Forall_forall.
    assert (G : forall Hh, In Hh (cp_poly ph) -> cp_mass ph * norm6 (units_row l (fst Hh)) * (k * snd Hh - k * margin p + 0) = k * (cp_mass ph * norm6 (fst Hh) * (snd Hh - margin p + 0))).
    { intros Hh IH. destruct LF as [Z|Z]; [rewrite (units_norm _ Z); ring|]. rewrite (Z c ph Hh IC EC IH). ring. }
    pose proof k_pos. split; intros H' Hh IH; specialize (H' Hh IH); cbn [fst snd] in H' |- *; fold k in H' |- *.
    - rewrite units_dot6, (G Hh IH) in H'. apply Rmult_le_reg_l with k; assumption.
    - rewrite units_dot6, (G Hh IH). apply Rmult_le_compat_l; [lra|assumption].
  Qed.
  Lemma units_contact_ok c x cv t : In c (contacts p) -> com_curve p (total Ts) x = Ok cv ->
    (contact_ok p 0 c (cv_fun cv) (t / u) <-> contact_ok q 0 (units_contact l u c) (cv_fun (units_curve l u cv)) t).
  Proof.
    intros IC H. unfold contact_ok. rewrite (units_fun cv x t H), (units_kin c _). split; intros (K & ph & a & E & D & C); (split; [exact K|]).
    - exists (units_phase l u ph), (vscal k a). split; [unfold units_contact; cbn [cd_phase]; rewrite E; reflexivity|]. split; [exact (units_acc cv x t a H D)|].
      apply (units_cone ph c _ _ IC E). exact C.
    - unfold units_contact in E; cbn [cd_phase] in E. destruct (cd_phase c) as [ph0|] eqn:E0; [|discriminate]. injection E as <-.
      destruct (units_acc_inv cv x t a H D) as (a0 & D0 & ->). exists ph0, a0. split; [reflexivity|]. split; [exact D0|]. apply (units_cone ph0 c _ _ IC E0). exact C.
  Qed.
  Lemma units_within b a : within (k * b) (vscal k a) <-> within b a.
  Proof.
    pose proof k_pos. assert (E : forall w, Rabs (k * w) <= k * b <-> Rabs w <= b).
    { intros w. rewrite Rabs_mult, (Rabs_pos_eq k) by lra. split; intros; [apply Rmult_le_reg_l with k; assumption|apply Rmult_le_compat_l; lra]. }
    unfold within, vscal; cbn [vx vy vz]. rewrite !E. tauto.
  Qed.
  Lemma units_accel x cv t : com_curve p (total Ts) x = Ok cv -> (accel_ok p (cv_fun cv) (t / u) <-> accel_ok q (cv_fun (units_curve l u cv)) t).
  Proof.
    intros H. unfold accel_ok, q, units; cbn [constr k_constraintAcceleration k_maxAcceleration]. fold k. split; intros A B; destruct (A B) as (a & D & W).
    - exists (vscal k a). split; [exact (units_acc cv x t a H D)|]. apply units_within. exact W.
    - destruct (units_acc_inv cv x t a H D) as (a0 & D0 & ->). exists a0. split; [exact D0|]. apply units_within. exact W.
  Qed.
  Lemma units_feasible m x cv : com_curve p (total Ts) x = Ok cv ->
    (plan_feasible p (sampled Ts m) (cv_fun cv) <-> plan_feasible q (sampled Us (units_mode u m)) (cv_fun (units_curve l u cv))).
  Proof.
    intros H. split; intros F i c t Hc Hs.
    - unfold q, units in Hc; cbn [contacts] in Hc. rewrite nth_error_map in Hc. destruct (nth_error (contacts p) i) as [c0'|] eqn:E; [|discriminate]. injection Hc as <-.
      apply (sampled_u u Hu) in Hs. destruct (F i c0' _ E Hs) as [A B].
      split; [apply (units_contact_ok c0' x cv t (nth_error_In _ _ E) H); exact A|apply (units_accel x cv t H); exact B].
    - assert (Et : t = u * t / u) by (field; lra). rewrite Et in Hs. apply (sampled_u u Hu) in Hs.
      assert (Hc' : nth_error (contacts q) i = Some (units_contact l u c)) by (exact (map_nth_error (units_contact l u) i _ Hc)).
      destruct (F i _ (u * t) Hc' Hs) as [A B]. rewrite Et.
      split; [apply (units_contact_ok c x cv _ (nth_error_In _ _ Hc) H); exact A|apply (units_accel x cv _ H); exact B].
  Qed.
  Lemma units_sum ta ua x cv s : map fst ua = map (Rmult u) (map fst ta) -> com_curve p (total Ts) x = Ok cv ->
    (sum_acc2 (cv_fun cv) ta s <-> sum_acc2 (cv_fun (units_curve l u cv)) ua (k ^ 2 * s)).
  Proof.
    intros EU H. pose proof k_pos as Hk.
    assert (G : forall accs, Forall2 (fun tp a => is_deriv_n 2 (cv_fun cv) (fst tp) a) ta accs -> sum_acc2 (cv_fun (units_curve l u cv)) ua (k ^ 2 * sum_list (map vnorm2 accs))).
    { intros accs F. exists (map (vscal k) accs). split.
      - apply (Forall2_map_l (fun w a => is_deriv_n 2 (cv_fun (units_curve l u cv)) w a) fst). rewrite EU. rewrite map_map. apply Forall2_map_l.
        clear EU. induction F as [|tp a l0 l' D F IH]; constructor; [|exact IH]. apply (units_acc cv x _ a H). replace (u * fst tp / u) with (fst tp) by (field; lra). exact D.
      - clear F. induction accs as [|a accs IH]; cbn [map]; unfold sum_list in *; cbn [fold_right]; [ring|]. rewrite <- IH. unfold vnorm2, vdot, vscal; cbn [vx vy vz]. ring. }
    split.
    - intros (accs & F & ->). exact (G accs F).
    - intros S. assert (X : exists accs, Forall2 (fun tp a => is_deriv_n 2 (cv_fun cv) (fst tp) a) ta accs).
      { clear. induction ta as [|tp l0 [accs IH]]; [exists []; constructor|]. destruct (com_acc cv (fst tp)) as [a D]. exists (a :: accs). constructor; assumption. }
      destruct X as [accs F]. exists accs. split; [exact F|]. pose proof (sum_acc2_unique _ _ _ _ S (G accs F)) as E.
      apply Rmult_eq_reg_l with (k ^ 2); [exact E|]. apply pow_nonzero. lra.
  Qed.
  Definition cost_factor : R := if Z.eqb (costFunction p) DISTANCE_TRAVELED then l ^ 2 else k ^ 2.
  Lemma factor_pos : 0 < cost_factor.
  Proof. unfold cost_factor. pose proof k_pos. destruct (Z.eqb _ _); apply pow_lt; assumption. Qed.
  Lemma units_cost ta ua x cv s : map fst ua = map (Rmult u) (map fst ta) -> com_curve p (total Ts) x = Ok cv ->
    (plan_cost p ta x (cv_fun cv) s <-> plan_cost q ua (vscal l x) (cv_fun (units_curve l u cv)) (cost_factor * s)).
  Proof.
    intros EU H. unfold plan_cost. change (costFunction q) with (costFunction p).
    assert (E1 : vnorm2 (vsub (vscal l x) (mid_of q)) = l ^ 2 * vnorm2 (vsub x (mid_of p))).
    { unfold vnorm2, mid_of, q, units, vdot, vsub, vscal, vadd; cbn [c0 c1 vx vy vz]. field. }
    rewrite E1. unfold cost_factor. destruct (Z.eqb (costFunction p) DISTANCE_TRAVELED) eqn:EC.
    - apply Z.eqb_eq in EC. rewrite EC. assert (N : DISTANCE_TRAVELED <> ACCELERATION) by discriminate.
      assert (l ^ 2 <> 0) by (apply pow_nonzero; lra).
      split; (intros [[_ S]|[S _]]; [left; split; [reflexivity|]|contradiction]); [now rewrite S|apply Rmult_eq_reg_l with (l ^ 2); assumption].
    - apply Z.eqb_neq in EC. split; (intros [[S _]|[S S']]; [contradiction|right; split; [exact S|]]); apply (units_sum ta ua x cv s EU H); exact S'.
  Qed.
  Lemma units_decides ta ua : map fst ua = map (Rmult u) (map fst ta) -> cost_decides p Ts ta -> cost_decides q Us ua.
  Proof.
    intros EU [C|[C (tp & x & y & cvx & cvy & ax & ay & I & Hx & Hy & Dx & Dy & N)]]; [left; exact C|right]. split; [exact C|].
    assert (I' : In (u * fst tp) (map fst ua)) by (rewrite EU; apply in_map; apply in_map; exact I).
    apply in_map_iff in I'. destruct I' as (tp' & E & I'). exists tp', (vscal l x), (vscal l y), (units_curve l u cvx), (units_curve l u cvy), (vscal k ax), (vscal k ay).
    split; [exact I'|]. split; [exact (units_com x cvx Hx)|]. split; [exact (units_com y cvy Hy)|]. rewrite E.
    assert (W : u * fst tp / u = fst tp) by (field; lra).
    split; [apply (units_acc cvx x _ _ Hx); rewrite W; exact Dx|]. split; [apply (units_acc cvy y _ _ Hy); rewrite W; exact Dy|].
    intros EQ. apply N. pose proof k_pos. assert (V : forall a, a = vscal (/ k) (vscal k a)) by (intros a; apply v3_eq; unfold vscal; cbn [vx vy vz]; field; lra).
    rewrite (V ax), (V ay), EQ. reflexivity.
  Qed.
  Lemma scal_back y : vscal l (vscal (/ l) y) = y.
  Proof. apply v3_eq; unfold vscal; cbn [vx vy vz]; field; lra. Qed.
  Lemma units_best m ta ua x cv : map fst ua = map (Rmult u) (map fst ta) -> best p Ts m ta x cv -> best q Us (units_mode u m) ua (vscal l x) (units_curve l u cv).
  Proof.
    intros EU. apply (best_transfer_scal cost_factor p q Ts Us m (units_mode u m) ta ua (vscal l) (vscal (/ l)) (units_curve l u) x cv factor_pos); [|exact scal_back|exact (p_total p Ts PL)].
    intros y cvy Hy. split; [exact (units_com y cvy Hy)|]. split; [exact (units_feasible m y cvy Hy)|]. intros s. exact (units_cost ta ua y cvy s EU Hy).
  Qed.
  Lemma units_proper m : proper m -> proper (units_mode u m).
  Proof. destruct m as [dt|n]; cbn; [intros; apply Rmult_lt_0_compat; assumption|tauto]. Qed.

  Variable scaled wg : bool.
  Variable quadprog : qp -> list R -> outcome (Z * list R * R).
  Variable glpk : lp -> outcome (Z * R * list R).
  Hypothesis QO : qp_solves quadprog.
  Hypothesis QS : qp_sound quadprog.
  Hypothesis LS : lp_sound glpk.
  Lemma c94_plan m ta r : proper m -> cost_times Ts m ta -> cost_decides p Ts ta ->
    call scaled wg quadprog glpk p Ts m = Ok r -> rc_success r = true ->
    exists r' x, call scaled wg quadprog glpk q Us (units_mode u m) = Ok r' /\ rc_success r' = true /\
      rc_x r = l3 x /\ rc_x r' = l3 (vscal l x) /\
      bc_T (rc_c r') = u * bc_T (rc_c r) /\ forall t, cv_fun (rc_c r') t = vscal l (cv_fun (rc_c r) (t / u)).
  Proof.
    intros PR CT CD E S. destruct (c90_returned scaled wg quadprog glpk QO p Ts PL QS LS m ta r PR CT CD E S) as (x & Ex & B).
    destruct (times_u u Hu Ts m ta (proj1 (proj2 (proj2 u_wp))) PR CT) as (ua & CU & EU).
    destruct (c90_found scaled wg quadprog glpk QO q Us units_plannable (units_mode u m) ua _ _ (units_proper m PR) CU (units_decides ta ua EU CD) (units_best m ta ua x _ EU B)) as (r' & E' & S' & X' & C').
    pose proof (proj1 B) as H. exists r', x. split; [exact E'|]. split; [exact S'|]. split; [exact Ex|]. split; [exact X'|]. rewrite C'.
    split; [reflexivity|]. intros t; exact (units_fun _ x t H).
  Qed.
  Lemma c94_back m ta r' : proper m -> cost_times Ts m ta -> cost_decides p Ts ta ->
    call scaled wg quadprog glpk q Us (units_mode u m) = Ok r' -> rc_success r' = true ->
    exists r, call scaled wg quadprog glpk p Ts m = Ok r /\ rc_success r = true.
  Proof.
    intros PR CT CD E S.
    destruct (call_feasible scaled wg quadprog glpk q Us units_plannable QS LS _ r' (units_proper m PR) E S) as ((_ & (y & Ey & Hcv) & _) & FE).
    destruct (p_total p Ts PL (vscal (/ l) y)) as [cv H]. pose proof (units_com _ _ H) as H'. rewrite scal_back, Hcv in H'. injection H' as H'. rewrite H' in FE.
    apply (units_feasible m _ _ H) in FE.
    destruct (call_opt scaled wg quadprog glpk QO p Ts PL m ta _ _ PR CT CD H FE) as (r & _ & _ & _ & _ & E' & S' & _). exists r. split; assumption.
  Qed.
End Units.
