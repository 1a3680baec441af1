(** The zero-step capture problem solved with the bundled QP solver: plans. *)
From Coq Require Import Lia Lra Psatz.
From Verif Require Import Vec SpecBezier ModelData ModelDispatch ModelUtils ModelRows ModelCom ModelNd ModelCont ModelSolver ModelTraj Model0Step ModelQp
  SpecCom SpecWp SpecCtr SpecSolver SpecTraj Spec0Step SpecEnd SpecEnd3 ProofBezier ProofCurve ProofWaypoints ProofWaypoints2 ProofNd ProofCom ProofCont
  ProofCont3 ProofTraj2 Proof0Step Proof0Step2 ProofQp3 ProofEnd ProofQp16 ProofEnd9 SpecQp.
Import ListNotations.
Open Scope R_scope.

Lemma cone_near_hull tau ph P s : P <> [] -> 0 <= s <= 1 -> Forall (cone0_near tau ph) P -> cone0_near tau ph (curve6 P 1 s).
Proof.
  intros Hne Hs H. unfold cone0_near in *. rewrite Forall_forall. intros Hh Hin. rewrite dot6_curve6.
  apply bezl_le; [destruct P; [congruence|discriminate]|lra|]. rewrite Forall_map. eapply Forall_impl; [|exact H].
  intros w Hw. rewrite Forall_forall in Hw. apply (Hw Hh Hin).
Qed.

Section Z.
  Variable wg : bool.
  Variable mem : qst.
  Variable glpk : lp -> outcome (Z * R * list R).
  Variables (pData : problem) (Ts : list R) (ct : contact) (ph : cphase) (T dt : R).
  Hypothesis WP : z_posed pData Ts ct ph T.
  Let useAng := useAngularMomentum pData.
  Let tau n := z_tol useAng n.
  Definition near_at (tau : R) (x xL : vec3) (t : R) : Prop :=
    forall acc dl, is_deriv_n 2 (z_motion (c0 pData) (dc0 pData) T x) t acc -> z_rate useAng (l0 pData) T xL t dl ->
      cone0_near tau ph (giwL (cp_mass ph) (cp_gravity ph) (z_motion (c0 pData) (dc0 pData) T x t) acc dl).
  (** what the rows are made of *)
  Definition shape (k : nat) (D : R -> Prop) (wus : list (wp6 * wp6)) : Prop :=
    compute6dControlPointInequalities ct (c0 pData) (dc0 pData) (l0 pData) useAng T dt = Ok (z_all useAng ct ph wus) /\
    length wus = k /\ (useAng = false -> Forall (fun wu => snd wu = w6_zero) wus) /\
    (forall M, vnorm (c0 pData) <= M -> vnorm (vadd (c0 pData) (vscal (T / 3) (dc0 pData))) <= M ->
       Forall (steep useAng (cp_mass ph) (cp_gravity ph) (z_steepness pData ph T M)) wus) /\
    forall tau x xL, Forall (fun wu => cone0_near tau ph (z_pt (cp_mass ph) (cp_gravity ph) x xL wu)) wus ->
      forall t, D t -> near_at tau x xL t.

  Let p1 := vadd (vdivs (vscal T (dc0 pData)) 3) (c0 pData).
  Let ws := z_ws (c0 pData) p1 (cp_gravity ph) (1 / (T * T)).
  Let us := if useAng then z_us (l0 pData) (1 / T) else z_us0.
  Lemma mass_nonneg : 0 <= cp_mass ph.
  Proof. destruct WP as (_ & _ & _ & (ph' & Hph & Hm & _) & E). rewrite E in Hph. injection Hph as <-. lra. Qed.
  Lemma T_pos : 0 < T. Proof. apply WP. Qed.
  Lemma ws_steep M : vnorm (c0 pData) <= M -> vnorm (vadd (c0 pData) (vscal (T / 3) (dc0 pData))) <= M ->
    Forall (steep useAng (cp_mass ph) (cp_gravity ph) (z_steepness pData ph T M)) (combine ws us).
  Proof.
    intros H0 H1. assert (E1 : p1 = vadd (c0 pData) (vscal (T / 3) (dc0 pData))) by (unfold p1, vadd, vdivs, vscal; cbn; f_equal; field).
    rewrite <- E1 in H1. pose proof (steep_five (cp_mass ph) M T (cp_gravity ph) (c0 pData) p1 (l0 pData) mass_nonneg T_pos H0 H1 useAng) as S. cbv zeta in S.
    unfold z_steepness. fold useAng. replace (6 * (1 + M) / (T * T)) with (6 * (1 + M) * (1 / (T * T))) by (pose proof T_pos; field; lra). exact S.
  Qed.
  Lemma shape_cont : z_no_steps T dt -> exists wus, shape 5 (fun t => 0 <= t <= T) wus.
  Proof.
    intros HN. pose proof WP as (_ & _ & HT & WF & Hph). exists (combine ws us).
    split; [exact (z_built useAng ct ph (c0 pData) (dc0 pData) (l0 pData) T WF Hph HT dt HN)|].
    split; [rewrite combine_length; unfold us; destruct useAng; reflexivity|].
    split; [intros EA; unfold us; rewrite EA; repeat constructor|]. split; [exact ws_steep|].
    intros ta x xL HF t Ht acc dl Ha Hd. rewrite (z_giw useAng ph (c0 pData) (dc0 pData) (l0 pData) T HT x xL t acc dl Ha Hd).
    fold p1 ws us. replace (curve6 (map (z_pt (cp_mass ph) (cp_gravity ph) x xL) (combine ws us)) T t)
      with (curve6 (map (z_pt (cp_mass ph) (cp_gravity ph) x xL) (combine ws us)) 1 (t / T)).
    2: { unfold curve6, curve. replace (t / T / 1) with (t / T) by (field; lra). reflexivity. }
    apply cone_near_hull; [unfold us; destruct useAng; discriminate| |rewrite Forall_map; exact HF].
    split; [apply Rmult_le_pos; [lra|apply Rlt_le, Rinv_0_lt_compat; lra]|]. apply Rmult_le_reg_r with T; [lra|]. unfold Rdiv. rewrite Rmult_assoc, Rinv_l by lra. lra.
  Qed.
  Lemma shape_disc N : z_steps T dt N -> (1 <= N)%nat -> exists wus, shape (N + 1) (fun t => exists i, (i <= N)%nat /\ t = INR i * (T / INR N)) wus.
  Proof.
    intros HZ HN. pose proof WP as (_ & _ & HT & WF & Hph). exists (map (fun u => (z_comb ws u, z_comb us u)) (z_times N)).
    assert (LU : length us = 5%nat) by (unfold us; destruct useAng; reflexivity).
    split; [exact (z_built_disc useAng ct ph (c0 pData) (dc0 pData) (l0 pData) T WF Hph HT dt N HZ HN)|].
    split; [unfold z_times; rewrite !map_length, seq_length; lia|].
    split; [intros EA; rewrite Forall_map; apply Forall_forall; intros u Hu; cbn [snd]; unfold us; rewrite EA; apply z_comb_zero, (z_times_unit N); assumption|].
    split.
    - intros M H0 H1. rewrite Forall_map. apply Forall_forall. intros u Hu. apply steep_comb; [reflexivity|exact LU|apply (z_times_unit N); assumption|].
      exact (ws_steep M H0 H1).
    - intros ta x xL HF t (i & Hi & ->) acc dl Ha Hd. rewrite (z_giw useAng ph (c0 pData) (dc0 pData) (l0 pData) T HT x xL _ acc dl Ha Hd).
      fold p1 ws us. assert (HNp : 0 < INR N) by (apply lt_0_INR; lia).
      assert (Hin : In (INR i * (1 / INR N)) (z_times N)) by (unfold z_times; apply in_map_iff; exists i; split; [reflexivity|apply in_seq; lia]).
      rewrite Forall_map, Forall_forall in HF. specialize (HF _ Hin). rewrite z_comb_pt in HF by (try exact LU; try reflexivity; apply (z_times_unit N); assumption).
      replace (curve6 (map (z_pt (cp_mass ph) (cp_gravity ph) x xL) (combine ws us)) T (INR i * (T / INR N)))
        with (curve6 (map (z_pt (cp_mass ph) (cp_gravity ph) x xL) (combine ws us)) 1 (INR i * (1 / INR N))); [exact HF|].
      unfold curve6, curve. replace (INR i * (T / INR N) / T) with (INR i * (1 / INR N) / 1) by (field; lra). reflexivity.
  Qed.

  (** the answer *)
  Let init := if useAng then l3 (c0 pData) ++ l3 (l0 pData) else l3 (c0 pData).
  Let gg := z_g useAng (c0 pData) (l0 pData).
  Lemma cost_reported r x xL : z_plan pData T r x xL -> r0_cost r = z_reported (useAngularMomentum pData) (c0 pData) (l0 pData) x xL -> z_cost_reported pData T r x.
  Proof.
    intros (_ & _ & _ & _ & _ & _ & HR) HC. pose proof T_pos as HT. unfold z_cost_reported. unfold z_reported in HC. clear useAng tau us ws p1 init gg. destruct (useAngularMomentum pData).
    - eexists. split; [eapply integral_ext; [|apply (rate_sq_int (l0 pData) xL T HT)]|rewrite HC; field; lra].
      intros t. cbv beta. f_equal. exact (is_deriv_n_unique 1 _ _ t _ _ (fun _ => eq_refl) (curve_is_deriv_n 1 _ T t) (HR t)).
    - split; [exact HC|exact HR].
  Qed.
  Section Rows.
    Variables (k : nat) (D : R -> Prop) (wus : list (wp6 * wp6)).
    Hypothesis SH : shape k D wus.
    Let rows := z_ineqs useAng (z_all useAng ct ph wus).
    Lemma rows_len : length rows = z_rows useAng ct ph k.
    Proof.
      unfold rows, z_ineqs. rewrite map_length. unfold z_all. pose proof WP as (_ & _ & _ & (ph' & _ & _ & _ & HK) & _).
      rewrite app_length, (flat_map_length' _ (length (cp_poly ph))) by (intros; rewrite !map_length; reflexivity).
      destruct SH as (_ & -> & _). rewrite (z_tail_len _ _ HK). unfold z_rows. destruct useAng; lia.
    Qed.
    Lemma init_len : length init = z_dim useAng. Proof. unfold init. destruct useAng; reflexivity. Qed.
    Lemma rows_ok : Forall (fun r => length (fst r) = z_dim useAng) rows. Proof. apply z_ineqs_len. reflexivity. Qed.
    Lemma poly_ne Hh : In Hh (cp_poly ph) -> fst Hh <> (vzero, vzero).
    Proof. destruct WP as (_ & _ & _ & (ph' & Hph & _ & Hr & _) & E). rewrite E in Hph. injection Hph as <-. rewrite Forall_forall in Hr. apply Hr. Qed.
    Lemma rows_scale M kap : z_on_scale pData ct ph T M kap -> forall r, In r rows -> eps52 * rdot (fst r) (fst r) < z_weight useAng * z_weight useAng.
    Proof.
      intros (H0 & H1 & HK & HB & HKap) r Hr. fold useAng in HB, HKap. pose proof eps_pos as EP. unfold rows, z_ineqs in Hr. apply in_map_iff in Hr. destruct Hr as (zr & <- & Hz). cbn [fst].
      unfold z_all in Hz. apply in_app_or in Hz. destruct Hz as [Hz|Hz].
      - apply in_flat_map in Hz. destruct Hz as (wu & Hwu & Hz). rewrite map_map in Hz. apply in_map_iff in Hz. destruct Hz as (Hh & <- & Hin).
        destruct SH as (_ & _ & ZU & ST & _). specialize (ST M H0 H1). rewrite Forall_forall in ST.
        assert (HBp : 0 <= z_steepness pData ph T M).
        { unfold z_steepness. pose proof mass_nonneg. pose proof T_pos. pose proof (vnorm_ge (c0 pData)). pose proof (vnorm_ge (cp_gravity ph)).
          assert (0 < T * T) by (apply Rmult_lt_0_compat; assumption). apply Rplus_le_le_0_compat.
          - apply Rmult_le_pos; [assumption|]. apply Rplus_le_le_0_compat; [|assumption]. apply Rmult_le_pos; [lra|apply Rlt_le, Rinv_0_lt_compat; assumption].
          - case (useAngularMomentum pData); [apply Rmult_le_pos; [lra|apply Rlt_le, Rinv_0_lt_compat; assumption]|lra]. }
        assert (ZW : useAng = false -> snd wu = w6_zero) by (intros EA; specialize (ZU EA); rewrite Forall_forall in ZU; apply ZU, Hwu).
        pose proof (steep_row useAng _ _ _ wu Hh (poly_ne Hh Hin) ZW HBp (ST wu Hwu)) as S. cbv zeta in S.
        eapply Rle_lt_trans; [apply Rmult_le_compat_l; [lra|exact S]|exact HB].
      - destruct (tail_row useAng ct zr Hz) as [Tx Tl].
        assert (N : forall v, v = vzero \/ In v (cd_Kin ct) -> vdot v v <= kap * kap).
        { intros v [->|Hv]; [replace (vdot vzero vzero) with 0 by (unfold vdot, vzero; cbn; ring); apply Rle_0_sqr|].
          change (vdot v v) with (vnorm2 v). rewrite <- vnorm_sq. pose proof (vnorm_ge v). pose proof (HK v Hv). apply Rmult_le_compat; lra. }
        rewrite z_row_list_vec, z_vec_dot. pose proof (N _ Tx). pose proof (N _ Tl). pose proof (Rle_0_sqr kap) as Kq. unfold Rsqr in Kq.
        eapply Rle_lt_trans; [apply Rmult_le_compat_l; [lra|]|exact HKap]. destruct useAng; lra.
    Qed.
    Lemma rows_meaning t x xL : (forall r, In r rows -> rdot (fst r) (z_vec useAng x xL) <= snd r + t) ->
      Forall (fun wu => cone0_near t ph (z_pt (cp_mass ph) (cp_gravity ph) x xL wu)) wus /\ z_geom useAng (loosen t ct) x xL.
    Proof.
      intros HR. assert (HA : forall zr, In zr (z_all useAng ct ph wus) -> rdot (z_row_list useAng zr) (z_vec useAng x xL) <= zr_b zr + t).
      { intros zr Hz. apply (HR (z_row_list useAng zr, zr_b zr)). unfold rows, z_ineqs. apply in_map_iff. exists zr. auto. }
      split.
      - apply Forall_forall. intros wu Hwu. unfold cone0_near. apply Forall_forall. intros Hh Hin. destruct SH as (_ & _ & ZU & _).
        apply (z_row_near useAng _ _ wu Hh x xL t (poly_ne Hh Hin)).
        + intros EA; specialize (ZU EA); rewrite Forall_forall in ZU; apply ZU, Hwu.
        + apply HA. unfold z_all. apply in_or_app. left. apply in_flat_map. exists wu. split; [exact Hwu|]. rewrite map_map. apply in_map_iff. exists Hh. auto.
      - assert (HK : (length (cd_kin (loosen t ct)) <= length (cd_Kin (loosen t ct)))%nat).
        { cbn. rewrite map_length. destruct WP as (_ & _ & _ & (ph' & _ & _ & _ & HK) & _). exact HK. }
        apply (z_tail_sat useAng (loosen t ct) x xL HK). apply tail_near. intros r Hr. apply HA. unfold z_all. apply in_or_app. auto.
    Qed.
    Lemma solve_eq : solve0step wg (solve_quadprog mem) glpk pData Ts dt =
      (res <- solve_noeq wg (solve_quadprog mem) glpk (MX (z_dim useAng) (map fst rows)) (map snd rows) (z_H useAng) gg init SOLVER_QUADPROG ;;
       if rd_success res then
         cost <- computeRealCost pData (rd_x res) ;;
         c <- z_C_of_T pData T (rd_x res) ;;
         dL <- z_dL_of_T pData T (rd_x res) ;;
         Ok (Result0 true cost (rd_x res) c dL)
       else Ok default_result0).
    Proof.
      destruct SH as (E & _). rewrite (solve0_unfold wg (solve_quadprog mem) glpk pData Ts ct ph T dt WP _ E). fold useAng. fold init. rewrite init_len. reflexivity.
    Qed.
    Definition z_result (r : result0) : Prop :=
      r0_success r = true -> exists x xL, z_plan pData T r x xL /\ z_cost_reported pData T r x /\
        (forall t, D t -> near_at (z_tol useAng (z_rows useAng ct ph k)) x xL t) /\ z_geom useAng (loosen (z_tol useAng (z_rows useAng ct ph k)) ct) x xL.
    Let q := eqp_of (ineq_qp (z_H useAng) gg rows).
    Lemma z_answers M kap : z_on_scale pData ct ph T M kap -> exists r, solve0step wg (solve_quadprog mem) glpk pData Ts dt = Ok r /\ z_result r /\
      exists s st, returns q mem s st /\ r0_success r = Z.eqb s EIQUADPROG_FAST_OPTIMAL /\
        (s = EIQUADPROG_FAST_OPTIMAL -> exists x xL, z_plan pData T r x xL /\ z_vec useAng x xL = list_of (z_dim useAng) (q_x st)).
    Proof.
      intros OS. pose proof (z_H_len useAng) as [HH1 HH2]. pose proof (z_weight_pos useAng) as WPos.
      destruct (pl_ok wg mem glpk (z_dim useAng) (z_H useAng) gg rows (z_weight useAng) (z_g_len _ _ _) HH1 HH2 rows_ok (z_H_sym useAng) (z_H_bound useAng) WPos
        (z_eps useAng) (rows_scale M kap OS) init init_len) as (s & st & E & RT & HV).
      fold q in RT. rewrite solve_eq, E. cbn [bind rd_success rd_x]. destruct (Z.eqb_spec s EIQUADPROG_FAST_OPTIMAL) as [Es|Es].
      - destruct (z_vec_all useAng (list_of (z_dim useAng) (q_x st)) (list_of_len _ _)) as (x & xL & Ev). rewrite Ev.
        destruct (z_build pData Ts ct ph T WP x xL) as (r & Er & HP & HC). fold useAng in Er. rewrite Er. exists r. split; [reflexivity|]. split.
        + intros _. exists x, xL. split; [exact HP|]. split; [exact (cost_reported r x xL HP HC)|].
          specialize (HV Es). rewrite z_accuracy, rows_len, Ev in HV. destruct (rows_meaning _ x xL HV) as [HN HG]. split; [|exact HG].
          destruct SH as (_ & _ & _ & _ & HD). exact (HD _ x xL HN).
        + exists s, st. split; [exact RT|]. split; [|intros _; exists x, xL; auto]. destruct HP as (HP & _). rewrite HP. subst s. reflexivity.
      - exists default_result0. split; [reflexivity|]. split; [intros Z; discriminate|]. exists s, st. split; [exact RT|]. split; [|congruence].
        cbn. symmetry. apply Z.eqb_neq. exact Es.
    Qed.
    Lemma z_direct x xL : satX rows (z_vec useAng x xL) ->
      (forall i, (i < z_dim useAng)%nat -> rdot (nth i (z_H useAng) []) (z_vec useAng x xL) + nth i gg 0 = 0) ->
      exists r, solve0step wg (solve_quadprog mem) glpk pData Ts dt = Ok r /\ z_plan pData T r x xL /\ z_cost_reported pData T r x.
    Proof.
      intros HS HG. pose proof (z_H_len useAng) as [HH1 HH2]. pose proof (z_weight_pos useAng) as WPos.
      destruct (pl_direct wg mem glpk (z_dim useAng) (z_H useAng) gg rows (z_weight useAng) (z_g_len _ _ _) HH1 HH2 rows_ok (z_H_sym useAng) (z_H_bound useAng) WPos
        init (z_vec useAng x xL) init_len (z_vec_len _ _ _) HS HG) as (obj & E).
      rewrite solve_eq, E. cbn [bind rd_success rd_x]. destruct (z_build pData Ts ct ph T WP x xL) as (r & Er & HP & HC). fold useAng in Er. rewrite Er. exists r.
      split; [reflexivity|]. split; [exact HP|]. exact (cost_reported r x xL HP HC).
    Qed.
    Lemma z_optimal s st r x xL y yL v v' : returns q mem s st -> r0_success r = Z.eqb s EIQUADPROG_FAST_OPTIMAL ->
      (s = EIQUADPROG_FAST_OPTIMAL -> z_plan pData T r x xL /\ z_vec useAng x xL = list_of (z_dim useAng) (q_x st)) ->
      well_scaled q -> satX rows (z_vec useAng y yL) -> z_criterion pData T x xL v -> z_criterion pData T y yL v' ->
      (r0_success r = true /\ v <= v') \/ (r0_success r = false /\ s = st_MAX_ITER /\ (1000 <= subsets (z_rows useAng ct ph k) (z_dim useAng))%nat).
    Proof.
      intros RT Hr HX HW HY Hv Hv'. pose proof (z_H_len useAng) as [HH1 HH2]. pose proof (z_weight_pos useAng) as WPos. pose proof T_pos as HT.
      rewrite z_criterion_iff in Hv, Hv' by exact HT.
      destruct (pl_optimal mem (z_dim useAng) (z_H useAng) gg rows (z_weight useAng) (z_g_len _ _ _) HH1 HH2 rows_ok (z_H_sym useAng) (z_H_bound useAng) WPos
        s st (z_vec useAng y yL) RT HW (z_vec_len _ _ _) HY) as [[E B]|[E B]].
      - left. rewrite Hr, E. split; [reflexivity|]. destruct (HX E) as [_ Ev]. rewrite <- Ev in B. subst v v'.
        apply (z_value_quad pData x xL y yL). exact B.
      - right. rewrite Hr, E. split; [reflexivity|]. split; [reflexivity|]. rewrite <- rows_len. exact B.
    Qed.
  End Rows.
End Z.

Section Top.
  Variable wg : bool.
  Variable mem : qst.
  Variable glpk : lp -> outcome (Z * R * list R).
  Variables (pData : problem) (Ts : list R) (ct : contact) (ph : cphase) (T dt M kap : R).
  Hypothesis WP : z_posed pData Ts ct ph T.

  Lemma near_plan ta r x xL t acc : z_plan pData T r x xL -> near_at pData ph T ta x xL t -> is_deriv_n 2 (cv_fun (r0_c r)) t acc ->
    cone0_near ta ph (giwL (cp_mass ph) (cp_gravity ph) (cv_fun (r0_c r) t) acc (dL_fun (r0_dL r) t)).
  Proof.
    intros (_ & _ & _ & HF & _ & _ & HR) HS Ha. rewrite HF. apply HS; [|apply HR]. eapply is_deriv_n_ext; [exact HF|exact Ha].
  Qed.
  Lemma z_answered k D wus : shape pData ct ph T dt k D wus -> z_on_scale pData ct ph T M kap ->
    let tau := z_tol (useAngularMomentum pData) (z_rows (useAngularMomentum pData) ct ph k) in
    exists r, solve0step wg (solve_quadprog mem) glpk pData Ts dt = Ok r /\
      (r0_success r = true -> exists x xL, z_plan pData T r x xL /\ z_cost_reported pData T r x /\
        cv_fun (r0_c r) 0 = c0 pData /\ is_deriv_n 1 (cv_fun (r0_c r)) 0 (dc0 pData) /\
        cv_fun (r0_c r) T = x /\ is_deriv_n 1 (cv_fun (r0_c r)) T vzero /\
        (forall t acc, D t -> is_deriv_n 2 (cv_fun (r0_c r)) t acc ->
           cone0_near tau ph (giwL (cp_mass ph) (cp_gravity ph) (cv_fun (r0_c r) t) acc (dL_fun (r0_dL r) t))) /\
        z_geom (useAngularMomentum pData) (loosen tau ct) x xL).
  Proof.
    intros SH OS tau. destruct (z_answers wg mem glpk pData Ts ct ph T dt WP k D wus SH M kap OS) as (r & E & HR & _). exists r. split; [exact E|]. intros Hs.
    destruct (HR Hs) as (x & xL & HP & HC & HN & HG). exists x, xL. split; [exact HP|]. split; [exact HC|].
    destruct (z_plan_ends pData Ts ct ph T WP r x xL HP) as (A1 & A2 & A3 & A4). do 4 (split; [assumption|]). split; [|exact HG].
    intros t acc Ht Ha. eapply near_plan; [exact HP|apply HN, Ht|exact Ha].
  Qed.
  Lemma c64_continuous : z_no_steps T dt -> z_on_scale pData ct ph T M kap ->
    let tau := z_tol (useAngularMomentum pData) (z_rows (useAngularMomentum pData) ct ph 5) in
    exists r, solve0step wg (solve_quadprog mem) glpk pData Ts dt = Ok r /\
      (r0_success r = true -> exists x xL, z_plan pData T r x xL /\ z_cost_reported pData T r x /\
        cv_fun (r0_c r) 0 = c0 pData /\ is_deriv_n 1 (cv_fun (r0_c r)) 0 (dc0 pData) /\
        cv_fun (r0_c r) T = x /\ is_deriv_n 1 (cv_fun (r0_c r)) T vzero /\
        (forall t acc, 0 <= t <= T -> is_deriv_n 2 (cv_fun (r0_c r)) t acc ->
           cone0_near tau ph (giwL (cp_mass ph) (cp_gravity ph) (cv_fun (r0_c r) t) acc (dL_fun (r0_dL r) t))) /\
        z_geom (useAngularMomentum pData) (loosen tau ct) x xL).
  Proof. intros HN OS. destruct (shape_cont pData Ts ct ph T dt WP HN) as (wus & SH). exact (z_answered 5 _ wus SH OS). Qed.
  Lemma c64_samples N : z_steps T dt N -> (1 <= N)%nat -> z_on_scale pData ct ph T M kap ->
    let tau := z_tol (useAngularMomentum pData) (z_rows (useAngularMomentum pData) ct ph (N + 1)) in
    exists r, solve0step wg (solve_quadprog mem) glpk pData Ts dt = Ok r /\
      (r0_success r = true -> exists x xL, z_plan pData T r x xL /\ z_cost_reported pData T r x /\
        cv_fun (r0_c r) 0 = c0 pData /\ is_deriv_n 1 (cv_fun (r0_c r)) 0 (dc0 pData) /\
        cv_fun (r0_c r) T = x /\ is_deriv_n 1 (cv_fun (r0_c r)) T vzero /\
        (forall i acc, (i <= N)%nat -> let t := INR i * (T / INR N) in is_deriv_n 2 (cv_fun (r0_c r)) t acc ->
           cone0_near tau ph (giwL (cp_mass ph) (cp_gravity ph) (cv_fun (r0_c r) t) acc (dL_fun (r0_dL r) t))) /\
        z_geom (useAngularMomentum pData) (loosen tau ct) x xL).
  Proof.
    intros HN H1 OS. destruct (shape_disc pData Ts ct ph T dt WP N HN H1) as (wus & SH). destruct (z_answered (N + 1) _ wus SH OS) as (r & E & HR).
    exists r. split; [exact E|]. intros Hs. destruct (HR Hs) as (x & xL & A1 & A2 & A3 & A4 & A5 & A6 & A7 & A8). exists x, xL.
    do 6 (split; [assumption|]). split; [|exact A8]. intros i acc Hi t Ha. apply A7; [exists i; auto|exact Ha].
  Qed.

  Lemma shapes : (z_no_steps T dt \/ exists N, z_steps T dt N) -> exists k D wus, shape pData ct ph T dt k D wus /\
    (z_no_steps T dt -> k = 5%nat) /\ (forall N, z_steps T dt N -> (1 <= N)%nat -> k = (N + 1)%nat).
  Proof.
    assert (U : forall N M, z_steps T dt N -> z_steps T dt M -> N = M).
    { intros N M' (_ & [A B] & _) (_ & [C D'] & _). assert (INR N < INR (S M')) by (rewrite S_INR; lra). assert (INR M' < INR (S N)) by (rewrite S_INR; lra).
      apply INR_lt in H, H0. lia. }
    intros [HN|(N & HN)]; [|destruct N as [|N]].
    - destruct (shape_cont pData Ts ct ph T dt WP HN) as (wus & SH). exists 5%nat, (fun t => 0 <= t <= T), wus. split; [exact SH|]. split; [reflexivity|].
      intros N HZ H1. destruct HN as [HN|HN]; [destruct HZ as (Z & _); lra|]. rewrite (U _ _ HZ HN) in H1. lia.
    - destruct (shape_cont pData Ts ct ph T dt WP (or_intror HN)) as (wus & SH). exists 5%nat, (fun t => 0 <= t <= T), wus. split; [exact SH|]. split; [reflexivity|].
      intros N HZ H1. rewrite (U _ _ HZ HN) in H1. lia.
    - destruct (shape_disc pData Ts ct ph T dt WP (S N) HN ltac:(lia)) as (wus & SH). exists (S N + 1)%nat, (fun t => exists i, (i <= S N)%nat /\ t = INR i * (T / INR (S N))), wus. split; [exact SH|].
      split; [intros [H0|H0]; [destruct HN as (Z & _); lra|pose proof (U _ _ HN H0); lia]|]. intros N' HZ H1. rewrite (U _ _ HZ HN). reflexivity.
  Qed.

  Lemma c65_best : (z_no_steps T dt \/ exists N, z_steps T dt N) ->
    let xL := vscal (3 / 4) (l0 pData) in
    z_wrench_ok pData ph T dt (c0 pData) xL -> z_geom (useAngularMomentum pData) ct (c0 pData) xL ->
    exists r, solve0step wg (solve_quadprog mem) glpk pData Ts dt = Ok r /\ z_plan pData T r (c0 pData) xL /\ z_cost_reported pData T r (c0 pData).
  Proof.
    intros HN xL HW HG. destruct (shapes HN) as (k & D & wus & SH & _). apply (z_direct wg mem glpk pData Ts ct ph T dt WP k D wus SH (c0 pData) xL).
    - destruct (z_ineqs_ok pData Ts ct ph T dt WP HN) as (Ab & EA & HS). destruct SH as (E & _). rewrite E in EA. injection EA as <-. apply HS. auto.
    - unfold xL, z_vec, z_dim, z_H, z_g, z_weight. case (useAngularMomentum pData); intros i Hi.
      + do 6 (destruct i as [|i]; [cbn; lra|]). lia.
      + do 3 (destruct i as [|i]; [cbn; lra|]). lia.
  Qed.

  Lemma c65_optimal : (z_no_steps T dt \/ exists N, z_steps T dt N) -> z_on_scale pData ct ph T M kap ->
    let useAng := useAngularMomentum pData in
    exists Ab H gg r, compute6dControlPointInequalities ct (c0 pData) (dc0 pData) (l0 pData) useAng T dt = Ok Ab /\
      z_cost (c0 pData) (l0 pData) useAng = Ok (H, gg) /\
      solve0step wg (solve_quadprog mem) glpk pData Ts dt = Ok r /\
      let q := eqp_of (ineq_qp H gg (map (fun a => (z_row_list useAng a, zr_b a)) Ab)) in
      (well_scaled q -> forall y yL, z_wrench_ok pData ph T dt y yL -> z_geom useAng ct y yL ->
       (r0_success r = true /\ exists x xL v v', z_plan pData T r x xL /\ z_criterion pData T x xL v /\ z_criterion pData T y yL v' /\ v <= v') \/
       (r0_success r = false /\ (1000 <= subsets (length Ab) (z_dim useAng))%nat /\ exists st, returns q mem st_MAX_ITER st)).
  Proof.
    intros HN OS useAng. destruct (shapes HN) as (k & D & wus & SH & _).
    destruct (z_answers wg mem glpk pData Ts ct ph T dt WP k D wus SH M kap OS) as (r & E & HR & s & st & RT & Hs & HX).
    exists (z_all useAng ct ph wus), (z_H useAng), (z_g useAng (c0 pData) (l0 pData)), r. split; [apply SH|]. split; [apply z_cost_ok|]. split; [exact E|].
    intros q HW y yL H1 H2. pose proof (rows_len pData Ts ct ph T dt WP k D wus SH) as LR. unfold z_ineqs in LR. rewrite map_length in LR. fold useAng in LR.
    assert (HY : satX (z_ineqs useAng (z_all useAng ct ph wus)) (z_vec useAng y yL)).
    { destruct (z_ineqs_ok pData Ts ct ph T dt WP HN) as (Ab & EA & HS). destruct SH as (E' & _). rewrite E' in EA. injection EA as <-. apply HS. auto. }
    assert (CR : forall x xL, exists v, z_criterion pData T x xL v).
    { intros x xL. eexists. apply z_criterion_iff; [apply WP|reflexivity]. }
    destruct (CR y yL) as (v' & Hv').
    destruct (Z.eq_dec s EIQUADPROG_FAST_OPTIMAL) as [Es|Es].
    - destruct (HX Es) as (x & xL & HP & Ev). destruct (CR x xL) as (v & Hv).
      destruct (z_optimal mem pData Ts ct ph T dt WP k D wus SH s st r x xL y yL v v' RT Hs (fun _ => conj HP Ev) HW HY Hv Hv') as [[A B]|(A & B & C)].
      + left. split; [exact A|]. exists x, xL, v, v'. auto.
      + rewrite B in Es. discriminate.
    - destruct (CR y yL) as (v & Hv).
      destruct (z_optimal mem pData Ts ct ph T dt WP k D wus SH s st r y yL y yL v v' RT Hs ltac:(congruence) HW HY Hv Hv') as [[A B]|(A & B & C)].
      + rewrite Hs in A. apply Z.eqb_eq in A. congruence.
      + right. split; [exact A|]. fold useAng in C. rewrite <- LR in C. split; [exact C|]. exists st. rewrite B in RT. exact RT.
  Qed.
End Top.

Lemma c65_rows : forall m, ((1000 <= subsets m 3)%nat -> (19 <= m)%nat) /\ ((1000 <= subsets m 6)%nat -> (11 <= m)%nat).
Proof.
  intros m. split; intros H; apply Nat.nlt_ge; intros L.
  - do 19 (destruct m as [|m]; [vm_compute in H; lia|]). lia.
  - do 11 (destruct m as [|m]; [vm_compute in H; lia|]). lia.
Qed.
