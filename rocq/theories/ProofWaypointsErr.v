(** Error bound for the decimal wrench waypoints; assembly of C01-C09. *)
From Verif Require Import Vec SpecBezier ModelData ModelWaypoints ModelWaypointsJerk ModelDispatch
  SpecCom ProofBezier ProofCurve ProofWaypoints ProofWaypoints2 ProofWaypoints3 ProofWaypointsDec.
Open Scope R_scope.

Lemma Rabs_le_inv a b : Rabs a <= b -> - b <= a <= b.
Proof. unfold Rabs; destruct (Rcase_abs a); lra. Qed.

Lemma within_coord B v : within B v <->
  (- B <= vx v <= B) /\ (- B <= vy v <= B) /\ (- B <= vz v <= B).
Proof.
  unfold within. split.
  - intros (H1 & H2 & H3). apply Rabs_le_inv in H1, H2, H3. auto.
  - intros (H1 & H2 & H3). repeat split; apply Rabs_le; assumption.
Qed.

Lemma within_add A B u v : within A u -> within B v -> within (A + B) (vadd u v).
Proof. rewrite !within_coord. simpl. intros (H1&H2&H3) (K1&K2&K3). lra. Qed.

Lemma within_scal k B v : within B v -> within (Rabs k * B) (vscal k v).
Proof.
  intros (H1&H2&H3). unfold within; simpl. rewrite !Rabs_mult.
  pose proof (Rabs_pos k). repeat split; apply Rmult_le_compat_l; assumption.
Qed.

Lemma within_weaken A B v : A <= B -> within A v -> within B v.
Proof. intros H (H1&H2&H3). repeat split; lra. Qed.

Lemma within_nonneg B v : within B v -> 0 <= B.
Proof. intros (H&_). pose proof (Rabs_pos (vx v)). lra. Qed.

Lemma Rabs_mul_le a b A B : Rabs a <= A -> Rabs b <= B -> Rabs (a * b) <= A * B.
Proof.
  intros H1 H2. rewrite Rabs_mult. apply Rmult_le_compat; try assumption; apply Rabs_pos.
Qed.

Lemma within_cross A B u v : within A u -> within B v -> within (2 * (A * B)) (vcross u v).
Proof.
  intros (H1&H2&H3) (K1&K2&K3). unfold within, vcross; simpl.
  assert (G : forall a b c d, Rabs a <= A -> Rabs b <= B -> Rabs c <= A -> Rabs d <= B ->
              Rabs (a * b - c * d) <= 2 * (A * B)).
  { intros a b c d Ha Hb Hc Hd.
    pose proof (Rabs_mul_le _ _ _ _ Ha Hb). pose proof (Rabs_mul_le _ _ _ _ Hc Hd).
    pose proof (Rabs_triang (a * b) (- (c * d))) as Ht. rewrite Rabs_Ropp in Ht.
    unfold Rminus. lra. }
  repeat split; apply G; assumption.
Qed.

Lemma lc_diff : forall cs ds us B, length cs = length ds -> 0 <= B -> Forall (within B) us ->
  within (l1 cs ds * B) (vsub (lc cs us) (lc ds us)).
Proof.
  induction cs as [|c cs IH]; intros ds us B Hl HB Hu; destruct ds as [|d ds]; try discriminate.
  - apply within_coord. simpl. lra.
  - destruct us as [|u us].
    + apply within_coord. simpl.
      assert (0 <= Rabs (c - d)) by apply Rabs_pos.
      assert (0 <= l1 cs ds).
      { assert (G : forall a b, 0 <= l1 a b).
        { induction a as [|x a IHa]; intros b; destruct b as [|y b]; simpl; try lra.
          pose proof (IHa b). pose proof (Rabs_pos (x - y)). lra. }
        apply G. }
      assert (0 <= (Rabs (c - d) + l1 cs ds) * B) by (apply Rmult_le_pos; lra). lra.
    + inversion Hu as [|? ? Hu1 Hu2]; subst.
      replace (vsub (lc (c :: cs) (u :: us)) (lc (d :: ds) (u :: us)))
        with (vadd (vscal (c - d) u) (vsub (lc cs us) (lc ds us)))
        by (apply v3_eq; simpl; ring).
      simpl l1. rewrite Rmult_plus_distr_r. apply within_add.
      * apply within_scal; assumption.
      * apply IH; [simpl in Hl; lia|assumption|assumption].
Qed.

Lemma crosses_within M P : Forall (within M) P -> Forall (within (2 * (M * M))) (crosses P).
Proof.
  induction P as [|p P IH]; intros H; [constructor|].
  inversion H as [|? ? H1 H2]; subst. simpl. apply Forall_app. split; [|apply IH; assumption].
  apply Forall_forall. intros u Hu. apply in_map_iff in Hu. destruct Hu as (q & <- & Hq).
  apply within_cross; [assumption|]. rewrite Forall_forall in H2. apply H2, Hq.
Qed.

Lemma row_diff T g P M G r r' : 0 < T -> 0 <= M -> 0 <= G -> Forall (within M) P -> within G g ->
  row_close r r' ->
  within (err_force M T) (fst (v6sub (row_val T g P r) (row_val T g P r'))) /\
  within (err_moment G M T) (snd (v6sub (row_val T g P r) (row_val T g P r'))).
Proof.
  intros HT HM HG HP Hg Hr. destruct r as [[C D] E], r' as [[C' D'] E'].
  destruct Hr as (L1 & L2 & L3 & K1 & K2 & K3). unfold v6sub, row_val; simpl fst; simpl snd.
  assert (HTT : 0 < / (T * T)) by (apply Rinv_0_lt_compat; nra).
  pose proof (lc_diff C C' P M L1 HM HP) as H1.
  assert (HMM : 0 <= M * M) by nra. assert (HGM : 0 <= G * M) by (apply Rmult_le_pos; assumption).
  pose proof (lc_diff D D' (crosses P) (2 * (M * M)) L2 ltac:(lra) (crosses_within M P HP)) as H2.
  assert (HE : Forall (within (2 * (G * M))) (map (vcross g) P)).
  { apply Forall_forall. intros u Hu. apply in_map_iff in Hu. destruct Hu as (q & <- & Hq).
    apply within_cross; [assumption|]. rewrite Forall_forall in HP. apply HP, Hq. }
  pose proof (lc_diff E E' _ (2 * (G * M)) L3 ltac:(lra) HE) as H3.
  assert (Habs : Rabs (1 / (T * T)) = / (T * T)) by (rewrite Rabs_pos_eq; [unfold Rdiv; ring|unfold Rdiv; lra]).
  unfold e13, e15 in *.
  split.
  - replace (vsub (vscal (1 / (T * T)) (lc C P)) (vscal (1 / (T * T)) (lc C' P)))
      with (vscal (1 / (T * T)) (vsub (lc C P) (lc C' P))) by (apply v3_eq; simpl; ring).
    apply (within_scal (1 / (T * T))) in H1. rewrite Habs in H1.
    refine (within_weaken _ _ _ _ H1). unfold err_force, e13, Rdiv.
    rewrite (Rmult_comm (/ (T * T))). apply Rmult_le_compat_r; [lra|].
    apply Rmult_le_compat_r; lra.
  - replace (vsub (vadd (vscal (1 / (T * T)) (lc D (crosses P))) (lc E (map (vcross g) P)))
                  (vadd (vscal (1 / (T * T)) (lc D' (crosses P))) (lc E' (map (vcross g) P))))
      with (vadd (vscal (1 / (T * T)) (vsub (lc D (crosses P)) (lc D' (crosses P))))
                 (vsub (lc E (map (vcross g) P)) (lc E' (map (vcross g) P))))
      by (apply v3_eq; simpl; ring).
    apply (within_scal (1 / (T * T))) in H2. rewrite Habs in H2.
    refine (within_weaken _ _ _ _ (within_add _ _ _ _ H2 H3)). unfold err_moment, e13, e15, Rdiv.
    apply Rplus_le_compat.
    + rewrite (Rmult_comm (/ (T * T))). apply Rmult_le_compat_r; [lra|].
      set (q := M * M) in *. clearbody q.
      apply Rle_trans with (1.1 * (1 / 10000000000000) * (2 * q)); [|lra].
      apply Rmult_le_compat_r; lra.
    + set (q := G * M) in *. clearbody q.
      apply Rle_trans with (1.5 * (1 / 1000000000000000) * (2 * q)); [|lra].
      apply Rmult_le_compat_r; lra.
Qed.

(** Two curves with close control points are close. *)
Lemma bezl_diff P Q s B : length P = length Q -> P <> [] -> 0 <= s <= 1 ->
  Forall2 (fun a b => - B <= a - b <= B) P Q -> - B <= bezl P s - bezl Q s <= B.
Proof.
  intros HL HP Hs HF. unfold bezl. rewrite <- HL.
  set (n := pred (length P)).
  replace (bez n (fun i => nth i P 0) s - bez n (fun i => nth i Q 0) s)
    with (bez n (fun i => 1 * nth i P 0 + (- 1) * nth i Q 0) s) by (rewrite bez_lin; ring).
  assert (G : forall i, (i <= n)%nat -> - B <= 1 * nth i P 0 + (- 1) * nth i Q 0 <= B).
  { intros i Hi. assert (Hi' : (i < length P)%nat) by (destruct P; [contradiction|simpl in n; simpl; lia]).
    clear - HF Hi'. revert i Hi'. induction HF as [|a b P Q Hab HF IH]; intros i Hi'; [simpl in Hi'; lia|].
    destruct i as [|i]; simpl; [lra|]. apply IH. simpl in Hi'. lia. }
  split; [apply bez_ge|apply bez_le]; try assumption; intros i Hi; apply G; assumption.
Qed.

Lemma curve_diff P Q T t B : P <> [] -> length P = length Q -> 0 <= t / T <= 1 ->
  Forall2 (fun a b => within B (vsub a b)) P Q -> within B (vsub (curve P T t) (curve Q T t)).
Proof.
  intros HP HL Hs HF. apply within_coord. unfold curve, bez3. cbn [vsub vx vy vz].
  assert (G : forall f : vec3 -> R,
     (forall a b, within B (vsub a b) -> - B <= f a - f b <= B) ->
     - B <= bezl (map f P) (t / T) - bezl (map f Q) (t / T) <= B).
  { intros f Hf. apply bezl_diff; [rewrite !map_length; assumption| |assumption|].
    - intros H0. apply map_eq_nil in H0. contradiction.
    - clear - HF Hf. induction HF as [|a b P Q Hab HF IH]; constructor; [apply Hf, Hab|exact IH]. }
  repeat split; apply G; intros a b H; apply within_coord in H; simpl in H; lra.
Qed.

Lemma rows_diff T g P M G tab tab' t :
  0 < T -> 0 <= M -> 0 <= G -> Forall (within M) P -> within G g -> tab <> [] ->
  Forall2 row_close tab tab' -> 0 <= t <= T ->
  let d := v6sub (curve6 (map (row_val T g P) tab) T t) (curve6 (map (row_val T g P) tab') T t) in
  within (err_force M T) (fst d) /\ within (err_moment G M T) (snd d).
Proof.
  intros HT HM HG HP Hg Hne HF Ht. cbv zeta. unfold v6sub, curve6. simpl fst. simpl snd.
  assert (Hs : 0 <= t / T <= 1).
  { split; [apply Rmult_le_pos; [lra|left; apply Rinv_0_lt_compat; lra]|].
    apply (Rmult_le_reg_r T); [lra|]. unfold Rdiv. rewrite Rmult_assoc, Rinv_l by lra. lra. }
  assert (HL : length tab = length tab') by (clear - HF; induction HF; simpl; auto).
  split; apply curve_diff; rewrite ?map_length; try assumption;
    try (intros H0; apply map_eq_nil, map_eq_nil in H0; contradiction);
    rewrite !map_map; clear HL Hne.
  - induction HF as [|r r' tab tab' Hr HF IH]; [constructor|]. cbn [map]. constructor; [|exact IH].
    apply (row_diff T g P M G r r'); assumption.
  - induction HF as [|r r' tab tab' Hr HF IH]; [constructor|]. cbn [map]. constructor; [|exact IH].
    apply (row_diff T g P M G r r'); assumption.
Qed.

(** ** Assembly *)

Lemma exact_in_com f : In f exact_w_flags -> In f com_flags.
Proof. simpl. tauto. Qed.
Lemma dec_in_com f : In f dec_w_flags -> In f com_flags.
Proof. simpl. tauto. Qed.

Lemma c02_ok pData T x pi cv s :
  In (flag_of pData) com_flags -> computeConstantWaypoints pData T = Ok pi ->
  computeBezierCurve (flag_of pData) T pi x = Ok cv ->
  exists co, evaluateCurveAtTime pData pi s = Ok co /\ ev_coefs co x = cv_fun cv (s * T).
Proof.
  intros Hin Hpi Hcv.
  assert (H : com_curve pData T x = Ok cv) by (unfold com_curve; rewrite Hpi; exact Hcv).
  destruct (com_curve_inv _ _ _ _ Hin H) as (pi' & pts & Hs & Hpi' & HT & -> & _).
  rewrite Hpi in Hpi'. injection Hpi'; intros <-.
  destruct (eval_curve_ok _ _ _ _ _ s Hs) as (co & H1 & H2). exists co. split; [exact H1|].
  unfold cv_fun. cbn [bc_pts bc_T]. rewrite curve_at_sT by lra. exact H2.
Qed.

Lemma c03_ok pData T x pi cv s :
  In (flag_of pData) com_flags -> computeConstantWaypoints pData T = Ok pi ->
  computeBezierCurve (flag_of pData) T pi x = Ok cv ->
  exists co, evaluateAccelerationCurveAtTime pData pi T s = Ok co /\
    is_deriv_n 2 (cv_fun cv) (s * T) (ev_coefs co x).
Proof.
  intros Hin Hpi Hcv.
  assert (H : com_curve pData T x = Ok cv) by (unfold com_curve; rewrite Hpi; exact Hcv).
  destruct (com_curve_inv _ _ _ _ Hin H) as (pi' & pts & Hs & Hpi' & HT & -> & _).
  rewrite Hpi in Hpi'. injection Hpi'; intros <-.
  assert (HT0 : T <> 0) by lra.
  destruct (eval_acc_ok _ _ _ _ _ s HT0 Hs) as (co & H1 & H2). exists co. split; [exact H1|].
  unfold cv_fun. cbn [bc_pts bc_T]. rewrite H2, <- (curve_at_sT _ T) by assumption.
  apply curve_is_deriv_n.
Qed.

Lemma c04_ok pData T x cv :
  In (flag_of pData) com_flags -> com_curve pData T x = Ok cv ->
  exists co, computeFinalVelocityPoint pData T = Ok co /\
    is_deriv_n 1 (cv_fun cv) T (ev_coefs co x).
Proof.
  intros Hin H.
  destruct (com_curve_inv _ _ _ _ Hin H) as (pi & pts & Hs & Hpi & HT & -> & _).
  assert (HT0 : T <> 0) by lra.
  destruct (final_vel_ok _ _ _ _ _ HT0 Hs) as (co & H1 & H2). exists co. split; [exact H1|].
  unfold cv_fun. cbn [bc_pts bc_T]. apply is_deriv_n_at_T; [assumption|]. symmetry; exact H2.
Qed.

Lemma c05_ok pData T x cv g :
  In (flag_of pData) exact_w_flags -> com_curve pData T x = Ok cv -> front_gravity pData = Ok g ->
  exists ws, computeWwaypoints pData T = Ok ws /\
    forall t acc, is_deriv_n 2 (cv_fun cv) t acc ->
      curve6 (map (fun w => ev_w6 w x) ws) T t = wrench g (cv_fun cv t) acc.
Proof.
  intros Hin H Hg.
  destruct (com_curve_inv _ _ _ _ (exact_in_com _ Hin) H) as (pi & pts & Hs & Hpi & HT & -> & _).
  assert (HT0 : T <> 0) by lra.
  assert (G : exists ws, computeWwaypoints pData T = Ok ws /\ forall t,
     curve6 (map (fun w => ev_w6 w x) ws) T t
     = wrench g (curve pts T t) (curve (hodo_n 2 T pts) T t)).
  { assert (G1 : forall t, exists ws, computeWwaypoints pData T = Ok ws /\
     curve6 (map (fun w => ev_w6 w x) ws) T t
     = wrench g (curve pts T t) (curve (hodo_n 2 T pts) T t)).
    { intros t. shape_cases Hs.
      - exact (w_c1 _ _ x _ _ _ _ _ _ t HT0 E Hc Ep Hg).
      - exact (w_capture _ _ x _ _ _ _ _ _ t HT0 E Hc Ep Hg).
      - exact (w_dc1_c1 _ _ x _ _ _ _ _ _ _ t HT0 E Hc Ep Hg).
      - exact (w_acc _ _ x _ _ _ _ _ _ t HT0 E Hc Ep Hg).
      - exact (w_acc_c1 _ _ x _ _ _ _ _ _ _ t HT0 E Hc Ep Hg).
      - exfalso. rewrite E in Hin. simpl in Hin.
        repeat (destruct Hin as [Hin|Hin]; [discriminate Hin|]). exact Hin.
      - exfalso. rewrite E in Hin. simpl in Hin.
        repeat (destruct Hin as [Hin|Hin]; [discriminate Hin|]). exact Hin. }
    destruct (G1 0) as (ws & Hw & _). exists ws. split; [exact Hw|].
    intros t. destruct (G1 t) as (ws' & Hw' & Ht). rewrite Hw in Hw'. injection Hw'; intros <-. exact Ht. }
  destruct G as (ws & Hw & Hall). exists ws. split; [exact Hw|].
  intros t acc Hacc. unfold cv_fun in *. cbn [bc_pts bc_T] in *.
  rewrite (curve_deriv_n_eq _ _ _ _ _ Hacc). apply Hall.
Qed.

Lemma c06_ok pData T x cv g M G :
  In (flag_of pData) dec_w_flags -> com_curve pData T x = Ok cv -> front_gravity pData = Ok g ->
  Forall (within M) (bc_pts cv) -> within G g ->
  exists ws, computeWwaypoints pData T = Ok ws /\
    forall t acc, 0 <= t <= T -> is_deriv_n 2 (cv_fun cv) t acc ->
      let d := v6sub (curve6 (map (fun w => ev_w6 w x) ws) T t) (wrench g (cv_fun cv t) acc) in
      within (err_force M T) (fst d) /\ within (err_moment G M T) (snd d).
Proof.
  intros Hin H Hg HP HG.
  destruct (com_curve_inv _ _ _ _ (dec_in_com _ Hin) H) as (pi & pts & Hs & Hpi & HT & -> & _).
  assert (HT0 : T <> 0) by lra. cbn [bc_pts] in HP.
  assert (HG0 : 0 <= G) by exact (within_nonneg _ _ HG).
  assert (HM0 : 0 <= M).
  { destruct pts as [|p l]; [inversion Hs|]. inversion HP as [|? ? Hp Hl]; subst.
    exact (within_nonneg _ _ Hp). }
  assert (K : exists ws tab tab', computeWwaypoints pData T = Ok ws /\
     map (fun w => ev_w6 w x) ws = map (row_val T g pts) tab /\ tab <> [] /\
     Forall2 row_close tab tab' /\
     forall t, curve6 (map (row_val T g pts) tab') T t
        = wrench g (curve pts T t) (curve (hodo_n 2 T pts) T t)).
  { shape_cases Hs;
      try (exfalso; rewrite E in Hin; simpl in Hin;
        repeat (destruct Hin as [Hin|Hin]; [discriminate Hin|]); exact Hin).
    - destruct (d5_rows _ _ x _ _ _ _ _ _ _ g HT0 E Hc Ep Hg) as (ws & H1 & H2).
      exists ws, tab_d5_dec, tab_d5_ex. split; [exact H1|]. split; [exact H2|].
      split; [discriminate|]. split; [exact d5_close|]. intros t. apply d5_exact; assumption.
    - destruct (d6_rows _ _ x _ _ _ _ _ _ _ _ g HT0 E Hc Ep Hg) as (ws & H1 & H2).
      exists ws, tab_d6_dec, tab_d6_ex. split; [exact H1|]. split; [exact H2|].
      split; [discriminate|]. split; [exact d6_close|]. intros t. apply d6_exact; assumption. }
  destruct K as (ws & tab & tab' & Hw & Hm & Hne & Hcl & Hex).
  exists ws. split; [exact Hw|]. intros t acc Ht Hacc. cbv zeta.
  unfold cv_fun in *. cbn [bc_pts bc_T] in *.
  rewrite (curve_deriv_n_eq _ _ _ _ _ Hacc), <- Hex, Hm.
  apply (rows_diff T g pts M G tab tab' t); assumption.
Qed.

(** Capture flag. *)
Lemma capture_ends_at_rest pData T x cv :
  flag_of pData = F_capture -> com_curve pData T x = Ok cv ->
  cv_fun cv T = x /\ is_deriv_n 1 (cv_fun cv) T vzero.
Proof.
  intros Hfl H.
  assert (Hin : In (flag_of pData) com_flags) by (rewrite Hfl; simpl; tauto).
  destruct (com_curve_inv _ _ _ _ Hin H) as (pi & pts & Hs & Hpi & HT & -> & Hcap).
  assert (HT0 : T <> 0) by lra.
  unfold cv_fun. cbn [bc_pts bc_T].
  shape_cases Hs; rewrite E in Hfl; try discriminate Hfl.
  split.
  - rewrite curve_at_T by assumption. reflexivity.
  - apply is_deriv_n_at_T; [assumption|]. hodo_vals. vec_field.
Qed.
