(** Constraints between samples taken at rounded times. *)
From Flocq Require Import Core BinarySingleNaN.
From Verif Require Import Vec SpecBezier SpecTime ModelData ModelDispatch ModelUtils ModelRows ModelCom SpecCom SpecCtr SpecGap
  Double ModelDouble SpecDouble SpecDouble2 SpecGapDouble ProofWaypoints ProofCom2 ProofGap ProofDouble ProofDouble2 ProofDouble3 ProofDouble4 ProofDouble6 ProofDouble7.
Open Scope R_scope.

Lemma ivt_nat (f : nat -> R) t : forall n, (1 <= n)%nat -> f O <= t -> t <= f n -> exists k, (k < n)%nat /\ f k <= t <= f (S k).
Proof.
  induction n as [|n IH]; intros L A B; [lia|]. destruct (Rle_dec (f n) t) as [C|C]; [exists n; split; [lia|lra]|].
  destruct n as [|n]; [lra|]. destruct IH as (k & K & H); [lia|exact A|lra|]. exists k. split; [lia|exact H].
Qed.

Lemma eta_u : / IZR (2 ^ 1074) <= u53 / 2.
Proof.
  unfold u53. replace (/ IZR (2 ^ 53) / 2) with (/ IZR (2 ^ 54)); [apply Rinv_le_contravar; [apply IZR_lt; reflexivity|apply IZR_le; discriminate]|].
  change (2 ^ 54)%Z with (2 ^ 53 * 2)%Z. rewrite mult_IZR. field. apply not_0_IZR. discriminate.
Qed.

(** The places for two samples [t], [t'], if [t' <= t + d]. *)
Lemma ev_gap T ev t t' d : posf T -> evaluates T ev -> is_finite t = true -> is_finite t' = true -> 0 <= B2R t -> 0 <= B2R t' -> 0 <= d ->
  (B2R t <= B2R T -> B2R t' <= B2R t + d) -> ev t' <= ev t + d + 3 * u53 * B2R T.
Proof.
  intros [FT PT] E F F' P P' D H. destruct (E t F P) as (R1 & S1 & N1). destruct (E t' F' P') as (R2 & S2 & N2).
  pose proof u53_pos as U. pose proof eta_u as Eu. assert (UT : 0 <= u53 * B2R T) by nra.
  destruct (Rle_dec (B2R T) (B2R t)) as [C|C]; [rewrite (S1 C); lra|].
  assert (C' : B2R t <= B2R T) by lra. specialize (H C'). specialize (N1 C'). apply Rabs_le_inv in N1.
  assert (Et : / IZR (2 ^ 1074) * B2R T <= u53 / 2 * B2R T) by (apply Rmult_le_compat_r; lra).
  assert (Q1 : u53 * B2R t <= u53 * B2R T) by (apply Rmult_le_compat_l; lra).
  destruct (Rle_dec (B2R t') (B2R T)) as [K|K].
  - specialize (N2 K). apply Rabs_le_inv in N2. assert (Q2 : u53 * B2R t' <= u53 * B2R T) by (apply Rmult_le_compat_l; lra). lra.
  - rewrite S2 by lra. lra.
Qed.

Section Plan.
Variable pData : problem.
Variable Ts : list R.
Variable T : R.
Variables M G : R.
Variable g : vec3.
Hypothesis WP : well_posed pData Ts.
Hypothesis HG : within G g.
Hypothesis Hg : same_gravity pData g.

Lemma plan_gap_T x cv sl i c a b h t : com_curve pData T x = Ok cv -> 0 <= M -> Forall (within M) (bc_pts cv) ->
  nth_error (contacts pData) i = Some c -> 0 <= a -> a <= t <= b -> b <= a + h -> b <= T ->
  contact_ok pData sl c (cv_fun cv) a /\ accel_ok pData (cv_fun cv) a ->
  contact_ok pData sl c (cv_fun cv) b /\ accel_ok pData (cv_fun cv) b ->
  let n := Nat.pred (length (bc_pts cv)) in
  contact_near pData (gap_pos n T M h) (sl + gap_wrench G n T M h) c (cv_fun cv) t /\
  accel_near pData (gap_acc n T M h) (cv_fun cv) t.
Proof.
  intros Hcv M0 HM Hc Ha Ht Hh Hb [Ca Aa] [Cb Ab]. cbv zeta. pose proof WP as (Hf & _).
  destruct (boundary_ok pData T x cv Hf Hcv) as (HT & TP & _). rewrite <- HT in *.
  assert (Wf : contact_wf c) by (destruct WP as (_ & _ & _ & _ & _ & F); rewrite Forall_forall in F; apply F; exact (nth_error_In _ _ Hc)).
  split.
  - apply (contact_gap pData cv M G g TP HM M0 HG c Wf (fun ph => Hg c ph (nth_error_In _ _ Hc)) a b h Ha); try assumption; lra.
  - apply (accel_gap pData cv M TP HM M0 a b h Ha); try assumption; lra.
Qed.
End Plan.

Lemma nth_error_0 {A} (l : list A) : nth_error l 0 = hd_error l.
Proof. destruct l; reflexivity. Qed.

(** * Steps of [dt] *)
Section Step.
Variable pData : problem.
Variable Ts : list f64.
Variable T dt : f64.
Variable fuel : nat.
Variable ta : list (f64 * Z).
Hypothesis WP : well_posed pData (map (fun d : f64 => B2R d) Ts).
Hypothesis HP : Forall posf Ts.
Hypothesis HT : posf T.
Hypothesis Hdt : posf dt.
Hypothesis HF : is_finite (end_f Ts (length Ts)) = true.
Hypothesis HE : computeDiscretizedTime_f fuel Ts dt = Some ta.

Lemma walk_gap ev k b t : (k < length Ts)%nat -> evaluates T ev -> walk (start_f Ts k) (end_f Ts k) dt b ->
  ev (start_f Ts k) <= t <= ev (end_f Ts k) ->
  exists a a', In a b /\ In a' b /\ ev a <= t <= ev a' /\ ev a' <= ev a + gap_step (B2R T) (B2R dt).
Proof.
  intros Hk E (Wh & (b' & Wl) & Wi & Ws) Ht. pose proof u53_pos as U. destruct HT as [FT PT]. destruct Hdt as [Fd Pd].
  set (f := fun j => ev (nth j b f0)).
  assert (B0 : nth_error b 0 = Some (start_f Ts k)) by (rewrite nth_error_0; exact Wh).
  assert (Bl : nth_error b (length b') = Some (end_f Ts k)) by (rewrite Wl, nth_error_app2, Nat.sub_diag by lia; reflexivity).
  assert (G0 : 0 <= gap_step (B2R T) (B2R dt)) by (unfold gap_step; nra).
  destruct (Nat.eq_dec (length b') 0) as [Z|Z].
  - rewrite Z, B0 in Bl. injection Bl as Bl. rewrite <- Bl in Ht. exists (start_f Ts k), (start_f Ts k).
    assert (In (start_f Ts k) b) by (eapply nth_error_In, B0). split; [assumption|]. split; [assumption|]. split; [exact Ht|lra].
  - assert (Fn : forall j x, nth_error b j = Some x -> f j = ev x) by (intros j x Hx; unfold f; rewrite (nth_error_nth _ _ _ Hx); reflexivity).
    destruct (ivt_nat f t (length b')) as (j & J & Hj); [lia|rewrite (Fn _ _ B0); apply Ht|rewrite (Fn _ _ Bl); apply Ht|].
    assert (Lb : length b = S (length b')) by (rewrite Wl, app_length; cbn [length]; lia).
    destruct (nth_error b j) as [a|] eqn:Ea; [|apply nth_error_None in Ea; lia].
    destruct (nth_error b (S j)) as [a'|] eqn:Ea'; [|apply nth_error_None in Ea'; lia].
    rewrite (Fn _ _ Ea), (Fn _ _ Ea') in Hj. destruct (Ws j a a' Ea Ea') as [[W1 W2] _].
    pose proof (nth_error_In _ _ Ea) as Ia. pose proof (nth_error_In _ _ Ea') as Ia'.
    destruct (Wi a Ia) as [Fa Ba]. destruct (Wi a' Ia') as [Fa' Ba']. pose proof (start_ge0 Ts k HP HF) as S0.
    exists a, a'. split; [exact Ia|]. split; [exact Ia'|]. split; [exact Hj|].
    pose proof (ev_gap T ev a a' (B2R dt + u53 * (B2R T + B2R dt)) (conj FT PT) E Fa Fa' ltac:(lra) ltac:(lra) ltac:(nra)) as Q.
    assert (Q' : ev a' <= ev a + (B2R dt + u53 * (B2R T + B2R dt)) + 3 * u53 * B2R T) by (apply Q; intro L; nra).
    unfold gap_step. lra.
Qed.

Lemma cover_step ev : evaluates T ev -> ev f0 = 0 -> B2R T <= B2R (end_f Ts (length Ts)) ->
  forall t, 0 <= t <= B2R T -> exists i, (i < length Ts)%nat /\ ev (start_f Ts i) <= t <= ev (end_f Ts i).
Proof.
  intros E E0 L t Ht. destruct (ivt_nat (fun i => ev (start_f Ts i)) t (length Ts)) as (i & Hi & Hb).
  - destruct WP as (_ & _ & H & _). destruct Ts; [elim H; reflexivity|cbn; lia].
  - change (start_f Ts 0) with f0. rewrite E0. apply Ht.
  - assert (Eq : start_f Ts (length Ts) = end_f Ts (length Ts)) by (unfold end_f, start_f; rewrite !firstn_all2 by lia; reflexivity).
    rewrite Eq. destruct (E (end_f Ts (length Ts)) HF) as (_ & S & _); [apply (start_ge0 Ts (S (length Ts)) HP HF)|]. rewrite (S L). apply Ht.
  - exists i. split; [exact Hi|exact Hb].
Qed.

Lemma eval_0 : eval_time T f0 = 0.
Proof.
  destruct HT as [FT PT]. assert (Q : B2R f0 / B2R T = 0) by (rewrite f0_val; unfold Rdiv; ring).
  assert (R0 : rnd 0 = 0) by (apply rnd_fmt; apply (fmt_Z 0); lia).
  destruct (fdiv_fin f0 T eq_refl ltac:(lra)) as [F V].
  { rewrite Q, R0, Rabs_R0, big. apply IZR_lt. reflexivity. }
  rewrite Q, R0 in V. assert (E : B2R (unit_time T f0) = 0).
  { unfold unit_time, fmin. destruct (flt f1 (fdiv f0 T)) eqn:L; [|exact V]. apply (flt_val f1 _ eq_refl F) in L. rewrite f1_val, V in L. lra. }
  unfold eval_time. rewrite E. ring.
Qed.

Lemma step_between_exact g G : same_gravity pData g -> within G g -> In (flag_of pData) exact_w_flags -> exists ev rows,
  evaluates T ev /\
  (B2R T <= B2R (end_f Ts (length Ts)) ->
     forall t, 0 <= t <= B2R T -> exists i, (i < length Ts)%nat /\ ev (start_f Ts i) <= t <= ev (end_f Ts i)) /\
  constraints_f pData Ts T ta = Ok rows /\
  forall x cv M, com_curve pData (B2R T) x = Ok cv -> 0 <= M -> Forall (within M) (bc_pts cv) -> sat rows x ->
    let n := Nat.pred (length (bc_pts cv)) in
    let h := gap_step (B2R T) (B2R dt) in
    forall i c t, nth_error (contacts pData) i = Some c -> ev (start_f Ts i) <= t <= ev (end_f Ts i) ->
      contact_near pData (gap_pos n (B2R T) M h) (gap_wrench G n (B2R T) M h) c (cv_fun cv) t /\
      accel_near pData (gap_acc n (B2R T) M h) (cv_fun cv) t.
Proof.
  intros Hg HG Hf. destruct step_blocks with (1 := HP) (2 := Hdt) (3 := HF) (4 := HE) as (bs & E & L & W & N & F).
  destruct (rows_exact pData Ts T bs WP HT L N F g Hg Hf) as (rows & R & H). exists (eval_time T), rows. rewrite E.
  pose proof (eval_evaluates T HT) as Ev. split; [exact Ev|]. split; [apply cover_step; [exact Ev|exact eval_0]|]. split; [exact R|].
  intros x cv M Hcv M0 HM S. cbv zeta. intros i c t Hc Ht. pose proof (proj1 (H x cv Hcv) S) as A.
  assert (Hi : (i < length Ts)%nat) by (rewrite <- (contacts_len pData Ts WP); apply nth_error_Some; congruence).
  destruct (nth_error bs i) as [b|] eqn:Eb; [|apply nth_error_None in Eb; lia].
  destruct (walk_gap (eval_time T) i b t Hi Ev (W i b Eb) Ht) as (a & a' & Ia & Ia' & B & D).
  destruct (F b a (nth_error_In _ _ Eb) Ia) as [Fa Pa]. destruct (F b a' (nth_error_In _ _ Eb) Ia') as [Fa' Pa'].
  rewrite <- (Rplus_0_l (gap_wrench G _ _ _ _)).
  apply (plan_gap_T pData _ (B2R T) M G g WP HG Hg x cv 0 i c (eval_time T a) (eval_time T a') _ t Hcv M0 HM Hc); try assumption.
  - apply (Ev a Fa Pa).
  - apply (Ev a' Fa' Pa').
  - apply (A i c a Hc). left. eauto.
  - apply (A i c a' Hc). left. eauto.
Qed.
Lemma step_between_dec g G : same_gravity pData g -> within G g -> In (flag_of pData) dec_w_flags -> exists ev rows,
  evaluates T ev /\
  (B2R T <= B2R (end_f Ts (length Ts)) ->
     forall t, 0 <= t <= B2R T -> exists i, (i < length Ts)%nat /\ ev (start_f Ts i) <= t <= ev (end_f Ts i)) /\
  constraints_f pData Ts T ta = Ok rows /\
  forall x cv M, com_curve pData (B2R T) x = Ok cv -> 0 <= M -> Forall (within M) (bc_pts cv) -> sat rows x ->
    let n := Nat.pred (length (bc_pts cv)) in
    let h := gap_step (B2R T) (B2R dt) in
    forall i c t, nth_error (contacts pData) i = Some c -> ev (start_f Ts i) <= t <= ev (end_f Ts i) ->
      contact_near pData (gap_pos n (B2R T) M h)
        (3 * (err_force M (B2R T) + err_moment G M (B2R T)) + gap_wrench G n (B2R T) M h) c (cv_fun cv) t /\
      accel_near pData (gap_acc n (B2R T) M h) (cv_fun cv) t.
Proof.
  intros Hg HG Hf. destruct step_blocks with (1 := HP) (2 := Hdt) (3 := HF) (4 := HE) as (bs & E & L & W & N & F).
  destruct (rows_dec pData Ts T bs WP HT L N F g G Hg HG Hf) as (rows & R & H). exists (eval_time T), rows. rewrite E.
  pose proof (eval_evaluates T HT) as Ev. split; [exact Ev|]. split; [apply cover_step; [exact Ev|exact eval_0]|]. split; [exact R|].
  intros x cv M Hcv M0 HM S. cbv zeta. intros i c t Hc Ht. pose proof (proj1 (H x cv M Hcv HM) S) as A.
  assert (Hi : (i < length Ts)%nat) by (rewrite <- (contacts_len pData Ts WP); apply nth_error_Some; congruence).
  destruct (nth_error bs i) as [b|] eqn:Eb; [|apply nth_error_None in Eb; lia].
  destruct (walk_gap (eval_time T) i b t Hi Ev (W i b Eb) Ht) as (a & a' & Ia & Ia' & B & D).
  destruct (F b a (nth_error_In _ _ Eb) Ia) as [Fa Pa]. destruct (F b a' (nth_error_In _ _ Eb) Ia') as [Fa' Pa'].
  apply (plan_gap_T pData _ (B2R T) M G g WP HG Hg x cv _ i c (eval_time T a) (eval_time T a') _ t Hcv M0 HM Hc); try assumption.
  - apply (Ev a Fa Pa).
  - apply (Ev a' Fa' Pa').
  - apply (A i c a Hc). left. eauto.
  - apply (A i c a' Hc). left. eauto.
Qed.
End Step.

(** * Fixed number of points *)
Section Fixed.
Variable pData : problem.
Variable Ts : list f64.
Variable T : f64.
Variable p : nat.
Variable del : R.
Hypothesis WP : well_posed pData (map (fun d : f64 => B2R d) Ts).
Hypothesis HP : Forall posf Ts.
Hypothesis HT : posf T.
Hypothesis Hp : (1 <= p)%nat.
Hypothesis H53 : (Z.of_nat (length Ts) * Z.of_nat p < 2 ^ 53)%Z.
Hypothesis LT : total (map (fun d : f64 => B2R d) Ts) <= IZR (2 ^ 1000).
Hypothesis HN : forall d, In d Ts -> / IZR (2 ^ 1022) <= B2R d / INR p.
Hypothesis HD : Rabs (B2R T - total (map (fun d : f64 => B2R d) Ts)) <= del.
Let Rs := map (fun d : f64 => B2R d) Ts.
Let D := total Rs.
Let arr := computeDiscretizedTimeFixed_f T Ts p.
Let err := 2 * INR (length Ts * p + 1) * u53 * D + del.

Lemma rs_nth i d : nth_error Ts i = Some d -> nth_error Rs i = Some (B2R d).
Proof. intro H. unfold Rs. exact (map_nth_error _ _ _ H). Qed.
Lemma rs_pos : Forall (fun d => 0 < d) Rs.
Proof. destruct WP as (_ & _ & _ & H & _). exact H. Qed.

Lemma fixed_sample i j d : nth_error Ts i = Some d -> (j <= p)%nat -> exists t z, nth_error arr (i * p + j) = Some (t, z) /\
  is_finite t = true /\ 0 <= B2R t /\ Rabs (B2R t - (phase_start Rs i + INR j / INR p * B2R d)) <= err.
Proof.
  intros Hd Hj. assert (Hi : (i < length Ts)%nat) by (apply nth_error_Some; congruence).
  assert (Ne : Ts <> []) by (destruct Ts; [cbn in Hi; lia|discriminate]).
  destruct (fixed_f_ok T Ts p Ne Hp H53 HP LT HN) as (Ln & A0 & Al & As). fold arr in Ln, A0, Al, As.
  pose proof u53_pos as U. pose proof rs_pos as RP.
  assert (D0 : 0 <= D) by (destruct (total_prefix Rs 0 RP) as [_ B]; fold D in B; lra).
  assert (DL : 0 <= del) by (eapply Rle_trans; [apply Rabs_pos|exact HD]).
  assert (P0 : 0 < INR p) by (apply lt_0_INR; lia).
  assert (Er : forall m e, (m <= length Ts * p + 1)%nat -> 0 <= e <= D -> 2 * INR m * u53 * e <= err).
  { intros m e Hm He. unfold err. pose proof (le_INR _ _ Hm) as Hm'. pose proof (pos_INR m) as M0.
    assert (2 * INR m * u53 * e <= 2 * INR (length Ts * p + 1) * u53 * D); [|lra].
    apply Rmult_le_compat; [|lra| |lra]; [nra|]. apply Rmult_le_compat_r; lra. }
  assert (Er0 : 0 <= err) by (pose proof (Er O 0 ltac:(lia) ltac:(lra)) as Q; cbn [INR] in Q; lra).
  (* the regular samples *)
  assert (Reg : forall a b c, nth_error Ts a = Some c -> (1 <= b <= p)%nat -> (a * p + b < length Ts * p)%nat -> exists t z, nth_error arr (a * p + b) = Some (t, z) /\
    is_finite t = true /\ 0 <= B2R t /\ Rabs (B2R t - (phase_start Rs a + INR b / INR p * B2R c)) <= err).
  { intros a b c Hc Hb Hl. destruct (As a b c Hc Hb Hl) as (t & Et & Ft & Bt). cbv zeta in Bt. change (map B2R Ts) with Rs in Bt.
    pose proof (rs_nth a c Hc) as Hc'. destruct (phase_mono Rs a (B2R c) RP Hc') as [C0 Ee].
    destruct (total_prefix Rs a RP) as [A1 _]. destruct (total_prefix Rs (S a) RP) as [A2 _]. change (phase_start Rs (S a)) with (phase_end Rs a) in A2. rewrite Ee in A2. fold D in A1, A2.
    assert (J : 0 <= INR b / INR p <= 1).
    { split; [apply Rmult_le_pos; [apply pos_INR|left; apply Rinv_0_lt_compat, P0]|]. apply (Rmult_le_reg_r (INR p)); [exact P0|]. unfold Rdiv. rewrite Rmult_assoc, Rinv_l by lra.
      rewrite Rmult_1_r, Rmult_1_l. apply le_INR; lia. }
    assert (Ev : 0 <= phase_start Rs a + INR b / INR p * B2R c <= D) by nra.
    exists t, (Z.of_nat a). split; [exact Et|]. split; [exact Ft|].
    assert (Q : Rabs (B2R t - (phase_start Rs a + INR b / INR p * B2R c)) <= err) by (eapply Rle_trans; [exact Bt|]; apply Er; [lia|exact Ev]).
    split; [|exact Q].
    destruct (fixed_cells pData Ts T p WP HP HT Hp H53 LT HN) as (cs & E & L & B). fold arr in E.
    destruct (ws_facts pData Ts p WP HP Hp H53 LT HN cs L B) as (_ & _ & F & Etg). rewrite <- Etg in E.
    assert (I : In (t, Z.of_nat a) arr) by (eapply nth_error_In, Et). rewrite E in I.
    assert (G : forall bs k, In (t, Z.of_nat a) (tagged_f k bs) -> exists b, In b bs /\ In t b).
    { induction bs as [|b0 bs IH]; intros k K; [destruct K|]. cbn [tagged_f] in K. apply in_app_or in K. destruct K as [K|K].
      - apply in_map_iff in K. destruct K as (t0 & K & K'). apply (f_equal fst) in K. cbn [fst] in K. subst t0. exists b0. split; [left; reflexivity|exact K'].
      - destruct (IH _ K) as (b1 & I1 & I2). exists b1. split; [right; exact I1|exact I2]. }
    destruct (G _ _ I) as (b1 & I1 & I2). apply (F b1 t I1 I2). }
  assert (Q1 : INR p / INR p = 1) by (field; lra).
  destruct (Nat.eq_dec (i * p + j) (length Ts * p)) as [El|El].
  - assert (j = p /\ S i = length Ts) as [-> Ei] by nia. exists T, (Z.of_nat (length Ts) - 1)%Z. rewrite El. split; [exact Al|].
    split; [apply HT|]. split; [left; apply HT|]. rewrite Q1, Rmult_1_l.
    destruct (phase_mono Rs i (B2R d) RP (rs_nth i d Hd)) as [_ Ee]. rewrite <- Ee.
    assert (Et : phase_end Rs i = D).
    { unfold phase_end, D. rewrite firstn_all2; [reflexivity|]. unfold Rs. rewrite map_length. lia. }
    rewrite Et. eapply Rle_trans; [exact HD|]. unfold err. pose proof (pos_INR (length Ts * p + 1)). assert (0 <= 2 * INR (length Ts * p + 1) * u53 * D); [|lra].
    apply Rmult_le_pos; [nra|exact D0].
  - assert (Hlt : (i * p + j < length Ts * p)%nat) by nia. destruct j as [|j]; [|apply Reg; [exact Hd|lia|exact Hlt]].
    destruct i as [|i].
    + exists f0, 0%Z. split; [exact A0|]. split; [reflexivity|]. rewrite f0_val. split; [lra|]. unfold phase_start. cbn [firstn total INR].
      replace (0 - (0 + 0 / INR p * B2R d)) with 0 by (unfold Rdiv; ring). rewrite Rabs_R0. exact Er0.
    + destruct (nth_error Ts i) as [d'|] eqn:Hd'; [|apply nth_error_None in Hd'; lia].
      destruct (Reg i p d' Hd' ltac:(lia) ltac:(nia)) as (t & z & E & F & P & B). exists t, z.
      replace (S i * p + 0)%nat with (i * p + p)%nat by lia. split; [exact E|]. split; [exact F|]. split; [exact P|].
      destruct (phase_mono Rs i (B2R d') RP (rs_nth i d' Hd')) as [_ Ee]. rewrite Q1, Rmult_1_l in B. rewrite <- Ee in B.
      change (phase_start Rs (S i)) with (phase_end Rs i). cbn [INR]. replace (0 / INR p * B2R d) with 0 by (unfold Rdiv; ring). rewrite Rplus_0_r. exact B.
Qed.

Lemma fixed_near ev i d s e zs ze t : evaluates T ev -> nth_error Ts i = Some d ->
  nth_error arr (i * p) = Some (s, zs) -> nth_error arr (i * p + p) = Some (e, ze) -> ev s <= t <= ev e ->
  exists j j' a za a' za', (j <= p)%nat /\ (j' <= p)%nat /\ nth_error arr (i * p + j) = Some (a, za) /\ nth_error arr (i * p + j') = Some (a', za') /\
    ev a <= t <= ev a' /\ ev a' <= ev a + gap_fixed (length Ts) p D del (B2R T) (B2R d) /\ 0 <= ev a /\ ev a' <= B2R T.
Proof.
  intros E Hd Hs He Ht. set (f := fun j => ev (fst (nth (i * p + j) arr (f0, 0%Z)))).
  assert (Fn : forall j x z, nth_error arr (i * p + j) = Some (x, z) -> f j = ev x) by (intros j x z Hx; unfold f; rewrite (nth_error_nth _ _ _ Hx); reflexivity).
  destruct (ivt_nat f t p Hp) as (j & J & Hj).
  - rewrite (Fn O s zs); [apply Ht|]. rewrite Nat.add_0_r. exact Hs.
  - rewrite (Fn p e ze He). apply Ht.
  - destruct (fixed_sample i j d Hd ltac:(lia)) as (a & za & Ea & Fa & Pa & Ba).
    destruct (fixed_sample i (S j) d Hd ltac:(lia)) as (a' & za' & Ea' & Fa' & Pa' & Ba').
    rewrite (Fn _ _ _ Ea), (Fn _ _ _ Ea') in Hj. exists j, (S j), a, za, a', za'.
    assert (P0 : 0 < INR p) by (apply lt_0_INR; lia). apply Rabs_le_inv in Ba, Ba'.
    replace (INR (S j) / INR p * B2R d) with (INR j / INR p * B2R d + B2R d / INR p) in Ba' by (rewrite S_INR; field; lra).
    assert (Pd : 0 < B2R d) by (rewrite Forall_forall in HP; apply HP; eapply nth_error_In, Hd).
    assert (Q : 0 <= B2R d / INR p) by (apply Rmult_le_pos; [lra|left; apply Rinv_0_lt_compat, P0]).
    assert (E0 : 0 <= err) by lra.
    split; [lia|]. split; [lia|]. split; [exact Ea|]. split; [exact Ea'|]. split; [exact Hj|]. split; [|split; [apply (E a Fa Pa)|apply (E a' Fa' Pa')]].
    pose proof (ev_gap T ev a a' (B2R d / INR p + 2 * err) HT E Fa Fa' Pa Pa' ltac:(lra) ltac:(intro; lra)) as K.
    unfold gap_fixed. fold err. lra.
Qed.

Lemma cover_fixed ev : evaluates T ev -> ev f0 = 0 -> forall t, 0 <= t <= B2R T -> exists i s zs e ze, (i < length Ts)%nat /\
  nth_error arr (i * p) = Some (s, zs) /\ nth_error arr (i * p + p) = Some (e, ze) /\ ev s <= t <= ev e.
Proof.
  intros E E0 t Ht.
  assert (L1 : (1 <= length Ts)%nat) by (destruct WP as (_ & _ & H & _); destruct Ts; [elim H; reflexivity|cbn; lia]).
  assert (Ne : Ts <> []) by (destruct Ts; [cbn in L1; lia|discriminate]).
  destruct (fixed_f_ok T Ts p Ne Hp H53 HP LT HN) as (Ln & A0 & Al & As). fold arr in Ln, A0, Al, As.
  set (f := fun i => ev (fst (nth (i * p) arr (f0, 0%Z)))).
  assert (Fn : forall j x z, nth_error arr (j * p) = Some (x, z) -> f j = ev x) by (intros j x z Hx; unfold f; rewrite (nth_error_nth _ _ _ Hx); reflexivity).
  destruct (ivt_nat f t (length Ts) L1) as (i & Hi & B).
  - rewrite (Fn O f0 0%Z A0), E0. apply Ht.
  - rewrite (Fn (length Ts) T _ Al). destruct (E T (proj1 HT)) as (_ & S & _); [left; apply HT|]. rewrite S by lra. apply Ht.
  - destruct (nth_error Ts i) as [d|] eqn:Hd; [|apply nth_error_None in Hd; lia].
    destruct (fixed_sample i 0 d Hd ltac:(lia)) as (s & zs & Es & _). rewrite Nat.add_0_r in Es.
    destruct (fixed_sample i p d Hd ltac:(lia)) as (e & ze & Ee & _).
    exists i, s, zs, e, ze. split; [exact Hi|]. split; [exact Es|]. split; [exact Ee|]. rewrite (Fn _ _ _ Es) in B.
    rewrite (Fn (S i) e ze) in B; [exact B|]. replace (S i * p)%nat with (i * p + p)%nat by lia. exact Ee.
Qed.

Lemma fixed_between_exact g G : same_gravity pData g -> within G g -> In (flag_of pData) exact_w_flags -> exists ev rows,
  evaluates T ev /\
  (forall t, 0 <= t <= B2R T -> exists i s zs e ze, (i < length Ts)%nat /\
     nth_error arr (i * p) = Some (s, zs) /\ nth_error arr (i * p + p) = Some (e, ze) /\ ev s <= t <= ev e) /\
  constraints_f pData Ts T arr = Ok rows /\
  forall x cv M, com_curve pData (B2R T) x = Ok cv -> 0 <= M -> Forall (within M) (bc_pts cv) -> sat rows x ->
    let n := Nat.pred (length (bc_pts cv)) in
    forall i c d s zs e ze t, nth_error (contacts pData) i = Some c -> nth_error Ts i = Some d ->
      nth_error arr (i * p) = Some (s, zs) -> nth_error arr (i * p + p) = Some (e, ze) -> ev s <= t <= ev e ->
      let h := gap_fixed (length Ts) p D del (B2R T) (B2R d) in
      contact_near pData (gap_pos n (B2R T) M h) (gap_wrench G n (B2R T) M h) c (cv_fun cv) t /\
      accel_near pData (gap_acc n (B2R T) M h) (cv_fun cv) t.
Proof.
  intros Hg HG Hf. destruct (fixed_cells pData Ts T p WP HP HT Hp H53 LT HN) as (cs & E & L & B). destruct (ws_facts pData Ts p WP HP Hp H53 LT HN cs L B) as (L2 & N & F & Et).
  assert (B' : forall a b, nth_error cs a = Some b -> length b = p) by (intros a b Hb; apply (B a b Hb)).
  destruct (rows_exact pData Ts T _ WP HT L2 N F g Hg Hf) as (rows & R & H). rewrite Et, <- E in R. exists (eval_time T), rows.
  pose proof (eval_evaluates T HT) as Ev. split; [exact Ev|]. split; [apply cover_fixed; [exact Ev|exact (eval_0 T HT)]|]. split; [exact R|].
  intros x cv M Hcv M0 HM S. cbv zeta. intros i c d s zs e ze t Hc Hd Hs He Ht. pose proof (proj1 (H x cv Hcv) S) as A.
  assert (Hi : (i < length Ts)%nat) by (apply nth_error_Some; congruence).
  destruct (fixed_near (eval_time T) i d s e zs ze t Ev Hd Hs He Ht) as (j & j' & a & za & a' & za' & Hj & Hj' & Ea & Ea' & Bt & Dg & P0 & PT).
  rewrite <- (Rplus_0_l (gap_wrench G _ _ _ _)).
  apply (plan_gap_T pData _ (B2R T) M G g WP HG Hg x cv 0 i c (eval_time T a) (eval_time T a') _ t Hcv M0 HM Hc); try assumption.
  - apply (A i c a Hc), (cells_sample Ts p Hp cs L B' i a Hi). exists j, za. split; [exact Hj|]. rewrite <- E. exact Ea.
  - apply (A i c a' Hc), (cells_sample Ts p Hp cs L B' i a' Hi). exists j', za'. split; [exact Hj'|]. rewrite <- E. exact Ea'.
Qed.
Lemma fixed_between_dec g G : same_gravity pData g -> within G g -> In (flag_of pData) dec_w_flags -> exists ev rows,
  evaluates T ev /\
  (forall t, 0 <= t <= B2R T -> exists i s zs e ze, (i < length Ts)%nat /\
     nth_error arr (i * p) = Some (s, zs) /\ nth_error arr (i * p + p) = Some (e, ze) /\ ev s <= t <= ev e) /\
  constraints_f pData Ts T arr = Ok rows /\
  forall x cv M, com_curve pData (B2R T) x = Ok cv -> 0 <= M -> Forall (within M) (bc_pts cv) -> sat rows x ->
    let n := Nat.pred (length (bc_pts cv)) in
    forall i c d s zs e ze t, nth_error (contacts pData) i = Some c -> nth_error Ts i = Some d ->
      nth_error arr (i * p) = Some (s, zs) -> nth_error arr (i * p + p) = Some (e, ze) -> ev s <= t <= ev e ->
      let h := gap_fixed (length Ts) p D del (B2R T) (B2R d) in
      contact_near pData (gap_pos n (B2R T) M h)
        (3 * (err_force M (B2R T) + err_moment G M (B2R T)) + gap_wrench G n (B2R T) M h) c (cv_fun cv) t /\
      accel_near pData (gap_acc n (B2R T) M h) (cv_fun cv) t.
Proof.
  intros Hg HG Hf. destruct (fixed_cells pData Ts T p WP HP HT Hp H53 LT HN) as (cs & E & L & B). destruct (ws_facts pData Ts p WP HP Hp H53 LT HN cs L B) as (L2 & N & F & Et).
  assert (B' : forall a b, nth_error cs a = Some b -> length b = p) by (intros a b Hb; apply (B a b Hb)).
  destruct (rows_dec pData Ts T _ WP HT L2 N F g G Hg HG Hf) as (rows & R & H). rewrite Et, <- E in R. exists (eval_time T), rows.
  pose proof (eval_evaluates T HT) as Ev. split; [exact Ev|]. split; [apply cover_fixed; [exact Ev|exact (eval_0 T HT)]|]. split; [exact R|].
  intros x cv M Hcv M0 HM S. cbv zeta. intros i c d s zs e ze t Hc Hd Hs He Ht. pose proof (proj1 (H x cv M Hcv HM) S) as A.
  assert (Hi : (i < length Ts)%nat) by (apply nth_error_Some; congruence).
  destruct (fixed_near (eval_time T) i d s e zs ze t Ev Hd Hs He Ht) as (j & j' & a & za & a' & za' & Hj & Hj' & Ea & Ea' & Bt & Dg & P0 & PT).
  apply (plan_gap_T pData _ (B2R T) M G g WP HG Hg x cv _ i c (eval_time T a) (eval_time T a') _ t Hcv M0 HM Hc); try assumption.
  - apply (A i c a Hc), (cells_sample Ts p Hp cs L B' i a Hi). exists j, za. split; [exact Hj|]. rewrite <- E. exact Ea.
  - apply (A i c a' Hc), (cells_sample Ts p Hp cs L B' i a' Hi). exists j', za'. split; [exact Hj'|]. rewrite <- E. exact Ea'.
Qed.
End Fixed.
