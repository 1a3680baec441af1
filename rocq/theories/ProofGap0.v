(** The wrench of a zero-step plan between two samples. *)
From Verif Require Import Vec SpecBezier SpecTime ModelData ModelDispatch ModelUtils ModelRows ModelCom ModelNd ModelCont ModelSolver ModelTraj Model0Step
  SpecCom SpecWp SpecCtr SpecCont SpecSolver SpecTraj Spec0Step SpecEnd3 SpecGap SpecGap0 ProofBezier ProofCurve ProofWaypoints ProofWaypoints2 ProofWaypoints3 ProofWaypointsErr
  ProofTraj2 ProofCom2 ProofEff5 ProofGap ProofGap2 Proof0Step Proof0Step2 Proof0Step3 Properties0Step ExamplesTraj.
Open Scope R_scope.

Section Gap.
Variable P Q : list vec3.
Variable T M L : R.
Hypothesis HT : 0 < T.
Hypothesis HM : Forall (within M) P.
Hypothesis M0 : 0 <= M.
Hypothesis HL : Forall (within L) Q.
Hypothesis L0 : 0 <= L.
Let n := pred (length P).
Let q := pred (length Q).
Let c k t := curve (hodo_n k T P) T t.
Let l k t := curve (hodo_n k T Q) T t.
Variables a b : R.
Hypothesis Ha : 0 <= a.
Hypothesis Hab : a <= b.
Hypothesis Hb : b <= T.

Lemma gap_giwL H m g G B : 0 < m -> within G g ->
  dot6 H (giwL m g (c 0 a) (c 2 a) (l 1 a)) <= B -> dot6 H (giwL m g (c 0 b) (c 2 b) (l 1 b)) <= B -> forall t, a <= t <= b ->
  dot6 H (giwL m g (c 0 t) (c 2 t) (l 1 t)) <= B + norm6 H * (m * gap_wrench G n T M (b - a) + 3 * rate 3 q T L * ((b - a) * (b - a)) / 8).
Proof.
  intros Hm HG A1 B1 t Ht.
  assert (CW : forall k s, a <= s <= b -> within (rate k n T M) (c k s)) by (intros k s Hs; apply deriv_within; [exact M0|exact HT|lra|exact HM]).
  assert (LW : forall k s, a <= s <= b -> within (rate k q T L) (l k s)) by (intros k s Hs; apply deriv_within; [exact L0|exact HT|lra|exact HL]).
  set (f := fun t => dot6 H (giwL m g (c 0 t) (c 2 t) (l 1 t))).
  set (N2 := fun t => vsub g (c 2 t)).
  set (f1 := fun t => m * (vdot (fst H) (vopp (c 3 t)) + vdot (snd H) (vadd (vcross (c 1 t) (N2 t)) (vcross (c 0 t) (vopp (c 3 t))))) - vdot (snd H) (l 2 t)).
  set (w := fun t => vadd (vadd (vcross (c 2 t) (N2 t)) (vcross (c 1 t) (vopp (c 3 t)))) (vadd (vcross (c 1 t) (vopp (c 3 t))) (vcross (c 0 t) (vopp (c 4 t))))).
  set (f2 := fun t => m * (vdot (fst H) (vopp (c 4 t)) + vdot (snd H) (w t)) - vdot (snd H) (l 3 t)).
  assert (DN : forall s, is_deriv N2 s (vopp (c 3 s))) by (intro s; apply (deriv_gsub g (c 2)), deriv_k).
  assert (S : forall h s l', derivable_pt_lim h s l' -> derivable_pt_lim (fun u => m * h u) s (m * l')).
  { intros h s l' D. replace (m * l') with (0 * h s + m * l') by ring. apply (derivable_pt_lim_mult (fun _ => m) h); [apply derivable_pt_lim_const|exact D]. }
  assert (Ef : forall s, f s = m * (vdot (fst H) (N2 s) + vdot (snd H) (vcross (c 0 s) (N2 s))) - vdot (snd H) (l 1 s)).
  { intro s. unfold f, N2, dot6, giwL, vdot, vscal, vcross, vsub. cbn [fst snd vx vy vz]. ring. }
  assert (D1 : forall s, derivable_pt_lim (fun s => m * (vdot (fst H) (N2 s) + vdot (snd H) (vcross (c 0 s) (N2 s))) - vdot (snd H) (l 1 s)) s (f1 s)).
  { intro s. unfold f1.
    apply (derivable_pt_lim_minus (fun s => m * (vdot (fst H) (N2 s) + vdot (snd H) (vcross (c 0 s) (N2 s)))) (fun s => vdot (snd H) (l 1 s))); [|apply (deriv_dot (snd H) (l 1)), deriv_k].
    apply S. apply (derivable_pt_lim_plus (fun s => vdot (fst H) (N2 s)) (fun s => vdot (snd H) (vcross (c 0 s) (N2 s)))).
    - apply deriv_dot, DN.
    - apply (deriv_dot (snd H) (fun s => vcross (c 0 s) (N2 s))), deriv_cross; [apply deriv_k|apply DN]. }
  assert (D3 : forall s, is_deriv (fun s => vopp (c 3 s)) s (vopp (c 4 s))) by (intro s; apply deriv_opp, deriv_k).
  assert (D2 : forall s, derivable_pt_lim f1 s (f2 s)).
  { intro s. unfold f1, f2, w.
    apply (derivable_pt_lim_minus (fun s => m * (vdot (fst H) (vopp (c 3 s)) + vdot (snd H) (vadd (vcross (c 1 s) (N2 s)) (vcross (c 0 s) (vopp (c 3 s)))))) (fun s => vdot (snd H) (l 2 s)));
      [|apply (deriv_dot (snd H) (l 2)), deriv_k].
    apply S.
    apply (derivable_pt_lim_plus (fun s => vdot (fst H) (vopp (c 3 s))) (fun s => vdot (snd H) (vadd (vcross (c 1 s) (N2 s)) (vcross (c 0 s) (vopp (c 3 s)))))).
    - apply (deriv_dot (fst H) (fun s => vopp (c 3 s))), D3.
    - apply (deriv_dot (snd H) (fun s => vadd (vcross (c 1 s) (N2 s)) (vcross (c 0 s) (vopp (c 3 s))))).
      apply (deriv_add (fun s => vcross (c 1 s) (N2 s)) (fun s => vcross (c 0 s) (vopp (c 3 s)))).
      + apply deriv_cross; [apply deriv_k|apply DN].
      + apply (deriv_cross (c 0) (fun s => vopp (c 3 s))); [apply deriv_k|apply D3]. }
  set (em := 2 * rate 2 n T M * G + 4 * rate 1 n T M * rate 3 n T M + 2 * M * rate 4 n T M).
  assert (Bd : forall s, a <= s <= b -> Rabs (f2 s) <= norm6 H * (m * (3 * (rate 4 n T M + em)) + 3 * rate 3 q T L)).
  { intros s Hs. unfold f2.
    assert (B2 : Rabs (vdot (snd H) (l 3 s)) <= norm6 H * (3 * rate 3 q T L)).
    { pose proof (dot6_err H (vzero, l 3 s) 0 (rate 3 q T L)) as K. cbn [fst snd] in K. unfold dot6 in K at 1. cbn [fst snd] in K.
      replace (vdot (fst H) vzero + vdot (snd H) (l 3 s)) with (vdot (snd H) (l 3 s)) in K by (unfold vdot, vzero; cbn [vx vy vz]; ring).
      rewrite Rplus_0_l in K. apply K; [|apply LW, Hs]. unfold within, vzero. cbn [vx vy vz]. rewrite Rabs_R0. split; [|split]; lra. }
    assert (B3 : Rabs (m * (vdot (fst H) (vopp (c 4 s)) + vdot (snd H) (w s))) <= m * (norm6 H * (3 * (rate 4 n T M + em)))).
    { rewrite Rabs_mult, (Rabs_pos_eq m) by lra. apply Rmult_le_compat_l; [lra|].
      apply (dot6_err H (vopp (c 4 s), w s)); cbn [fst snd].
      - apply within_vopp, CW, Hs.
      - pose proof (CW 0%nat s Hs) as W0. pose proof (CW 1%nat s Hs) as W1. pose proof (CW 2%nat s Hs) as W2. pose proof (CW 3%nat s Hs) as W3. pose proof (CW 4%nat s Hs) as W4.
        cbn [rate] in W0.
        assert (Ew : w s = vadd (vcross (c 2 s) g) (vadd (vadd (vcross (c 1 s) (vopp (c 3 s))) (vcross (c 1 s) (vopp (c 3 s)))) (vcross (c 0 s) (vopp (c 4 s))))).
        { unfold w, N2, vcross, vadd, vsub, vopp. cbn [vx vy vz]. f_equal; ring. }
        rewrite Ew. unfold em. replace (2 * rate 2 n T M * G + 4 * rate 1 n T M * rate 3 n T M + 2 * M * rate 4 n T M)
          with (2 * rate 2 n T M * G + ((2 * rate 1 n T M * rate 3 n T M + 2 * rate 1 n T M * rate 3 n T M) + 2 * M * rate 4 n T M)) by ring.
        apply within_vadd; [apply within_cross; assumption|]. apply within_vadd; [apply within_vadd|]; apply within_cross; try apply within_vopp; assumption. }
    apply Rabs_le_inv in B2, B3. apply Rabs_le. lra. }
  fold (f t). rewrite Ef.
  replace (norm6 H * (m * gap_wrench G n T M (b - a) + 3 * rate 3 q T L * ((b - a) * (b - a)) / 8))
    with (norm6 H * (m * (3 * (rate 4 n T M + em)) + 3 * rate 3 q T L) * ((b - a) * (b - a)) / 8) by (unfold gap_wrench, em, Rdiv; ring).
  apply (between _ _ _ a b B _ Hab D1 D2 Bd); [rewrite <- Ef; exact A1|rewrite <- Ef; exact B1|exact Ht].
Qed.
End Gap.

Definition z_lpts (useAng : bool) (l0 xL : vec3) : list vec3 := if useAng then [l0; xL; vzero; vzero] else [vzero; vzero; vzero; vzero].
Lemma z_rate_pts useAng l0 T xL t dl : z_rate useAng l0 T xL t dl -> dl = curve (hodo_n 1 T (z_lpts useAng l0 xL)) T t.
Proof.
  unfold z_rate, z_lpts. destruct useAng; intro H.
  - exact (is_deriv_n_unique 1 _ _ _ _ _ (fun _ => eq_refl) H (curve_is_deriv_n 1 _ T t)).
  - rewrite H. unfold hodo_n, hodo. cbn [vdiffs length pred map]. symmetry.
    assert (E : vscal (INR 3 / T) (vsub vzero vzero) = vzero) by (unfold vscal, vsub, vzero; cbn [vx vy vz]; f_equal; ring).
    rewrite E. unfold curve. generalize (t / T). intro s. apply v3_eq; bez_norm; unfold vzero; wsimp; ring.
Qed.
Lemma vzero_within L : 0 <= L -> within L vzero.
Proof. intro H. unfold within, vzero. cbn [vx vy vz]. rewrite Rabs_R0. auto. Qed.

(** A plan whose wrench is in the cone up to [tau] at the samples. *)
Lemma z_gap pData Ts ct ph T tau r N x xL : z_posed pData Ts ct ph T -> (1 <= N)%nat -> z_plan pData T r x xL ->
  (forall i acc, (i <= N)%nat -> let t := INR i * (T / INR N) in is_deriv_n 2 (cv_fun (r0_c r)) t acc ->
    cone0_near tau ph (giwL (cp_mass ph) (cp_gravity ph) (cv_fun (r0_c r) t) acc (dL_fun (r0_dL r) t))) ->
  forall G M L, within G (cp_gravity ph) ->
    within M (c0 pData) -> within M (vadd (c0 pData) (vscal (T / 3) (dc0 pData))) -> within M x ->
    0 <= L -> (useAngularMomentum pData = true -> within L (l0 pData) /\ within L xL) ->
  forall t acc, 0 <= t <= T -> is_deriv_n 2 (cv_fun (r0_c r)) t acc ->
    cone0_near (tau + (cp_mass ph * gap_wrench G 3 T M (T / INR N) + gap_momentum T L (T / INR N))) ph
      (giwL (cp_mass ph) (cp_gravity ph) (cv_fun (r0_c r) t) acc (dL_fun (r0_dL r) t)).
Proof.
  intros WP HN HP HC G M L HG W0 W1 Wx L0 HL t acc Ht Hacc.
  destruct WP as (_ & _ & HT & Hwf & Hph). pose proof (within_nonneg _ _ W0) as M0.
  destruct HP as (_ & _ & _ & Hcv & _ & _ & HdL). set (useAng := useAngularMomentum pData) in *.
  set (P := [c0 pData; vadd (c0 pData) (vscal (T / 3) (dc0 pData)); x; x]). set (Q := z_lpts useAng (l0 pData) xL).
  assert (HM : Forall (within M) P) by (repeat (apply Forall_cons; [assumption|]); apply Forall_nil).
  assert (HLQ : Forall (within L) Q).
  { unfold Q, z_lpts. destruct useAng; [destruct (HL eq_refl)|]; repeat (apply Forall_cons; [first [assumption|apply vzero_within, L0]|]); apply Forall_nil. }
  assert (Acc : forall s acc, is_deriv_n 2 (cv_fun (r0_c r)) s acc -> acc = curve (hodo_n 2 T P) T s).
  { intros s a' H. refine (is_deriv_n_unique 2 _ _ _ _ _ _ H (curve_is_deriv_n 2 P T s)). intro u. apply Hcv. }
  assert (AccI : forall s, is_deriv_n 2 (cv_fun (r0_c r)) s (curve (hodo_n 2 T P) T s)).
  { intro s. refine (is_deriv_n_ext 2 _ _ _ _ _ (curve_is_deriv_n 2 P T s)). intro u. symmetry. apply Hcv. }
  assert (N0 : 0 < INR N) by (apply lt_0_INR; lia). assert (Hh : 0 < T / INR N) by (apply Rdiv_lt_0_compat; assumption).
  assert (Cs : exists k, (k < N)%nat /\ INR k * (T / INR N) <= t <= INR (S k) * (T / INR N)).
  { destruct (Rle_lt_dec T t) as [G1|G1].
    - exists (pred N). split; [lia|]. replace (S (pred N)) with N by lia.
      assert (EN : INR N * (T / INR N) = T) by (field; lra). rewrite EN. split; [|lra].
      apply Rle_trans with T; [|lra]. rewrite <- EN at 2. apply Rmult_le_compat_r; [lra|apply le_INR; lia].
    - destruct (cell 0 (T / INR N) t Hh (proj1 Ht)) as (k & A & B). exists k. rewrite !Rplus_0_l in A, B. split; [|lra].
      apply INR_lt. apply Rmult_lt_reg_r with (T / INR N); [exact Hh|]. replace (INR N * (T / INR N)) with T by (field; lra). lra. }
  destruct Cs as (k & Hk & Hkt). set (a := INR k * (T / INR N)) in *. set (b := INR (S k) * (T / INR N)) in *.
  assert (Eb : b - a = T / INR N) by (unfold a, b; rewrite S_INR; ring).
  assert (Ha : 0 <= a) by (apply Rmult_le_pos; [apply pos_INR|lra]).
  assert (Hb : b <= T). { replace T with (INR N * (T / INR N)) by (field; lra). apply Rmult_le_compat_r; [lra|apply le_INR; lia]. }
  destruct Hwf as (ph0 & P0 & Mp & _). rewrite Hph in P0. injection P0 as <-.
  pose proof (HC k _ ltac:(lia) (AccI a)) as Ca. pose proof (HC (S k) _ ltac:(lia) (AccI b)) as Cb. cbv zeta in Ca, Cb. fold a in Ca. fold b in Cb.
  rewrite (Acc t acc Hacc). rewrite Hcv in Ca, Cb |- *. rewrite (z_rate_pts _ _ _ _ _ _ (HdL a)) in Ca. rewrite (z_rate_pts _ _ _ _ _ _ (HdL b)) in Cb.
  rewrite (z_rate_pts _ _ _ _ _ _ (HdL t)). unfold cone0_near in *. rewrite Forall_forall in Ca, Cb |- *. intros Hh' Hi.
  assert (LQ : pred (length Q) = 3%nat) by (unfold Q, z_lpts; destruct useAng; reflexivity).
  pose proof (gap_giwL P Q T M L HT HM M0 HLQ L0 a b Ha ltac:(lra) Hb (fst Hh') (cp_mass ph) (cp_gravity ph) G _ Mp HG (Ca Hh' Hi) (Cb Hh' Hi) t Hkt) as K.
  change (pred (length P)) with 3%nat in K. rewrite LQ, Eb in K. eapply Rle_trans; [exact K|]. apply Req_le. unfold gap_momentum. ring.
Qed.
Lemma c82_gap with_glpk quadprog glpk pData Ts ct ph T dt : z_posed pData Ts ct ph T ->
  forall r N, qp_sound quadprog -> z_steps T dt N -> (1 <= N)%nat ->
  solve0step with_glpk quadprog glpk pData Ts dt = Ok r -> r0_success r = true -> exists x xL,
  z_plan pData T r x xL /\
  forall G M L, within G (cp_gravity ph) ->
    within M (c0 pData) -> within M (vadd (c0 pData) (vscal (T / 3) (dc0 pData))) -> within M x ->
    0 <= L -> (useAngularMomentum pData = true -> within L (l0 pData) /\ within L xL) ->
  forall t acc, 0 <= t <= T -> is_deriv_n 2 (cv_fun (r0_c r)) t acc ->
    cone0_near (cp_mass ph * gap_wrench G 3 T M (T / INR N) + gap_momentum T L (T / INR N)) ph
      (giwL (cp_mass ph) (cp_gravity ph) (cv_fun (r0_c r) t) acc (dL_fun (r0_dL r) t)).
Proof.
  intros WP r N HQ HS HN E Hr. destruct (C26_plan _ _ _ _ _ _ _ _ _ WP r N HQ HS HN E Hr) as (x & xL & HP & _ & _ & _ & _ & HC & _).
  exists x, xL. split; [exact HP|]. intros G M L HG W0 W1 Wx L0 HL t acc Ht Hacc. rewrite <- (Rplus_0_l (_ + _)).
  apply (z_gap pData Ts ct ph T 0 r N x xL WP HN HP); try assumption.
  intros i a Hi t' Ha. eapply Forall_impl; [|apply (HC i a Hi Ha)]. intros Hh H. cbv beta in *. rewrite Rmult_0_l. exact H.
Qed.

(** * A problem all of whose plans leave the cone between the samples *)
(** The contact cannot push the mass beyond the origin in x; the end point is kept at height 0 and x >= 0. *)
Definition tip_ph : cphase := CPhase [((vzero, V3 0 1 0), 0)] 1 (V3 0 0 (-10)) [].
Definition tip_ct : contact := Contact (Some tip_ph) [V3 0 0 1; V3 0 0 (-1); V3 (-1) 0 0] [0; 0; 0] [] [].
Definition tip_pb : problem := up_pb false tip_ct (V3 1 0 0) vzero.
Lemma tip_posed : z_posed tip_pb [1] tip_ct tip_ph 1.
Proof.
  split; [reflexivity|]. split; [reflexivity|]. split; [lra|]. split; [|reflexivity].
  exists tip_ph. split; [reflexivity|]. split; [cbn; lra|]. split; [|cbn; lia]. constructor; [|constructor]. cbn. intros E. injection E as E. lra.
Qed.
Lemma tip_steps : z_steps 1 1 1.
Proof. split; [lra|]. split; [cbn; lra|cbn; lia]. Qed.
(** The moment along the motion to (x, y, 0) *)
Lemma tip_val x y t acc : is_deriv_n 2 (z_motion vzero (V3 1 0 0) 1 (V3 x y 0)) t acc ->
  dot6 (vzero, V3 0 1 0) (giwL 1 (V3 0 0 (-10)) (z_motion vzero (V3 1 0 0) 1 (V3 x y 0) t) acc vzero)
  = 10 * (t * (1 - t) * (1 - t) + t * t * (3 - 2 * t) * x).
Proof.
  intro H. unfold z_motion in H. rewrite (is_deriv_n_unique 2 _ _ t _ _ (fun _ => eq_refl) H (curve_is_deriv_n 2 _ 1 t)).
  unfold z_motion, dot6, giwL. cbn [fst snd]. hodo_vals. unfold curve. replace (t / 1) with t by field. bez_norm. unfold vdot, vcross, vzero; wsimp. unfold vzero; wsimp. field.
Qed.
Lemma gap0_refuted : exists pData ct ph, z_posed pData [1] ct ph 1 /\ z_steps 1 1 1 /\
  (forall with_glpk quadprog glpk r, qp_sound quadprog ->
     solve0step with_glpk quadprog glpk pData [1] 1 = Ok r -> r0_success r = true ->
     exists t acc, 0 <= t <= 1 /\ is_deriv_n 2 (cv_fun (r0_c r)) t acc /\
       ~ cone0 ph (giwL (cp_mass ph) (cp_gravity ph) (cv_fun (r0_c r) t) acc (dL_fun (r0_dL r) t))) /\
  (forall with_glpk glpk, exists quadprog r, qp_sound quadprog /\
     solve0step with_glpk quadprog glpk pData [1] 1 = Ok r /\ r0_success r = true).
Proof.
  exists tip_pb, tip_ct, tip_ph. split; [exact tip_posed|]. split; [exact tip_steps|]. split.
  - intros wg qp gl r HQ E Hr.
    destruct (C26_plan _ _ _ _ _ _ _ _ _ tip_posed r 1%nat HQ tip_steps ltac:(lia) E Hr) as (x & xL & HP & _ & _ & _ & _ & HC & HK).
    destruct HP as (_ & _ & _ & Hcv & _ & _ & HdL). cbn [useAngularMomentum tip_pb up_pb z_rate z_geom c0 dc0] in *.
    destruct x as [x y z].
    pose proof (HK 0%nat _ _ eq_refl eq_refl) as K0. pose proof (HK 1%nat _ _ eq_refl eq_refl) as K1. pose proof (HK 2%nat _ _ eq_refl eq_refl) as K2.
    unfold vdot in K0, K1, K2. cbn [vx vy vz] in K0, K1, K2. assert (z = 0) by lra. subst z. assert (X : 0 <= x) by lra.
    set (P := [vzero; vadd vzero (vscal (1 / 3) (V3 1 0 0)); V3 x y 0; V3 x y 0]).
    exists (1 / 2), (curve (hodo_n 2 1 P) 1 (1 / 2)). split; [lra|].
    split; [refine (is_deriv_n_ext 2 _ _ _ _ _ (curve_is_deriv_n 2 P 1 (1 / 2))); intro u; symmetry; apply Hcv|].
    intro C. inversion C as [|? ? C1 _]. subst. rewrite Hcv, (HdL (1 / 2)) in C1. cbn [fst tip_ph cp_mass cp_gravity] in C1.
    rewrite tip_val in C1; [|apply (curve_is_deriv_n 2 P 1 (1 / 2))]. nra.
  - intros wg gl.
    destruct (guess0 wg gl tip_pb [1] tip_ct tip_ph 1 1 vzero vzero tip_posed) as (r & E & HP).
    + right. exists 1%nat. exact tip_steps.
    + split; [intros [H|(_ & H & _)]; [lra|cbn in H; lra]|]. intros N (_ & HN & _) _ i Hi.
      assert (N = 1%nat).
      { assert (A1 : INR N < INR 2) by (cbn; lra). assert (A2 : INR 0 < INR N) by (cbn; lra). apply INR_lt in A1, A2. lia. }
      subst N. intros acc dl Ha Hd. cbn [z_rate useAngularMomentum tip_pb up_pb] in Hd. subst dl. cbn [c0 dc0 tip_pb up_pb] in *.
      constructor; [|constructor]. cbn [fst tip_ph cp_mass cp_gravity]. change vzero with (V3 0 0 0) in Ha |- * at 3.
      assert (Hi' : i = 0%nat \/ i = 1%nat) by lia.
      rewrite (tip_val 0 0); [|exact Ha]. destruct Hi' as [-> | ->]; cbn [INR]; apply Req_le; field.
    + intros i K k HK Hk. destruct i as [|[|[|[|i]]]]; cbn in HK, Hk; try discriminate; injection HK as <-; injection Hk as <-; unfold vdot, vzero; cbn [vx vy vz]; lra.
    + exists (guess (z_vec (useAngularMomentum tip_pb) vzero vzero)), r. split; [apply guess_sound|]. split; [exact E|]. apply HP.
Qed.
