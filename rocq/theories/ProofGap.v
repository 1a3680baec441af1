(** Constraints between two samples. *)
From Verif Require Import Vec SpecBezier SpecTime ModelData ModelDispatch SpecCom SpecCtr SpecGap ProofBezier ProofCurve ProofWaypoints2 ProofWaypointsErr ProofCom2 ProofEff5.
Open Scope R_scope.

(** * A function below [m] at both ends *)
Lemma between (f f' f'' : R -> R) a b m A : a <= b ->
  (forall t, derivable_pt_lim f t (f' t)) -> (forall t, derivable_pt_lim f' t (f'' t)) ->
  (forall t, a <= t <= b -> Rabs (f'' t) <= A) -> f a <= m -> f b <= m ->
  forall t, a <= t <= b -> f t <= m + A * ((b - a) * (b - a)) / 8.
Proof.
  intros Hab D1 D2 HA Ma Mb t Ht.
  assert (A0 : 0 <= A) by (eapply Rle_trans; [apply Rabs_pos|apply (HA a); lra]).
  set (g := fun u => f u - A / 2 * ((u - a) * (b - u))).
  set (g' := fun u => f' u - A / 2 * (a + b - 2 * u)).
  set (g'' := fun u => f'' u + A).
  assert (E1 : forall u, derivable_pt_lim g u (g' u)).
  { intro u. unfold g, g'. apply derivable_pt_lim_minus; [apply D1|].
    replace (A / 2 * (a + b - 2 * u)) with (0 * ((u - a) * (b - u)) + A / 2 * ((1 - 0) * (b - u) + (u - a) * (0 - 1))) by ring.
    apply (derivable_pt_lim_mult (fun _ => A / 2) (fun u => (u - a) * (b - u))); [apply derivable_pt_lim_const|].
    apply (derivable_pt_lim_mult (fun u => u - a) (fun u => b - u)).
    - apply (derivable_pt_lim_minus (fun u => u) (fun _ => a)); [apply derivable_pt_lim_id|apply derivable_pt_lim_const].
    - apply (derivable_pt_lim_minus (fun _ => b) (fun u => u)); [apply derivable_pt_lim_const|apply derivable_pt_lim_id]. }
  assert (E2 : forall u, derivable_pt_lim g' u (g'' u)).
  { intro u. unfold g', g''. replace (f'' u + A) with (f'' u - (0 * (a + b - 2 * u) + A / 2 * (0 - (0 * u + 2 * 1)))) by field.
    apply derivable_pt_lim_minus; [apply D2|].
    apply (derivable_pt_lim_mult (fun _ => A / 2) (fun u => a + b - 2 * u)); [apply derivable_pt_lim_const|].
    apply (derivable_pt_lim_minus (fun _ => a + b) (fun u => 2 * u)); [apply derivable_pt_lim_const|].
    apply (derivable_pt_lim_mult (fun _ => 2) (fun u => u)); [apply derivable_pt_lim_const|apply derivable_pt_lim_id]. }
  assert (Ga : g a <= m) by (unfold g; lra). assert (Gb : g b <= m) by (unfold g; lra).
  assert (Gt : g t <= m).
  { apply Rnot_lt_le. intro K. assert (a < t) by (destruct (Rle_lt_or_eq_dec a t (proj1 Ht)) as [|<-]; [assumption|lra]).
    assert (t < b) by (destruct (Rle_lt_or_eq_dec t b (proj2 Ht)) as [|E]; [assumption|subst; lra]).
    destruct (MVT_cor2 g g' a t H) as (c1 & M1 & C1); [intros; apply E1|].
    destruct (MVT_cor2 g g' t b H0) as (c2 & M2 & C2); [intros; apply E1|].
    destruct (MVT_cor2 g' g'' c1 c2 ltac:(lra)) as (c3 & M3 & C3); [intros; apply E2|].
    assert (P1 : 0 < g' c1) by (apply Rnot_le_lt; intro; assert (g' c1 * (t - a) <= 0) by nra; lra).
    assert (P2 : g' c2 < 0) by (apply Rnot_le_lt; intro; assert (0 <= g' c2 * (b - t)) by nra; lra).
    assert (P3 : 0 <= g'' c3) by (unfold g''; pose proof (HA c3 ltac:(lra)) as Q; apply Rabs_le_inv in Q; lra).
    assert (0 <= g'' c3 * (c2 - c1)) by nra. lra. }
  unfold g in Gt.
  assert (S : (t - a) * (b - t) <= (b - a) * (b - a) / 4).
  { pose proof (Rle_0_sqr ((2 * t - a - b) / 2)) as Q. unfold Rsqr in Q.
    replace ((t - a) * (b - t)) with ((b - a) * (b - a) / 4 - (2 * t - a - b) / 2 * ((2 * t - a - b) / 2)) by field. lra. }
  apply (Rmult_le_compat_l (A / 2)) in S; [|lra]. lra.
Qed.

(** * Derivatives of products *)
Lemma deriv_dot K F t l : is_deriv F t l -> derivable_pt_lim (fun u => vdot K (F u)) t (vdot K l).
Proof.
  intros (D1 & D2 & D3). unfold vdot.
  assert (S : forall k h l', derivable_pt_lim h t l' -> derivable_pt_lim (fun u => k * h u) t (k * l')).
  { intros k h l' D. replace (k * l') with (0 * h t + k * l') by ring. apply (derivable_pt_lim_mult (fun _ => k) h); [apply derivable_pt_lim_const|exact D]. }
  apply (derivable_pt_lim_plus (fun u => vx K * vx (F u) + vy K * vy (F u)) (fun u => vz K * vz (F u))); [|apply S, D3].
  apply (derivable_pt_lim_plus (fun u => vx K * vx (F u)) (fun u => vy K * vy (F u))); apply S; assumption.
Qed.
Lemma deriv_add F1 F2 t l1 l2 : is_deriv F1 t l1 -> is_deriv F2 t l2 -> is_deriv (fun u => vadd (F1 u) (F2 u)) t (vadd l1 l2).
Proof.
  intros (A1 & A2 & A3) (B1 & B2 & B3).
  split; [|split]; [apply (derivable_pt_lim_plus (fun u => vx (F1 u)) (fun u => vx (F2 u)))
    |apply (derivable_pt_lim_plus (fun u => vy (F1 u)) (fun u => vy (F2 u)))|apply (derivable_pt_lim_plus (fun u => vz (F1 u)) (fun u => vz (F2 u)))]; assumption.
Qed.
Lemma deriv_gsub g F t l : is_deriv F t l -> is_deriv (fun u => vsub g (F u)) t (vopp l).
Proof.
  intros (A1 & A2 & A3).
  assert (S : forall k h l', derivable_pt_lim h t l' -> derivable_pt_lim (fun u => k - h u) t (- l')).
  { intros k h l' D. replace (- l') with (0 - l') by ring. apply (derivable_pt_lim_minus (fun _ => k) h); [apply derivable_pt_lim_const|exact D]. }
  split; [|split]; cbn; apply S; assumption.
Qed.
Lemma deriv_opp F t l : is_deriv F t l -> is_deriv (fun u => vopp (F u)) t (vopp l).
Proof. intros (A1 & A2 & A3). split; [|split]; cbn; apply derivable_pt_lim_opp; assumption. Qed.
Lemma deriv_cross F1 F2 t l1 l2 : is_deriv F1 t l1 -> is_deriv F2 t l2 ->
  is_deriv (fun u => vcross (F1 u) (F2 u)) t (vadd (vcross l1 (F2 t)) (vcross (F1 t) l2)).
Proof.
  intros (A1 & A2 & A3) (B1 & B2 & B3).
  assert (S : forall p q r s p' q' r' s', derivable_pt_lim p t p' -> derivable_pt_lim q t q' -> derivable_pt_lim r t r' -> derivable_pt_lim s t s' ->
    derivable_pt_lim (fun u => p u * q u - r u * s u) t (p' * q t - r' * s t + (p t * q' - r t * s'))).
  { intros p q r s p' q' r' s' P Q R' S'. replace (p' * q t - r' * s t + (p t * q' - r t * s')) with ((p' * q t + p t * q') - (r' * s t + r t * s')) by ring.
    apply (derivable_pt_lim_minus (fun u => p u * q u) (fun u => r u * s u)); [apply (derivable_pt_lim_mult p q)|apply (derivable_pt_lim_mult r s)]; assumption. }
  split; [|split]; cbn; apply S; assumption.
Qed.

(** * Bounds on derivatives of a curve *)
Lemma rate_nonneg : forall k n T M, 0 < T -> 0 <= M -> 0 <= rate k n T M.
Proof.
  induction k as [|k IH]; intros n T M HT HM; [exact HM|]. apply IH; [exact HT|]. apply Rmult_le_pos; [|exact HM].
  apply Rmult_le_pos; [|left; apply Rinv_0_lt_compat, HT]. apply Rmult_le_pos; [lra|apply pos_INR].
Qed.
Lemma vdiffs_len (P : list vec3) : length (vdiffs P) = pred (length P).
Proof.
  induction P as [|a P IH]; [reflexivity|]. destruct P as [|b P]; [reflexivity|].
  change (vdiffs (a :: b :: P)) with (vsub b a :: vdiffs (b :: P)). cbn [length pred] in *. rewrite IH. reflexivity.
Qed.
Lemma vdiffs_within M : forall P, Forall (within M) P -> Forall (within (2 * M)) (vdiffs P).
Proof.
  induction P as [|a P IH]; intro H; [apply Forall_nil|]. destruct P as [|b P]; [apply Forall_nil|].
  change (vdiffs (a :: b :: P)) with (vsub b a :: vdiffs (b :: P)). inversion H as [|? ? Ha HP]; subst. apply Forall_cons; [|apply IH, HP].
  inversion HP as [|? ? Hb _]; subst. destruct Ha as (A1 & A2 & A3). destruct Hb as (B1 & B2 & B3).
  apply Rabs_le_inv in A1, A2, A3, B1, B2, B3. split; [|split]; cbn; apply Rabs_le; lra.
Qed.
Lemma hodo_within T M P : 0 < T -> Forall (within M) P -> Forall (within (2 * INR (pred (length P)) / T * M)) (hodo T P).
Proof.
  intros HT H. unfold hodo. rewrite Forall_map. eapply Forall_impl; [|apply vdiffs_within, H]. intros v (A & B & C). cbv beta.
  set (c := INR (pred (length P)) / T).
  assert (C0 : 0 <= c) by (apply Rmult_le_pos; [apply pos_INR|left; apply Rinv_0_lt_compat, HT]).
  replace (2 * INR (pred (length P)) / T * M) with (c * (2 * M)) by (unfold c, Rdiv; ring).
  split; [|split]; cbn; rewrite Rabs_mult, (Rabs_pos_eq c C0); apply Rmult_le_compat_l; assumption.
Qed.
Lemma hodo_n_within T : 0 < T -> forall k P M, Forall (within M) P -> Forall (within (rate k (pred (length P)) T M)) (hodo_n k T P).
Proof.
  intro HT. induction k as [|k IH]; intros P M H; [exact H|]. cbn [hodo_n rate].
  replace (pred (pred (length P))) with (pred (length (hodo T P))) by (unfold hodo; rewrite map_length, vdiffs_len; reflexivity).
  apply IH, hodo_within; assumption.
Qed.
Lemma curve_within0 B P T t : 0 <= B -> 0 < T -> 0 <= t <= T -> Forall (within B) P -> within B (curve P T t).
Proof.
  intros HB HT Ht H. destruct P as [|a P]; [|apply curve_within; [discriminate|assumption..]].
  unfold curve, bez3, bezl. cbn [map length pred]. unfold bez, bern. cbn [sumf nth]. unfold within. cbn [vx vy vz].
  rewrite Rmult_0_r, Rplus_0_l, Rabs_R0. auto.
Qed.
Lemma deriv_within k P T M t : 0 <= M -> 0 < T -> 0 <= t <= T -> Forall (within M) P ->
  within (rate k (pred (length P)) T M) (curve (hodo_n k T P) T t).
Proof. intros HM HT Ht H. apply curve_within0; [apply rate_nonneg; assumption|assumption..|apply hodo_n_within; assumption]. Qed.

Lemma hodo_S k T P : hodo_n (S k) T P = hodo T (hodo_n k T P).
Proof. revert P. induction k as [|k IH]; intro P; [reflexivity|]. cbn [hodo_n] in *. apply IH. Qed.
Lemma deriv_k k P T t : is_deriv (curve (hodo_n k T P) T) t (curve (hodo_n (S k) T P) T t).
Proof. rewrite hodo_S. apply curve_is_deriv. Qed.

Lemma within_cross A B u v : within A u -> within B v -> within (2 * A * B) (vcross u v).
Proof.
  intros (U1 & U2 & U3) (V1 & V2 & V3).
  assert (S : forall a b c d, Rabs a <= A -> Rabs b <= B -> Rabs c <= A -> Rabs d <= B -> Rabs (a * b - c * d) <= 2 * A * B).
  { intros a b c d Ha Hb Hc Hd. pose proof (Rabs_mul_le _ _ _ _ Ha Hb) as Q1. pose proof (Rabs_mul_le _ _ _ _ Hc Hd) as Q2.
    apply Rabs_le_inv in Q1, Q2. apply Rabs_le. lra. }
  split; [|split]; cbn; apply S; assumption.
Qed.
Lemma within_vadd A B u v : within A u -> within B v -> within (A + B) (vadd u v).
Proof.
  intros (U1 & U2 & U3) (V1 & V2 & V3). split; [|split]; cbn; (eapply Rle_trans; [apply Rabs_triang|apply Rplus_le_compat; assumption]).
Qed.
Lemma within_vopp A u : within A u -> within A (vopp u).
Proof. intros (U1 & U2 & U3). split; [|split]; cbn; rewrite Rabs_Ropp; assumption. Qed.

Section Gap.
Variable P : list vec3.
Variable T M : R.
Hypothesis HT : 0 < T.
Hypothesis HM : Forall (within M) P.
Hypothesis M0 : 0 <= M.
Let n := pred (length P).
Let c k t := curve (hodo_n k T P) T t.
Variables a b : R.
Hypothesis Ha : 0 <= a.
Hypothesis Hab : a <= b.
Hypothesis Hb : b <= T.

Lemma c_within k t : a <= t <= b -> within (rate k n T M) (c k t).
Proof. intro Ht. apply deriv_within; [exact M0|exact HT|lra|exact HM]. Qed.

Lemma gap_dot k u m : vdot u (c k a) <= m -> vdot u (c k b) <= m -> forall t, a <= t <= b ->
  vdot u (c k t) <= m + norm1 u * (rate (2 + k) n T M * ((b - a) * (b - a)) / 8).
Proof.
  intros A B t Ht.
  replace (norm1 u * (rate (2 + k) n T M * ((b - a) * (b - a)) / 8)) with (norm1 u * rate (2 + k) n T M * ((b - a) * (b - a)) / 8) by (unfold Rdiv; ring).
  apply (between (fun t => vdot u (c k t)) (fun t => vdot u (c (S k) t)) (fun t => vdot u (c (2 + k) t)) a b m _ Hab); try assumption.
  - intro s. apply (deriv_dot u (c k)), deriv_k.
  - intro s. apply (deriv_dot u (c (S k))), deriv_k.
  - intros s Hs. apply abs_dot_le, c_within, Hs.
Qed.

Lemma gap_giw H m g G B : 0 < m -> within G g ->
  dot6 H (giw m g (c 0 a) (c 2 a)) <= B -> dot6 H (giw m g (c 0 b) (c 2 b)) <= B -> forall t, a <= t <= b ->
  dot6 H (giw m g (c 0 t) (c 2 t)) <= B + m * norm6 H * gap_wrench G n T M (b - a).
Proof.
  intros Hm HG A1 B1 t Ht.
  set (f := fun t => dot6 H (giw m g (c 0 t) (c 2 t))).
  set (N2 := fun t => vsub g (c 2 t)).
  set (f1 := fun t => m * (vdot (fst H) (vopp (c 3 t)) + vdot (snd H) (vadd (vcross (c 1 t) (N2 t)) (vcross (c 0 t) (vopp (c 3 t)))))).
  set (w := fun t => vadd (vadd (vcross (c 2 t) (N2 t)) (vcross (c 1 t) (vopp (c 3 t)))) (vadd (vcross (c 1 t) (vopp (c 3 t))) (vcross (c 0 t) (vopp (c 4 t))))).
  set (f2 := fun t => m * (vdot (fst H) (vopp (c 4 t)) + vdot (snd H) (w t))).
  assert (DN : forall s, is_deriv N2 s (vopp (c 3 s))) by (intro s; apply (deriv_gsub g (c 2)), deriv_k).
  assert (S : forall h s l', derivable_pt_lim h s l' -> derivable_pt_lim (fun u => m * h u) s (m * l')).
  { intros h s l' D. replace (m * l') with (0 * h s + m * l') by ring. apply (derivable_pt_lim_mult (fun _ => m) h); [apply derivable_pt_lim_const|exact D]. }
  assert (Ef : forall s, f s = m * (vdot (fst H) (N2 s) + vdot (snd H) (vcross (c 0 s) (N2 s)))).
  { intro s. unfold f, N2, dot6, giw, vdot, vscal, vcross, vsub. cbn [fst snd vx vy vz]. ring. }
  assert (D1 : forall s, derivable_pt_lim (fun s => m * (vdot (fst H) (N2 s) + vdot (snd H) (vcross (c 0 s) (N2 s)))) s (f1 s)).
  { intro s. unfold f1. apply S. apply (derivable_pt_lim_plus (fun s => vdot (fst H) (N2 s)) (fun s => vdot (snd H) (vcross (c 0 s) (N2 s)))).
    - apply deriv_dot, DN.
    - apply (deriv_dot (snd H) (fun s => vcross (c 0 s) (N2 s))), deriv_cross; [apply deriv_k|apply DN]. }
  assert (D3 : forall s, is_deriv (fun s => vopp (c 3 s)) s (vopp (c 4 s))) by (intro s; apply deriv_opp, deriv_k).
  assert (D2 : forall s, derivable_pt_lim f1 s (f2 s)).
  { intro s. unfold f1, f2, w. apply S.
    apply (derivable_pt_lim_plus (fun s => vdot (fst H) (vopp (c 3 s))) (fun s => vdot (snd H) (vadd (vcross (c 1 s) (N2 s)) (vcross (c 0 s) (vopp (c 3 s)))))).
    - apply (deriv_dot (fst H) (fun s => vopp (c 3 s))), D3.
    - apply (deriv_dot (snd H) (fun s => vadd (vcross (c 1 s) (N2 s)) (vcross (c 0 s) (vopp (c 3 s))))).
      apply (deriv_add (fun s => vcross (c 1 s) (N2 s)) (fun s => vcross (c 0 s) (vopp (c 3 s)))).
      + apply deriv_cross; [apply deriv_k|apply DN].
      + apply (deriv_cross (c 0) (fun s => vopp (c 3 s))); [apply deriv_k|apply D3]. }
  set (em := 2 * rate 2 n T M * G + 4 * rate 1 n T M * rate 3 n T M + 2 * M * rate 4 n T M).
  assert (Bd : forall s, a <= s <= b -> Rabs (f2 s) <= m * norm6 H * (3 * (rate 4 n T M + em))).
  { intros s Hs. unfold f2. rewrite Rabs_mult, (Rabs_pos_eq m) by lra. rewrite Rmult_assoc. apply Rmult_le_compat_l; [lra|].
    apply (dot6_err H (vopp (c 4 s), w s)); cbn [fst snd].
    - apply within_vopp, c_within, Hs.
    - pose proof (c_within 0 s Hs) as W0. pose proof (c_within 1 s Hs) as W1. pose proof (c_within 2 s Hs) as W2. pose proof (c_within 3 s Hs) as W3. pose proof (c_within 4 s Hs) as W4.
      cbn [rate] in W0.
      assert (Ew : w s = vadd (vcross (c 2 s) g) (vadd (vadd (vcross (c 1 s) (vopp (c 3 s))) (vcross (c 1 s) (vopp (c 3 s)))) (vcross (c 0 s) (vopp (c 4 s))))).
      { unfold w, N2, vcross, vadd, vsub, vopp. cbn [vx vy vz]. f_equal; ring. }
      rewrite Ew. unfold em. replace (2 * rate 2 n T M * G + 4 * rate 1 n T M * rate 3 n T M + 2 * M * rate 4 n T M)
        with (2 * rate 2 n T M * G + ((2 * rate 1 n T M * rate 3 n T M + 2 * rate 1 n T M * rate 3 n T M) + 2 * M * rate 4 n T M)) by ring.
      apply within_vadd; [apply within_cross; assumption|]. apply within_vadd; [apply within_vadd|]; apply within_cross; try apply within_vopp; assumption. }
  fold (f t). rewrite Ef.
  replace (m * norm6 H * gap_wrench G n T M (b - a)) with (m * norm6 H * (3 * (rate 4 n T M + em)) * ((b - a) * (b - a)) / 8) by (unfold gap_wrench, em, Rdiv; ring).
  apply (between _ _ _ a b B _ Hab D1 D2 Bd); [rewrite <- Ef; exact A1|rewrite <- Ef; exact B1|exact Ht].
Qed.
End Gap.

(** * The constraints of a contact *)
Lemma rate4_nonneg n T M : 0 < T -> 0 <= M -> 0 <= gap_acc n T M 1.
Proof. intros HT HM. unfold gap_acc. pose proof (rate_nonneg 4 n T M HT HM). lra. Qed.

Section Contact.
Variable pData : problem.
Variable cv : bcurve.
Variable M G : R.
Variable g : vec3.
Hypothesis HT : 0 < bc_T cv.
Hypothesis HM : Forall (within M) (bc_pts cv).
Hypothesis M0 : 0 <= M.
Hypothesis HG : within G g.
Variable ct : contact.
Hypothesis Hwf : contact_wf ct.
Hypothesis Hg : forall ph, cd_phase ct = Some ph -> cp_gravity ph = g.
Variables a b h : R.
Hypothesis Ha : 0 <= a.
Hypothesis Hab : a <= b <= a + h.
Hypothesis Hb : b <= bc_T cv.
Let n := pred (length (bc_pts cv)).
Let T := bc_T cv.

Lemma acc_is t acc : is_deriv_n 2 (cv_fun cv) t acc -> acc = curve (hodo_n 2 T (bc_pts cv)) T t.
Proof. intro H. exact (is_deriv_n_unique 2 _ _ _ _ _ (fun _ => eq_refl) H (curve_is_deriv_n 2 (bc_pts cv) T t)). Qed.

Lemma h_sq : 0 <= (b - a) * (b - a) <= h * h.
Proof. nra. Qed.
Lemma scale_h x : 0 <= x -> x * ((b - a) * (b - a)) / 8 <= x * (h * h) / 8.
Proof. intro X. pose proof h_sq. assert (x * ((b - a) * (b - a)) <= x * (h * h)) by (apply Rmult_le_compat_l; lra). lra. Qed.
Lemma wr_nonneg : 0 <= 3 * (rate 4 n T M + (2 * rate 2 n T M * G + 4 * rate 1 n T M * rate 3 n T M + 2 * M * rate 4 n T M)).
Proof.
  pose proof (rate_nonneg 4 n T M HT M0) as R4. pose proof (rate_nonneg 2 n T M HT M0) as R2. pose proof (rate_nonneg 1 n T M HT M0) as R1. pose proof (rate_nonneg 3 n T M HT M0) as R3.
  pose proof (within_nonneg _ _ HG) as G0.
  pose proof (Rmult_le_pos _ _ R2 G0). pose proof (Rmult_le_pos _ _ R1 R3). pose proof (Rmult_le_pos _ _ M0 R4). lra.
Qed.

Lemma contact_gap sl t : contact_ok pData sl ct (cv_fun cv) a -> contact_ok pData sl ct (cv_fun cv) b -> a <= t <= b ->
  contact_near pData (gap_pos n T M h) (sl + gap_wrench G n T M h) ct (cv_fun cv) t.
Proof.
  intros (Ka & ph & acca & Pa & Da & Ca) (Kb & ph' & accb & Pb & Db & Cb) Ht. rewrite Pa in Pb. injection Pb as <-.
  apply acc_is in Da. apply acc_is in Db. subst acca accb. split.
  - intros i K k HK Hk. pose proof (gap_dot (bc_pts cv) T M HT HM M0 a b Ha (proj1 Hab) Hb 0 K k (Ka i K k HK Hk) (Kb i K k HK Hk) t Ht) as Q.
    eapply Rle_trans; [exact Q|]. apply Rplus_le_compat_l. apply Rmult_le_compat_l.
    + unfold norm1. pose proof (Rabs_pos (vx K)). pose proof (Rabs_pos (vy K)). pose proof (Rabs_pos (vz K)). lra.
    + apply scale_h. apply rate_nonneg; assumption.
  - exists ph, (curve (hodo_n 2 T (bc_pts cv)) T t). split; [exact Pa|]. split; [apply curve_is_deriv_n|].
    destruct Hwf as (ph0 & P0 & Mp & _). rewrite Pa in P0. injection P0 as <-. rewrite (Hg ph Pa) in Ca, Cb |- *.
    unfold cone_ok in *. rewrite Forall_forall in Ca, Cb |- *. intros Hh Hi.
    pose proof (gap_giw (bc_pts cv) T M HT HM M0 a b Ha (proj1 Hab) Hb (fst Hh) (cp_mass ph) g G _ Mp HG (Ca Hh Hi) (Cb Hh Hi) t Ht) as Q.
    eapply Rle_trans; [exact Q|]. assert (N0 : 0 <= cp_mass ph * norm6 (fst Hh)) by (apply Rmult_le_pos; [lra|apply sqrt_pos]).
    assert (L : gap_wrench G n T M (b - a) <= gap_wrench G n T M h) by (apply scale_h, wr_nonneg).
    apply (Rmult_le_compat_l _ _ _ N0) in L. fold n. lra.
Qed.

Lemma accel_gap t : accel_ok pData (cv_fun cv) a -> accel_ok pData (cv_fun cv) b -> a <= t <= b ->
  accel_near pData (gap_acc n T M h) (cv_fun cv) t.
Proof.
  intros Aa Ab Ht Hc. destruct (Aa Hc) as (acca & Da & Wa). destruct (Ab Hc) as (accb & Db & Wb).
  apply acc_is in Da. apply acc_is in Db. subst acca accb. exists (curve (hodo_n 2 T (bc_pts cv)) T t). split; [apply curve_is_deriv_n|].
  set (am := k_maxAcceleration (constr pData)) in *.
  assert (Q : forall u, norm1 u = 1 -> vdot u (curve (hodo_n 2 T (bc_pts cv)) T a) <= am -> vdot u (curve (hodo_n 2 T (bc_pts cv)) T b) <= am ->
    vdot u (curve (hodo_n 2 T (bc_pts cv)) T t) <= am + gap_acc n T M h).
  { intros u Hu Ua Ub. pose proof (gap_dot (bc_pts cv) T M HT HM M0 a b Ha (proj1 Hab) Hb 2 u am Ua Ub t Ht) as K. rewrite Hu, Rmult_1_l in K.
    eapply Rle_trans; [exact K|]. apply Rplus_le_compat_l. apply (scale_h (rate 4 n T M)). apply rate_nonneg; assumption. }
  destruct Wa as (A1 & A2 & A3). destruct Wb as (B1 & B2 & B3). apply Rabs_le_inv in A1, A2, A3, B1, B2, B3.
  assert (N : forall x y z, norm1 (V3 x y z) = Rabs x + Rabs y + Rabs z) by reflexivity.
  assert (D : forall x y z v, vdot (V3 x y z) v = x * vx v + y * vy v + z * vz v) by reflexivity.
  assert (R1 : Rabs (-1) = 1) by (rewrite Rabs_left; lra). assert (R2 : Rabs 1 = 1) by (rewrite Rabs_pos_eq; lra).
  pose proof (Q (V3 1 0 0)) as Q1. pose proof (Q (V3 0 1 0)) as Q2. pose proof (Q (V3 0 0 1)) as Q3.
  pose proof (Q (V3 (-1) 0 0)) as Q4. pose proof (Q (V3 0 (-1) 0)) as Q5. pose proof (Q (V3 0 0 (-1))) as Q6.
  rewrite N, !D, ?Rabs_R0, ?R1, ?R2 in Q1, Q2, Q3, Q4, Q5, Q6.
  specialize (Q1 ltac:(lra) ltac:(lra) ltac:(lra)). specialize (Q2 ltac:(lra) ltac:(lra) ltac:(lra)). specialize (Q3 ltac:(lra) ltac:(lra) ltac:(lra)).
  specialize (Q4 ltac:(lra) ltac:(lra) ltac:(lra)). specialize (Q5 ltac:(lra) ltac:(lra) ltac:(lra)). specialize (Q6 ltac:(lra) ltac:(lra) ltac:(lra)).
  split; [|split]; apply Rabs_le; lra.
Qed.
End Contact.
