(** Integral of the squared norm of a Bezier curve. *)
From Verif Require Import Vec SpecBezier ModelData Spec0Step ProofBezier ProofCurve Proof0Step2.
Open Scope R_scope.

Lemma binom_pos : forall n k, (k <= n)%nat -> (0 < binom n k)%nat.
Proof.
  induction n as [|n IH]; intros [|k] H; cbn [binom]; try lia. pose proof (IH k ltac:(lia)). lia.
Qed.
Lemma INR_binom_pos n k : (k <= n)%nat -> 0 < INR (binom n k).
Proof. intros H. apply lt_0_INR, binom_pos, H. Qed.

Definition wprod (m i j : nat) : R := INR (binom m i) * INR (binom m j) / INR (binom (m + m) (i + j)).

Lemma bern_mul m i j s : (i <= m)%nat -> (j <= m)%nat -> bern m i s * bern m j s = wprod m i j * bern (m + m) (i + j) s.
Proof.
  intros Hi Hj. unfold bern, wprod. replace (m + m - (i + j))%nat with ((m - i) + (m - j))%nat by lia. rewrite !pow_add.
  pose proof (INR_binom_pos (m + m) (i + j) ltac:(lia)). field. lra.
Qed.

Definition ant (N k : nat) (s : R) : R := bez (S N) (fun i => if Nat.ltb k i then / INR (S N) else 0) s.
Lemma sumf_single n f k : (k < n)%nat -> (forall i, (i < n)%nat -> i <> k -> f i = 0) -> sumf n f = f k.
Proof.
  revert k; induction n as [|n IH]; intros k Hk H; [lia|]. cbn [sumf]. destruct (Nat.eq_dec k n) as [-> |Hn].
  - rewrite sumf_zero; [ring|]. intros i Hi. apply H; lia.
  - rewrite (IH k); [|lia|intros; apply H; lia]. rewrite (H n); [ring|lia|lia].
Qed.
Lemma ant_deriv N k s : (k <= N)%nat -> derivable_pt_lim (ant N k) s (bern N k s).
Proof.
  intros Hk. unfold ant. pose proof (lt_0_INR (S N) ltac:(lia)) as P.
  replace (bern N k s) with (INR (S N) * bez N (fun i => (if Nat.ltb k (S i) then / INR (S N) else 0) - (if Nat.ltb k i then / INR (S N) else 0)) s).
  - apply (bez_deriv N (fun i => if Nat.ltb k i then / INR (S N) else 0)).
  - unfold bez. rewrite (sumf_single (S N) _ k); [| lia |].
    + destruct (Nat.ltb_spec k (S k)); [|lia]. destruct (Nat.ltb_spec k k); [lia|]. field. lra.
    + intros i Hi Hn. destruct (Nat.ltb_spec k (S i)); destruct (Nat.ltb_spec k i); try lia; ring.
Qed.
Lemma ant_0 N k : ant N k 0 = 0.
Proof. unfold ant. rewrite bez_at_0. reflexivity. Qed.
Lemma ant_1 N k : (k <= N)%nat -> ant N k 1 = / INR (S N).
Proof. intros H. unfold ant. rewrite bez_at_1. destruct (Nat.ltb_spec k (S N)); [reflexivity|lia]. Qed.

Lemma sumf_deriv n (F : nat -> R -> R) (f : nat -> R) s : (forall i, (i < n)%nat -> derivable_pt_lim (F i) s (f i)) ->
  derivable_pt_lim (fun u => sumf n (fun i => F i u)) s (sumf n f).
Proof.
  induction n as [|n IH]; intros H; cbn [sumf]; [apply derivable_pt_lim_const|].
  apply (derivable_pt_lim_plus (fun u => sumf n (fun i => F i u)) (F n)); [apply IH; intros; apply H; lia|apply H; lia].
Qed.
Lemma dpl_scal k F s l : derivable_pt_lim F s l -> derivable_pt_lim (fun u => k * F u) s (k * l).
Proof. intros H. apply (derivable_pt_lim_scal F k s l H). Qed.

Definition sqform (m : nat) (f : nat -> R) : R := sumf (S m) (fun i => sumf (S m) (fun j => f i * f j * wprod m i j)).
Definition sqant (m : nat) (f : nat -> R) (s : R) : R :=
  sumf (S m) (fun i => sumf (S m) (fun j => f i * f j * wprod m i j * ant (m + m) (i + j) s)).
Lemma sumf_mul n a f : sumf n f * a = sumf n (fun i => f i * a).
Proof. induction n; cbn [sumf]; [ring|]. rewrite <- IHn. ring. Qed.
Lemma bez_sq m f s : bez m f s * bez m f s = sumf (S m) (fun i => sumf (S m) (fun j => f i * f j * wprod m i j * bern (m + m) (i + j) s)).
Proof.
  unfold bez at 1. rewrite sumf_mul. apply sumf_ext. intros i Hi. unfold bez. rewrite Rmult_comm, sumf_mul. apply sumf_ext. intros j Hj.
  replace (f i * f j * wprod m i j * bern (m + m) (i + j) s) with (f i * f j * (wprod m i j * bern (m + m) (i + j) s)) by ring.
  rewrite <- bern_mul by lia. ring.
Qed.
Lemma sqant_deriv m f s : derivable_pt_lim (sqant m f) s (bez m f s * bez m f s).
Proof.
  rewrite bez_sq. unfold sqant.
  apply (sumf_deriv (S m) (fun i u => sumf (S m) (fun j => f i * f j * wprod m i j * ant (m + m) (i + j) u))). intros i Hi.
  apply (sumf_deriv (S m) (fun j u => f i * f j * wprod m i j * ant (m + m) (i + j) u)). intros j Hj.
  apply dpl_scal, ant_deriv. lia.
Qed.
Lemma sqant_0 m f : sqant m f 0 = 0.
Proof. unfold sqant. apply sumf_zero. intros i _. apply sumf_zero. intros j _. rewrite ant_0. ring. Qed.
Lemma sqant_1 m f : sqant m f 1 = sqform m f / INR (S (m + m)).
Proof.
  unfold sqant, sqform, Rdiv. rewrite sumf_mul. apply sumf_ext. intros i Hi. rewrite sumf_mul. apply sumf_ext. intros j Hj.
  rewrite ant_1 by lia. reflexivity.
Qed.
Lemma dpl_scale_arg F f T t : T <> 0 -> derivable_pt_lim F (t / T) f -> derivable_pt_lim (fun u => T * F (u / T)) t f.
Proof.
  intros HT H. replace f with (T * (f * / T)) by (field; exact HT). apply dpl_scal.
  apply (derivable_pt_lim_comp (fun u => u / T) F); [|exact H].
  replace (/ T) with (1 * / T + t * 0) by ring. apply (derivable_pt_lim_mult (fun u => u) (fun _ => / T)); [apply derivable_pt_lim_id|apply derivable_pt_lim_const].
Qed.
Lemma bez_continuous n f T : continuity (fun t => bez n f (t / T)).
Proof.
  intros t. apply derivable_continuous_pt. destruct n as [|n].
  - exists 0. apply (derivable_pt_lim_ext (fun _ => f 0%nat)); [intros; symmetry; apply bez_0|apply derivable_pt_lim_const].
  - exists (INR (S n) * bez n (fun i => f (S i) - f i) (t / T) * / T).
    apply (derivable_pt_lim_comp (fun u => u / T) (bez (S n) f)); [|apply bez_deriv].
    replace (/ T) with (1 * / T + t * 0) by ring. apply (derivable_pt_lim_mult (fun u => u) (fun _ => / T)); [apply derivable_pt_lim_id|apply derivable_pt_lim_const].
Qed.

Definition coord (f : vec3 -> R) (P : list vec3) (i : nat) : R := nth i (map f P) 0.
Lemma int_curve_sq P T : 0 < T ->
  integral (fun t => vnorm2 (curve P T t)) 0 T
    (T * (sqform (pred (length P)) (coord vx P) + sqform (pred (length P)) (coord vy P) + sqform (pred (length P)) (coord vz P)) / INR (S (pred (length P) + pred (length P)))).
Proof.
  intros HT. set (m := pred (length P)).
  pose (F := fun u => T * (sqant m (coord vx P) (u / T) + sqant m (coord vy P) (u / T) + sqant m (coord vz P) (u / T))).
  assert (E : forall t, vnorm2 (curve P T t) = bez m (coord vx P) (t / T) * bez m (coord vx P) (t / T) + bez m (coord vy P) (t / T) * bez m (coord vy P) (t / T)
     + bez m (coord vz P) (t / T) * bez m (coord vz P) (t / T)).
  { intros t. unfold curve, bez3, bezl, vnorm2, vdot, coord. cbn [vx vy vz]. rewrite !map_length. reflexivity. }
  apply (integral_ext (fun t => bez m (coord vx P) (t / T) * bez m (coord vx P) (t / T) + bez m (coord vy P) (t / T) * bez m (coord vy P) (t / T)
     + bez m (coord vz P) (t / T) * bez m (coord vz P) (t / T))); [intros t; symmetry; apply E|].
  replace (T * _ / _) with (F T - F 0).
  2:{ unfold F. replace (T / T) with 1 by (field; lra). replace (0 / T) with 0 by (field; lra). rewrite !sqant_0, !sqant_1. unfold Rdiv. ring. }
  apply (ftc F); [lra| |].
  - intros t. unfold F. apply (dpl_scale_arg (fun s => sqant m (coord vx P) s + sqant m (coord vy P) s + sqant m (coord vz P) s)); [lra|].
    apply (derivable_pt_lim_plus (fun s => sqant m (coord vx P) s + sqant m (coord vy P) s) (sqant m (coord vz P))); [|apply sqant_deriv].
    apply (derivable_pt_lim_plus (sqant m (coord vx P)) (sqant m (coord vy P))); apply sqant_deriv.
  - pose proof (bez_continuous m (coord vx P) T) as Cx. pose proof (bez_continuous m (coord vy P) T) as Cy. pose proof (bez_continuous m (coord vz P) T) as Cz.
    apply (continuity_plus (fun t => bez m (coord vx P) (t / T) * bez m (coord vx P) (t / T) + bez m (coord vy P) (t / T) * bez m (coord vy P) (t / T))
             (fun t => bez m (coord vz P) (t / T) * bez m (coord vz P) (t / T)));
      [apply (continuity_plus (fun t => bez m (coord vx P) (t / T) * bez m (coord vx P) (t / T)) (fun t => bez m (coord vy P) (t / T) * bez m (coord vy P) (t / T)))|].
    + apply (continuity_mult (fun t => bez m (coord vx P) (t / T)) (fun t => bez m (coord vx P) (t / T))); assumption.
    + apply (continuity_mult (fun t => bez m (coord vy P) (t / T)) (fun t => bez m (coord vy P) (t / T))); assumption.
    + apply (continuity_mult (fun t => bez m (coord vz P) (t / T)) (fun t => bez m (coord vz P) (t / T))); assumption.
Qed.
