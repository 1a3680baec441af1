(** General theory of Bezier curves, for every degree. *)
From Verif Require Import Vec SpecBezier.
Open Scope R_scope.

(** * Sums *)

Lemma sumf_ext n f g : (forall i, (i < n)%nat -> f i = g i) -> sumf n f = sumf n g.
Proof.
  induction n as [|n IH]; intros H; simpl; [reflexivity|].
  rewrite IH by (intros i Hi; apply H; lia). rewrite H by lia. reflexivity.
Qed.

Lemma sumf_plus n f g : sumf n (fun i => f i + g i) = sumf n f + sumf n g.
Proof. induction n as [|n IH]; simpl; [ring|]. rewrite IH; ring. Qed.

Lemma sumf_scal n k f : sumf n (fun i => k * f i) = k * sumf n f.
Proof. induction n as [|n IH]; simpl; [ring|]. rewrite IH; ring. Qed.

Lemma sumf_zero n f : (forall i, (i < n)%nat -> f i = 0) -> sumf n f = 0.
Proof.
  induction n as [|n IH]; intros H; simpl; [reflexivity|].
  rewrite IH by (intros i Hi; apply H; lia). rewrite H by lia. ring.
Qed.

Lemma sumf_S_l n f : sumf (S n) f = f 0%nat + sumf n (fun i => f (S i)).
Proof.
  induction n as [|n IH]; [simpl; ring|].
  change (sumf (S (S n)) f) with (sumf (S n) f + f (S n)).
  rewrite IH. simpl. ring.
Qed.

Lemma sumf_le n f g : (forall i, (i < n)%nat -> f i <= g i) -> sumf n f <= sumf n g.
Proof.
  induction n as [|n IH]; intros H; simpl; [lra|].
  assert (sumf n f <= sumf n g) by (apply IH; intros; apply H; lia).
  assert (f n <= g n) by (apply H; lia). lra.
Qed.

(** * Binomials *)

Lemma binom_0_r n : binom n 0 = 1%nat.
Proof. destruct n; reflexivity. Qed.

Lemma binom_gt n k : (n < k)%nat -> binom n k = 0%nat.
Proof.
  revert k; induction n as [|n IH]; intros k H; destruct k as [|k]; try lia; simpl; [reflexivity|].
  rewrite !IH by lia. reflexivity.
Qed.

Lemma binom_diag n : binom n n = 1%nat.
Proof. induction n as [|n IH]; simpl; [reflexivity|]. rewrite IH, binom_gt by lia. reflexivity. Qed.

(** * De Casteljau *)

Definition cstep (s : R) (f : nat -> R) : nat -> R :=
  fun i => (1 - s) * f i + s * f (S i).

Fixpoint cast (n : nat) (s : R) (f : nat -> R) : R :=
  match n with
  | O => f 0%nat
  | S m => cast m s (cstep s f)
  end.

Lemma bern_rec n i s :
  bern (S n) (S i) s = s * bern n i s + (1 - s) * bern n (S i) s.
Proof.
  unfold bern.
  change (binom (S n) (S i)) with (binom n i + binom n (S i))%nat.
  rewrite plus_INR.
  change (S n - S i)%nat with (n - i)%nat.
  destruct (le_lt_dec (S i) n) as [H|H].
  - replace (n - i)%nat with (S (n - S i)) by lia. simpl. ring.
  - rewrite (binom_gt n (S i)) by lia. simpl. ring.
Qed.

Lemma bern_rec0 n s : bern (S n) 0 s = (1 - s) * bern n 0 s.
Proof. unfold bern. rewrite !binom_0_r. simpl. rewrite Nat.sub_0_r. ring. Qed.

Lemma bern_gt n i s : (n < i)%nat -> bern n i s = 0.
Proof. intros H. unfold bern. rewrite binom_gt by assumption. simpl. ring. Qed.

Lemma bez_ext n f g s : (forall i, (i <= n)%nat -> f i = g i) -> bez n f s = bez n g s.
Proof.
  intros H. unfold bez. apply sumf_ext. intros i Hi. rewrite H by lia. reflexivity.
Qed.

(** Pyramid recurrence. *)
Lemma bez_S n f s :
  bez (S n) f s = (1 - s) * bez n f s + s * bez n (fun i => f (S i)) s.
Proof.
  unfold bez. rewrite sumf_S_l.
  rewrite (sumf_ext (S n) (fun i => bern (S n) (S i) s * f (S i))
     (fun i => s * (bern n i s * f (S i)) + (1 - s) * (bern n (S i) s * f (S i))))
    by (intros i _; rewrite bern_rec; ring).
  rewrite sumf_plus, !sumf_scal.
  rewrite (sumf_S_l n (fun i => bern n i s * f i)).
  assert (E : sumf (S n) (fun i => bern n (S i) s * f (S i))
              = sumf n (fun i => bern n (S i) s * f (S i))).
  { simpl. rewrite (bern_gt n (S n)) by lia. ring. }
  rewrite E, bern_rec0. ring.
Qed.

Lemma bez_0 f s : bez 0 f s = f 0%nat.
Proof. unfold bez, bern. simpl. ring. Qed.

Lemma bez_lin n a b f g s :
  bez n (fun i => a * f i + b * g i) s = a * bez n f s + b * bez n g s.
Proof.
  unfold bez. rewrite <- !sumf_scal, <- sumf_plus.
  apply sumf_ext. intros; ring.
Qed.

Lemma bez_S_cstep n f s : bez (S n) f s = bez n (cstep s f) s.
Proof. rewrite bez_S. unfold cstep. rewrite bez_lin. reflexivity. Qed.

(** The Bernstein sum is what de Casteljau's algorithm computes. *)
Lemma bez_cast n f s : bez n f s = cast n s f.
Proof.
  revert f; induction n as [|n IH]; intros f; [apply bez_0|].
  rewrite bez_S_cstep. simpl. apply IH.
Qed.

Lemma bez_const n c s : bez n (fun _ => c) s = c.
Proof.
  induction n as [|n IH]; [apply bez_0|].
  rewrite bez_S, IH. ring.
Qed.

Lemma bern_sum n s : sumf (S n) (fun i => bern n i s) = 1.
Proof.
  rewrite <- (bez_const n 1 s). unfold bez. apply sumf_ext. intros; ring.
Qed.

Lemma bern_nonneg n i s : 0 <= s <= 1 -> 0 <= bern n i s.
Proof.
  intros H. unfold bern.
  apply Rmult_le_pos; [apply Rmult_le_pos|].
  - apply pos_INR.
  - apply pow_le; lra.
  - apply pow_le; lra.
Qed.

(** Convex hull property. *)
Lemma bez_le n f s b :
  0 <= s <= 1 -> (forall i, (i <= n)%nat -> f i <= b) -> bez n f s <= b.
Proof.
  intros Hs H. rewrite <- (bez_const n b s). unfold bez.
  apply sumf_le. intros i Hi. apply Rmult_le_compat_l.
  - apply bern_nonneg; assumption.
  - apply H; lia.
Qed.

Lemma bez_ge n f s b :
  0 <= s <= 1 -> (forall i, (i <= n)%nat -> b <= f i) -> b <= bez n f s.
Proof.
  intros Hs H. rewrite <- (bez_const n b s). unfold bez.
  apply sumf_le. intros i Hi. apply Rmult_le_compat_l.
  - apply bern_nonneg; assumption.
  - apply H; lia.
Qed.

Lemma bez_at_0 n f : bez n f 0 = f 0%nat.
Proof.
  induction n as [|n IH]; [apply bez_0|]. rewrite bez_S, IH. ring.
Qed.

Lemma bez_at_1 n f : bez n f 1 = f n.
Proof.
  revert f; induction n as [|n IH]; intros f; [apply bez_0|]. rewrite bez_S, (IH (fun i => f (S i))). ring.
Qed.

(** * Subdivision *)

Definition left_pts (s : R) (f : nat -> R) (i : nat) : R := cast i s f.

Lemma cast_ext n s f g : (forall i, (i <= n)%nat -> f i = g i) -> cast n s f = cast n s g.
Proof. intros H. rewrite <- !bez_cast. apply bez_ext; assumption. Qed.

Lemma cast_lin n s a b f g :
  cast n s (fun i => a * f i + b * g i) = a * cast n s f + b * cast n s g.
Proof. rewrite <- !bez_cast. apply bez_lin. Qed.

Lemma cstep_comm s u f i : cstep s (cstep u f) i = cstep u (cstep s f) i.
Proof. unfold cstep. ring. Qed.

Lemma bez_left n f s u : bez n (fun i => cast i s f) u = bez n f (s * u).
Proof.
  revert f; induction n as [|n IH]; intros f; [rewrite !bez_0; reflexivity|].
  rewrite bez_S.
  rewrite (bez_ext n (fun i => cast (S i) s f) (fun i => cast i s (cstep s f)) u)
    by reflexivity.
  rewrite !IH. rewrite bez_S.
  rewrite (bez_ext n (cstep s f) (fun i => (1 - s) * f i + s * f (S i))) by reflexivity.
  rewrite bez_lin. ring.
Qed.

Lemma bez_rev n f s : bez n (fun i => f (n - i)%nat) s = bez n f (1 - s).
Proof.
  revert f; induction n as [|n IH]; intros f; [rewrite !bez_0; reflexivity|].
  rewrite !bez_S.
  rewrite (bez_ext n (fun i => f (S n - i)%nat) (fun i => (fun j => f (S j)) (n - i)%nat) s)
    by (intros i Hi; f_equal; lia).
  rewrite (IH (fun j => f (S j))).
  rewrite (bez_ext n (fun i => f (S n - S i)%nat) (fun i => f (n - i)%nat) s)
    by (intros i Hi; f_equal; lia).
  rewrite IH. ring.
Qed.

(** Control points of the part on [s,1]: [fun i => cast (n-i) s (f shifted by i)]. *)
Lemma bez_right n f s u :
  bez n (fun i => cast (n - i) s (fun j => f (i + j)%nat)) u = bez n f (s + (1 - s) * u).
Proof.
  revert f; induction n as [|n IH]; intros f; [rewrite !bez_0; reflexivity|].
  rewrite bez_S.
  rewrite (bez_ext n (fun i => cast (S n - i) s (fun j => f (i + j)%nat))
     (fun i => cast (n - i) s (fun j => cstep s f (i + j)%nat)) u).
  2:{ intros i Hi. replace (S n - i)%nat with (S (n - i)) by lia. simpl.
      apply cast_ext. intros j _. unfold cstep. rewrite Nat.add_succ_r. reflexivity. }
  rewrite IH.
  rewrite (bez_ext n (fun i => cast (S n - S i) s (fun j => f (S i + j)%nat))
     (fun i => cast (n - i) s (fun j => (fun k => f (S k)) (i + j)%nat)) u)
    by (intros i Hi; simpl; reflexivity).
  rewrite (IH (fun k => f (S k))).
  rewrite bez_S.
  rewrite (bez_ext n (cstep s f) (fun i => (1 - s) * f i + s * f (S i))) by reflexivity.
  rewrite bez_lin. ring.
Qed.

(** * Derivative *)

Lemma derivable_pt_lim_ext f g x l :
  (forall u, f u = g u) -> derivable_pt_lim f x l -> derivable_pt_lim g x l.
Proof.
  intros E H eps Heps. destruct (H eps Heps) as [d Hd].
  exists d. intros h Hh Hlt. rewrite <- !E. apply Hd; assumption.
Qed.

Lemma bez_deriv n f s :
  derivable_pt_lim (bez (S n) f) s (INR (S n) * bez n (fun i => f (S i) - f i) s).
Proof.
  revert f; induction n as [|n IH]; intros f.
  - apply (derivable_pt_lim_ext (fun u => (1 - u) * f 0%nat + u * f 1%nat)).
    { intros u. rewrite bez_S, !bez_0. reflexivity. }
    rewrite bez_0.
    replace (INR 1 * (f 1%nat - f 0%nat))
      with (((0 - 1) * f 0%nat + (1 - s) * 0) + (1 * f 1%nat + s * 0)) by (simpl; ring).
    apply derivable_pt_lim_plus.
    + apply (derivable_pt_lim_mult (fun u => 1 - u) (fun _ => f 0%nat)).
      * apply (derivable_pt_lim_minus (fun _ => 1) (fun u => u));
        [apply derivable_pt_lim_const | apply derivable_pt_lim_id].
      * apply derivable_pt_lim_const.
    + apply (derivable_pt_lim_mult (fun u => u) (fun _ => f 1%nat)).
      * apply derivable_pt_lim_id.
      * apply derivable_pt_lim_const.
  - apply (derivable_pt_lim_ext
      (fun u => (1 - u) * bez (S n) f u + u * bez (S n) (fun i => f (S i)) u)).
    { intros u. rewrite (bez_S (S n)). reflexivity. }
    set (d := fun i => f (S i) - f i).
    assert (E1 : bez (S n) (fun i => f (S i)) s - bez (S n) f s = bez (S n) d s).
    { unfold d. rewrite (bez_ext (S n) (fun i => f (S i) - f i) (fun i => 1 * f (S i) + (-1) * f i))
        by (intros; ring). rewrite bez_lin. ring. }
    replace (INR (S (S n)) * bez (S n) d s)
      with (((0 - 1) * bez (S n) f s + (1 - s) * (INR (S n) * bez n d s)) +
            (1 * bez (S n) (fun i => f (S i)) s
             + s * (INR (S n) * bez n (fun i => d (S i)) s))).
    2:{ replace (((0 - 1) * bez (S n) f s + (1 - s) * (INR (S n) * bez n d s)) +
            (1 * bez (S n) (fun i => f (S i)) s + s * (INR (S n) * bez n (fun i => d (S i)) s)))
        with ((bez (S n) (fun i => f (S i)) s - bez (S n) f s)
              + INR (S n) * ((1 - s) * bez n d s + s * bez n (fun i => d (S i)) s)) by ring.
        rewrite E1, <- bez_S. rewrite (S_INR (S n)). ring. }
    apply derivable_pt_lim_plus.
    + apply (derivable_pt_lim_mult (fun u => 1 - u) (bez (S n) f)).
      * apply (derivable_pt_lim_minus (fun _ => 1) (fun u => u));
        [apply derivable_pt_lim_const | apply derivable_pt_lim_id].
      * apply IH.
    + apply (derivable_pt_lim_mult (fun u => u) (bez (S n) (fun i => f (S i)))).
      * apply derivable_pt_lim_id.
      * apply (IH (fun i => f (S i))).
Qed.
