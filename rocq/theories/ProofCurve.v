(** Vector-valued curves: derivatives, end points, convex hull, computation. *)
From Verif Require Import Vec SpecBezier ProofBezier.
Open Scope R_scope.

Lemma v3_eq a b : vx a = vx b -> vy a = vy b -> vz a = vz b -> a = b.
Proof. destruct a, b; simpl; intros; subst; reflexivity. Qed.

Lemma m3_eq a b : row0 a = row0 b -> row1 a = row1 b -> row2 a = row2 b -> a = b.
Proof. destruct a, b; simpl; intros; subst; reflexivity. Qed.

(** * Scalar curves given by lists *)

Fixpoint rdiffs (P : list R) : list R :=
  match P with
  | a :: ((b :: _) as P') => (b - a) :: rdiffs P'
  | _ => []
  end.

Lemma length_rdiffs P : length (rdiffs P) = pred (length P).
Proof.
  induction P as [|a P IH]; [reflexivity|]. destruct P as [|b P]; [reflexivity|].
  change (rdiffs (a :: b :: P)) with ((b - a) :: rdiffs (b :: P)).
  simpl length in *. rewrite IH. reflexivity.
Qed.

Lemma nth_rdiffs P i : (S i < length P)%nat -> nth i (rdiffs P) 0 = nth (S i) P 0 - nth i P 0.
Proof.
  revert i; induction P as [|a P IH]; intros i H; [simpl in H; lia|].
  destruct P as [|b P]; [simpl in H; lia|].
  change (rdiffs (a :: b :: P)) with ((b - a) :: rdiffs (b :: P)).
  destruct i as [|i]; [reflexivity|].
  change (nth (S i) ((b - a) :: rdiffs (b :: P)) 0) with (nth i (rdiffs (b :: P)) 0).
  rewrite IH by (simpl in *; lia). reflexivity.
Qed.

Lemma bezl_deriv P s :
  derivable_pt_lim (bezl P) s (INR (pred (length P)) * bezl (rdiffs P) s).
Proof.
  unfold bezl. rewrite length_rdiffs.
  destruct (pred (length P)) as [|n] eqn:E.
  - apply (derivable_pt_lim_ext (fun _ => nth 0 P 0)).
    { intros u. rewrite bez_0. reflexivity. }
    simpl INR. rewrite Rmult_0_l. apply derivable_pt_lim_const.
  - replace (bez (pred (S n)) (fun i => nth i (rdiffs P) 0) s)
      with (bez n (fun i => nth (S i) P 0 - nth i P 0) s).
    + apply bez_deriv.
    + apply bez_ext. intros i Hi. rewrite nth_rdiffs by lia. reflexivity.
Qed.

Lemma bezl_scal_list k P s : bezl (map (Rmult k) P) s = k * bezl P s.
Proof.
  unfold bezl. rewrite map_length.
  replace (k * bez (pred (length P)) (fun i => nth i P 0) s)
    with (k * bez (pred (length P)) (fun i => nth i P 0) s
          + 0 * bez (pred (length P)) (fun i => nth i P 0) s) by ring.
  rewrite <- bez_lin. apply bez_ext. intros i Hi.
  rewrite Rmult_0_l, Rplus_0_r.
  destruct (lt_dec i (length P)) as [H|H].
  - rewrite (nth_indep (map (Rmult k) P) 0 (Rmult k 0)) by (rewrite map_length; assumption).
    rewrite map_nth. reflexivity.
  - rewrite !nth_overflow by (rewrite ?map_length; lia). ring.
Qed.

Lemma curve1_deriv P T t :
  derivable_pt_lim (fun u => bezl P (u / T)) t
    (bezl (map (Rmult (INR (pred (length P)) / T)) (rdiffs P)) (t / T)).
Proof.
  rewrite bezl_scal_list.
  replace (INR (pred (length P)) / T * bezl (rdiffs P) (t / T))
    with ((INR (pred (length P)) * bezl (rdiffs P) (t / T)) * (/ T)) by (unfold Rdiv; ring).
  apply (derivable_pt_lim_comp (fun u => u / T) (bezl P)).
  - replace (/ T) with (1 * / T + t * 0) by ring.
    apply (derivable_pt_lim_mult (fun u => u) (fun _ => / T)).
    + apply derivable_pt_lim_id.
    + apply derivable_pt_lim_const.
  - apply bezl_deriv.
Qed.

Lemma map_vdiffs (f : vec3 -> R) :
  (forall a b, f (vsub a b) = f a - f b) ->
  forall P, map f (vdiffs P) = rdiffs (map f P).
Proof.
  intros Hf P. induction P as [|a P IH]; [reflexivity|].
  destruct P as [|b P]; [reflexivity|].
  change (vdiffs (a :: b :: P)) with (vsub b a :: vdiffs (b :: P)).
  cbn [map]. rewrite IH, Hf. reflexivity.
Qed.

Lemma map_hodo (f : vec3 -> R) T P :
  (forall a b, f (vsub a b) = f a - f b) ->
  (forall k a, f (vscal k a) = k * f a) ->
  map f (hodo T P) = map (Rmult (INR (pred (length (map f P))) / T)) (rdiffs (map f P)).
Proof.
  intros H1 H2. unfold hodo. rewrite map_map, map_length.
  rewrite <- map_vdiffs by assumption. rewrite map_map.
  apply map_ext. intros a. apply H2.
Qed.

Lemma curve_is_deriv P T t : is_deriv (curve P T) t (curve (hodo T P) T t).
Proof.
  unfold is_deriv, curve, bez3. cbn [vx vy vz].
  rewrite !map_hodo by reflexivity.
  repeat split; apply curve1_deriv.
Qed.

Fixpoint hodo_n (k : nat) (T : R) (P : list vec3) : list vec3 :=
  match k with O => P | S k' => hodo_n k' T (hodo T P) end.

Lemma curve_is_deriv_n k P T t : is_deriv_n k (curve P T) t (curve (hodo_n k T P) T t).
Proof.
  revert P; induction k as [|k IH]; intros P; [reflexivity|].
  exists (curve (hodo T P) T). split; [intros u; apply curve_is_deriv | apply IH].
Qed.

Lemma bezl_at_0 P : bezl P 0 = hd 0 P.
Proof. unfold bezl. rewrite bez_at_0. destruct P; reflexivity. Qed.

Lemma bezl_at_1 P : bezl P 1 = last P 0.
Proof.
  unfold bezl. rewrite bez_at_1.
  induction P as [|a P IH]; [reflexivity|].
  destruct P as [|b P]; [reflexivity|]. simpl in *. exact IH.
Qed.

Lemma last_map {A B} (f : A -> B) l d : last (map f l) (f d) = f (last l d).
Proof.
  induction l as [|a l IH]; [reflexivity|]. destruct l as [|b l]; [reflexivity|].
  simpl in *. exact IH.
Qed.
Lemma hd_map {A B} (f : A -> B) l d : hd (f d) (map f l) = f (hd d l).
Proof. destruct l; reflexivity. Qed.

Lemma curve_at_0 P T : curve P T 0 = hd vzero P.
Proof.
  unfold curve, bez3, Rdiv. rewrite Rmult_0_l, !bezl_at_0.
  apply v3_eq; simpl.
  - apply (hd_map vx P vzero).
  - apply (hd_map vy P vzero).
  - apply (hd_map vz P vzero).
Qed.

Lemma curve_at_T P T : T <> 0 -> curve P T T = last P vzero.
Proof.
  intros H. unfold curve, bez3. replace (T / T) with 1 by (field; assumption).
  rewrite !bezl_at_1.
  apply v3_eq; simpl.
  - apply (last_map vx P vzero).
  - apply (last_map vy P vzero).
  - apply (last_map vz P vzero).
Qed.

(** * Computation: explicit polynomial *)

Definition ibern (n i : nat) : Z := Z.of_nat (binom n i).

Lemma bez_poly n f s :
  bez n f s = sumf (S n) (fun i => IZR (ibern n i) * s ^ i * (1 - s) ^ (n - i) * f i).
Proof.
  unfold bez, bern, ibern. apply sumf_ext. intros i _. rewrite INR_IZR_INZ. reflexivity.
Qed.

Ltac bez_norm :=
  unfold curve, bez3, bezl; rewrite ?bez_poly;
  cbn [map length pred sumf nth Nat.sub];
  repeat match goal with
  | |- context [ibern ?n ?i] =>
      let v := eval vm_compute in (ibern n i) in change (ibern n i) with v
  end.
