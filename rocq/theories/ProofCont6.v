(** Continuous formulation: cones, control points of pieces, uniqueness. *)
From Verif Require Import Vec SpecBezier SpecTime ModelData ModelDispatch ModelUtils ModelRows ModelCom ModelNd ModelCont
  SpecCom SpecWp SpecCtr SpecCont ProofBezier ProofCurve ProofWaypoints ProofTime ProofTime2 ProofEmit ProofCom ProofCom2 ProofCom3 ProofNd
  ProofWaypointsErr ProofCont ProofCont2 ProofCont3 ProofCont4 ProofCont5.
Open Scope R_scope.

(** * Cones *)
Lemma comb_add : forall G a b, length a = length G -> length b = length G ->
  comb G (map (fun p => fst p + snd p) (combine a b)) = v6add (comb G a) (comb G b).
Proof.
  induction G as [|g G IH]; intros [|x a] [|y b] Ha Hb; try discriminate.
  - unfold v6add; cbn. f_equal; apply v3_eq; cbn; ring.
  - cbn [combine map comb fst snd]. rewrite IH by (cbn in *; lia). unfold v6add; cbn [fst snd].
    f_equal; apply v3_eq; cbn; ring.
Qed.
Lemma comb_scal k : forall G a, comb G (map (Rmult k) a) = v6_scal k (comb G a).
Proof.
  induction G as [|g G IH]; intros [|x a]; cbn [map comb]; try (unfold v6_scal; cbn; f_equal; apply v3_eq; cbn; ring).
  rewrite IH. unfold v6add, v6_scal; cbn [fst snd]. f_equal; apply v3_eq; cbn; ring.
Qed.
Lemma cone_add G a b : in_cone G a -> in_cone G b -> in_cone G (v6add a b).
Proof.
  intros (x & Lx & Px & <-) (y & Ly & Py & <-). exists (map (fun p => fst p + snd p) (combine x y)).
  split; [rewrite map_length, combine_length; lia|]. split; [|apply comb_add; assumption].
  rewrite Forall_map. apply Forall_forall. intros [p q] H. cbn.
  rewrite Forall_forall in Px, Py. pose proof (Px p (in_combine_l _ _ _ _ H)). pose proof (Py q (in_combine_r _ _ _ _ H)). lra.
Qed.
Lemma cone_scal G k a : 0 <= k -> in_cone G a -> in_cone G (v6_scal k a).
Proof.
  intros Hk (x & Lx & Px & <-). exists (map (Rmult k) x). split; [rewrite map_length; exact Lx|].
  split; [|apply comb_scal]. rewrite Forall_map. apply Forall_forall. intros p H. rewrite Forall_forall in Px.
  apply Rmult_le_pos; [exact Hk|apply Px, H].
Qed.

Definition bezf6 (n : nat) (f : nat -> v6) (s : R) : v6 :=
  (V3 (bez n (fun i => vx (fst (f i))) s) (bez n (fun i => vy (fst (f i))) s) (bez n (fun i => vz (fst (f i))) s),
   V3 (bez n (fun i => vx (snd (f i))) s) (bez n (fun i => vy (snd (f i))) s) (bez n (fun i => vz (snd (f i))) s)).
Lemma bezf6_cone G s : 0 <= s <= 1 -> forall n f, (forall i, (i <= n)%nat -> in_cone G (f i)) -> in_cone G (bezf6 n f s).
Proof.
  intros Hs. induction n as [|n IH]; intros f Hf.
  - unfold bezf6. rewrite !bez_0. specialize (Hf 0%nat (le_n 0)).
    destruct (f 0%nat) as [[? ? ?] [? ? ?]]; cbn in *. exact Hf.
  - replace (bezf6 (S n) f s) with (v6add (v6_scal (1 - s) (bezf6 n f s)) (v6_scal s (bezf6 n (fun i => f (S i)) s))).
    + apply cone_add; apply cone_scal; try lra; apply IH; intros i Hi; apply Hf; lia.
    + unfold bezf6. rewrite !bez_S. unfold v6add, v6_scal; cbn. f_equal; apply v3_eq; cbn; ring.
Qed.
Lemma curve6_bezf6 P T t : P <> [] -> curve6 P T t = bezf6 (pred (length P)) (fun i => nth i P (vzero, vzero)) (t / T).
Proof.
  intros HP. assert (N : forall f : v6 -> R, bezl (map f P) (t / T) = bez (pred (length P)) (fun i => f (nth i P (vzero, vzero))) (t / T)).
  { intros f. unfold bezl. rewrite map_length. apply bez_ext. intros i Hi.
    rewrite (nth_indep _ 0 (f (vzero, vzero))) by (rewrite map_length; destruct P; [congruence|cbn in *; lia]).
    apply map_nth. }
  unfold curve6, curve, bez3, bezf6. rewrite !map_map, !N. reflexivity.
Qed.
Lemma cone_curve6 G P T t : P <> [] -> 0 <= t / T <= 1 -> (forall q, In q P -> in_cone G q) -> in_cone G (curve6 P T t).
Proof.
  intros HP Ht Hq. rewrite curve6_bezf6 by exact HP. apply bezf6_cone; [exact Ht|]. intros i Hi. apply Hq, nth_In.
  destruct P; [congruence|cbn in *; lia].
Qed.

(** * A curve determines its control points *)
Lemma bezl_uniq : forall n P Q, length P = n -> length Q = n -> (forall s, bezl P s = bezl Q s) -> P = Q.
Proof.
  induction n as [|n IH]; intros P Q HP HQ H; [destruct P, Q; try discriminate; reflexivity|].
  pose proof (H 0) as H0. rewrite !bezl_at_0 in H0.
  destruct P as [|a P], Q as [|b Q]; try discriminate. cbn in H0. subst b. injection HP as HP. injection HQ as HQ.
  destruct n as [|n]; [destruct P, Q; try discriminate; reflexivity|].
  assert (D : forall s, bezl (rdiffs (a :: P)) s = bezl (rdiffs (a :: Q)) s).
  { intros s. pose proof (bezl_deriv (a :: P) s) as D1. pose proof (bezl_deriv (a :: Q) s) as D2.
    assert (D3 : derivable_pt_lim (bezl (a :: P)) s (INR (pred (length (a :: Q))) * bezl (rdiffs (a :: Q)) s)).
    { intros e He. destruct (D2 e He) as [d Hd]. exists d. intros h H1 H2. rewrite !H. apply Hd; assumption. }
    pose proof (uniqueness_limite _ _ _ _ D1 D3) as E. cbn [length pred] in E. rewrite HP, HQ in E.
    apply Rmult_eq_reg_l in E; [exact E|]. apply not_0_INR. lia. }
  assert (E : rdiffs (a :: P) = rdiffs (a :: Q)).
  { apply IH; [| |exact D]; rewrite length_rdiffs; cbn; lia. }
  clear - E HP HQ. f_equal. revert a Q E HQ. revert n HP.
  induction P as [|p P IHP]; intros n HP a Q E HQ; [discriminate|].
  destruct Q as [|q Q]; [discriminate|]. change (p - a :: rdiffs (p :: P) = q - a :: rdiffs (q :: Q)) in E.
  injection E as E1 E2. assert (p = q) by lra. subst q. f_equal.
  destruct n as [|n]; [destruct P, Q; try discriminate; reflexivity|].
  apply (IHP n) with (a := p); [cbn in HP; lia|exact E2|cbn in HQ; lia].
Qed.

Lemma v6_ext a b : (forall u, dot6 u a = dot6 u b) -> a = b.
Proof.
  intros H. destruct a as [[a1 a2 a3] [a4 a5 a6]], b as [[b1 b2 b3] [b4 b5 b6]].
  pose proof (H (V3 1 0 0, vzero)). pose proof (H (V3 0 1 0, vzero)). pose proof (H (V3 0 0 1, vzero)).
  pose proof (H (vzero, V3 1 0 0)). pose proof (H (vzero, V3 0 1 0)). pose proof (H (vzero, V3 0 0 1)).
  unfold dot6, vdot, vzero in *; cbn in *. f_equal; f_equal; lra.
Qed.
Lemma v3_ext a b : (forall u, vdot u a = vdot u b) -> a = b.
Proof.
  intros H. destruct a as [a1 a2 a3], b as [b1 b2 b3].
  pose proof (H (V3 1 0 0)). pose proof (H (V3 0 1 0)). pose proof (H (V3 0 0 1)). unfold vdot in *; cbn in *. f_equal; lra.
Qed.
Lemma bezl_affine {A} (f : A -> R) a b P s : P <> [] -> bezl (map (fun v => a + b * f v) P) s = a + b * bezl (map f P) s.
Proof.
  intros HP. rewrite (bezl_ext_map _ (fun v => a * 1 + b * f v)) by (intros; ring). rewrite (bezl_comb a b (fun _ => 1) f).
  replace (bezl (map (fun _ : A => 1) P) s) with 1; [ring|]. unfold bezl. rewrite map_length.
  symmetry. transitivity (bez (pred (length P)) (fun _ => 1) s); [|apply bez_const]. apply bez_ext. intros i Hi.
  destruct P as [|p0 P0]; [congruence|].
  rewrite (nth_indep _ 0 ((fun _ : A => 1) p0)) by (rewrite map_length; cbn in *; lia).
  rewrite (map_nth (fun _ : A => 1) _ p0). reflexivity.
Qed.

(** * Values of pieces *)
Lemma piece_pos pi T p x t : 0 < T -> piece aff aff_add aff_scal p (NDC (map sym_aff pi) 0 T 1) ->
  curve (map (fun q => ev_aff q x) (nd_pts p)) (nd_max p - nd_min p) (t - nd_min p) =
  curve (map (fun q => ev_aff (sym_aff q) x) pi) T t.
Proof.
  intros HT (_ & _ & _ & _ & _ & Hv). apply v3_ext. intros u. unfold curve. rewrite !vdot_bez3, !map_map.
  specialize (Hv (fun q => vdot u (ev_aff q x)) t (lin_aff u x)). unfold nd_val in Hv. cbn [nd_pts nd_min nd_max] in Hv.
  rewrite (T_fac _ _ HT), map_map in Hv. exact Hv.
Qed.
Lemma piece_w6 ws T p x t : 0 < T -> piece wp6 w6_add w6_scal p (NDC ws 0 T 1) ->
  curve6 (map (fun q => ev_w6 q x) (nd_pts p)) (nd_max p - nd_min p) (t - nd_min p) =
  curve6 (map (fun q => ev_w6 q x) ws) T t.
Proof.
  intros HT (_ & _ & _ & _ & _ & Hv). apply v6_ext. intros u. rewrite !dot6_curve6, !map_map.
  specialize (Hv (fun q => dot6 u (ev_w6 q x)) t (lin_w6 u x)). unfold nd_val in Hv. cbn [nd_pts nd_min nd_max] in Hv.
  rewrite (T_fac _ _ HT) in Hv. exact Hv.
Qed.
Lemma items_curve ph x P T t : P <> [] ->
  curve6 (map (fun w => item_w (w, ph) x) P) T t =
  v6_scal (cp_mass ph) (v6sub (cp_gravity ph, vzero) (curve6 (map (fun q => ev_w6 q x) P) T t)).
Proof.
  intros HP. apply v6_ext. intros u.
  assert (A : forall m g w, dot6 u (v6_scal m (v6sub g w)) = m * dot6 u g + - m * dot6 u w)
    by (intros; unfold dot6, v6_scal, v6sub, vscal, vsub, vdot; cbn; ring).
  rewrite A, !dot6_curve6, !map_map. rewrite <- bezl_affine by exact HP.
  apply bezl_ext_map. intros w _. unfold item_w; cbn [fst snd]. apply A.
Qed.
