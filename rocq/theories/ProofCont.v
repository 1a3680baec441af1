(** Continuous formulation: symbolic curves and the matrix A. *)
From Verif Require Import Vec SpecBezier SpecTime ModelData ModelWaypoints ModelDispatch ModelUtils ModelRows ModelCom ModelNd ModelCont
  SpecCom SpecCtr SpecCont ProofBezier ProofCurve ProofWaypoints ProofTime ProofEmit ProofCom ProofCom2 ProofNd ProofWaypointsErr.
Open Scope R_scope.

(** * Functionals of Bezier curves *)
Lemma bezl_map {A} (f : A -> R) P s : P <> [] -> bezl (map f P) s = bez (length P - 1) (fun i => nth i (map f P) 0) s.
Proof. intros _. unfold bezl. rewrite map_length. f_equal. lia. Qed.
Lemma bezl_comb {A} a b (f g : A -> R) P s :
  bezl (map (fun p => a * f p + b * g p) P) s = a * bezl (map f P) s + b * bezl (map g P) s.
Proof.
  unfold bezl. rewrite !map_length, <- bez_lin. apply bez_ext. intros i Hi.
  destruct (Nat.lt_ge_cases i (length P)) as [H|H].
  - destruct (nth_error P i) as [p|] eqn:E; [|apply nth_error_None in E; lia].
    rewrite !(nth_error_nth _ _ _ (map_nth_error _ _ _ E)). reflexivity.
  - rewrite !nth_overflow by (rewrite map_length; lia). ring.
Qed.
Lemma bezl_ext_map {A} (f g : A -> R) P s : (forall p, In p P -> f p = g p) -> bezl (map f P) s = bezl (map g P) s.
Proof. intros H. f_equal. apply map_ext_in, H. Qed.
Lemma vdot_bez3 u P s : vdot u (bez3 P s) = bezl (map (vdot u) P) s.
Proof.
  unfold bez3. unfold vdot at 1. cbn [vx vy vz].
  rewrite (bezl_ext_map (vdot u) (fun p => 1 * (vx u * vx p + vy u * vy p) + vz u * vz p)) by (intros; unfold vdot; ring).
  rewrite bezl_comb, bezl_comb. ring.
Qed.
Lemma dot6_curve6 u P T t : dot6 u (curve6 P T t) = bezl (map (dot6 u) P) (t / T).
Proof.
  unfold curve6, dot6 at 1, curve. cbn [fst snd]. rewrite !vdot_bez3, !map_map.
  rewrite (bezl_ext_map (dot6 u) (fun p => 1 * vdot (fst u) (fst p) + 1 * vdot (snd u) (snd p))) by (intros; unfold dot6; ring).
  rewrite bezl_comb, !Rmult_1_l. reflexivity.
Qed.

(** * Linear functionals of symbolic points *)
Lemma ev_aff_add a b x : ev_aff (aff_add a b) x = vadd (ev_aff a x) (ev_aff b x).
Proof. apply v3_eq; unfold ev_aff, aff_add, madd, mvmul, vadd, vdot; cbn; ring. Qed.
Lemma ev_aff_sub a b x : ev_aff (aff_sub a b) x = vsub (ev_aff a x) (ev_aff b x).
Proof. apply v3_eq; unfold ev_aff, aff_sub, msub, mvmul, vadd, vsub, vdot; cbn; ring. Qed.
Lemma ev_aff_scal k a x : ev_aff (aff_scal k a) x = vscal k (ev_aff a x).
Proof. apply v3_eq; unfold ev_aff, aff_scal, mscal, mvmul, vadd, vscal, vdot; cbn; ring. Qed.
Lemma lin_aff u x : linear aff aff_add aff_scal (fun p => vdot u (ev_aff p x)).
Proof.
  split; intros; [rewrite ev_aff_add|rewrite ev_aff_scal]; unfold vdot, vadd, vscal; cbn; ring.
Qed.
Lemma lin_w6 u x : linear wp6 w6_add w6_scal (fun w => dot6 u (ev_w6 w x)).
Proof.
  split; intros; unfold dot6, ev_w6, w6_add, w6_scal, madd, mscal, mvmul, vadd, vscal, vdot; cbn; ring.
Qed.
Definition V1 := V3 1 0 0. Definition V2 := V3 0 1 0. Definition V4 := V3 0 0 1.
Lemma dot_V1 v : vdot V1 v = vx v. Proof. unfold vdot; cbn; ring. Qed.
Lemma dot_V2 v : vdot V2 v = vy v. Proof. unfold vdot; cbn; ring. Qed.
Lemma dot_V4 v : vdot V4 v = vz v. Proof. unfold vdot; cbn; ring. Qed.

(** * The symbolic curve *)
Definition sym_aff (p : vec3) : aff := if vec_isZero p then (mid, vzero) else (mzero, p).
Lemma dimVar_com pData : In (flag_of pData) com_flags -> dimVar pData = 3%nat.
Proof. intros H. unfold dimVar. in_cases H; rewrite H; reflexivity. Qed.

Lemma com_shape_pts pData T x pi pts : com_shape pData T x pi pts ->
  Forall2 (fun p q => (p = vzero /\ q = x) \/ q = p) pi pts.
Proof.
  intros H. destruct H as [? E H|? E H|? E H|? E H|? E H|? E H|? E H].
  all: cbv [c0_dc0_c1_computeConstantWaypoints c0_dc0_dc1_computeConstantWaypoints c0_dc0_dc1_c1_computeConstantWaypoints
       c0_dc0_ddc0_computeConstantWaypoints c0_dc0_ddc0_c1_computeConstantWaypoints c0_dc0_ddc0_dc1_c1_computeConstantWaypoints
       c0_dc0_ddc0_ddc1_dc1_c1_computeConstantWaypoints] in H.
  all: try (destruct (Req_EM_T _ 0); [|discriminate]).
  all: injection H as <-.
  all: match goal with E' : _ = _ :> list vec3 |- _ => inversion E'; subst; clear E' end.
  all: repeat (constructor; [solve [left; split; reflexivity | right; reflexivity]|]); constructor.
Qed.

Definition first_aff (w : wpn) : aff := match wn_blocks w with [m] => (m, wn_pt w) | _ => aff_zero end.
Lemma sym_ok pData T pi : In (flag_of pData) com_flags -> computeConstantWaypoints pData T = Ok pi ->
  exists ws, computeConstantWaypointsSymbolic pData T = Ok ws /\ mapM wpn_aff ws = Ok (map sym_aff pi) /\
    forall x, map (fun w => ev_sym w x) ws = map (fun p => ev_aff (sym_aff p) x) pi.
Proof.
  intros Hf E. unfold computeConstantWaypointsSymbolic. rewrite E, (dimVar_com _ Hf). cbn [bind].
  eexists. split; [reflexivity|]. split.
  - rewrite (mapM_ok _ first_aff).
    + rewrite map_map. f_equal. apply map_ext. intros p. unfold sym_aff. destruct (vec_isZero p); reflexivity.
    + intros w Hw. apply in_map_iff in Hw. destruct Hw as (p & <- & _). destruct (vec_isZero p); reflexivity.
  - intros x. rewrite map_map. apply map_ext. intros p. unfold sym_aff. destruct (vec_isZero p);
      apply v3_eq; unfold ev_aff, ev_sym, id_blocks, zero_blocks, mvmul, vadd, vdot; cbn; ring.
Qed.
Lemma ev_sym_aff p x : ev_aff (sym_aff p) x = if vec_isZero p then x else p.
Proof. unfold sym_aff. destruct (vec_isZero p); apply v3_eq; unfold ev_aff, mvmul, vadd, vdot; cbn; ring. Qed.
Lemma isZero_vzero : vec_isZero vzero = true.
Proof.
  unfold vec_isZero, coeff_isZero. cbn. rewrite Rabs_R0. destruct (Rle_dec 0 isZero_prec) as [|H]; [reflexivity|].
  exfalso. apply H. unfold isZero_prec. lra.
Qed.
Lemma sym_pts x : forall pi pts, Forall2 (fun p q => (p = vzero /\ q = x) \/ q = p) pi pts ->
  (map (fun p => ev_aff (sym_aff p) x) pi = pts <-> forall p, In p pts -> vec_isZero p = true -> p = x).
Proof.
  intros pi pts H. induction H as [|p q pi pts Hpq HF IH]; cbn [map In].
  - split; [intros _ p []|reflexivity].
  - rewrite ev_sym_aff. split.
    + intros E. injection E as E1 E2. intros r [<-|Hr] Hz.
      * destruct Hpq as [[-> ->]| ->]; [reflexivity|]. rewrite Hz in E1. symmetry. exact E1.
      * exact (proj1 IH E2 r Hr Hz).
    + intros Hall. f_equal.
      * destruct Hpq as [[-> ->]| ->]; [rewrite isZero_vzero; reflexivity|].
        destruct (vec_isZero p) eqn:Ez; [|reflexivity]. symmetry. apply Hall; [left; reflexivity|exact Ez].
      * apply IH. intros r Hr. apply Hall. right; exact Hr.
Qed.

Lemma c21_ok pData T x cv : In (flag_of pData) com_flags -> com_curve pData T x = Ok cv ->
  exists ws, computeConstantWaypointsSymbolic pData T = Ok ws /\
    (map (fun w => ev_sym w x) ws = bc_pts cv <-> no_zero_point cv x).
Proof.
  intros Hf Hcv. destruct (com_curve_inv _ _ _ _ Hf Hcv) as (pi & pts & Hs & Epi & _ & -> & _).
  destruct (sym_ok pData T pi Hf Epi) as (ws & Ew & _ & Hev). exists ws. split; [exact Ew|].
  rewrite Hev. apply sym_pts. apply com_shape_pts in Hs. exact Hs.
Qed.

(** * Derivatives of the symbolic curve *)
Lemma map_diffs x : forall P, map (fun p => ev_aff p x) (nd_diffs aff aff_sub P) = vdiffs (map (fun p => ev_aff p x) P).
Proof.
  induction P as [|a P IH]; [reflexivity|]. destruct P as [|b P]; [reflexivity|].
  change (nd_diffs aff aff_sub (a :: b :: P)) with (aff_sub b a :: nd_diffs aff aff_sub (b :: P)).
  cbn [map] in *. rewrite IH, ev_aff_sub. reflexivity.
Qed.
Lemma diffs_len : forall P, length (nd_diffs aff aff_sub P) = pred (length P).
Proof.
  induction P as [|a P IH]; [reflexivity|]. destruct P as [|b P]; [reflexivity|].
  change (nd_diffs aff aff_sub (a :: b :: P)) with (aff_sub b a :: nd_diffs aff aff_sub (b :: P)).
  cbn [length pred] in *. rewrite IH. reflexivity.
Qed.
Lemma vscal_vscal a b v : vscal a (vscal b v) = vscal (a * b) v.
Proof. apply v3_eq; cbn; ring. Qed.
Lemma vdiffs_scal k : forall P, vdiffs (map (vscal k) P) = map (vscal k) (vdiffs P).
Proof.
  induction P as [|a P IH]; [reflexivity|]. destruct P as [|b P]; [reflexivity|].
  change (vdiffs (a :: b :: P)) with (vsub b a :: vdiffs (b :: P)). cbn [map] in *.
  change (vdiffs (vscal k a :: vscal k b :: map (vscal k) P)) with (vsub (vscal k b) (vscal k a) :: vdiffs (vscal k b :: map (vscal k) P)).
  rewrite IH. f_equal. apply v3_eq; cbn; ring.
Qed.
Lemma hodo_scal k T P : hodo T (map (vscal k) P) = map (vscal k) (hodo T P).
Proof.
  unfold hodo. rewrite vdiffs_scal, map_length, !map_map. apply map_ext. intros v. rewrite !vscal_vscal. f_equal. ring.
Qed.
Definition d_fac (scaled : bool) (T : R) : R := if scaled then 1 else T.
Lemma derivate1_ok scaled c : (2 <= length (nd_pts c))%nat -> nd_min c < nd_max c -> exists c',
  nd_derivate1 aff aff_sub aff_scal aff_zero scaled c = Ok c' /\ nd_ok aff c' /\
  nd_min c' = nd_min c /\ nd_max c' = nd_max c /\ length (nd_pts c') = pred (length (nd_pts c)) /\
  forall x, map (fun p => ev_aff p x) (nd_pts c') =
    map (vscal (d_fac scaled (nd_max c - nd_min c))) (hodo (nd_max c - nd_min c) (map (fun p => ev_aff p x) (nd_pts c))).
Proof.
  intros HL Hlt. unfold nd_derivate1. set (k := if scaled then _ else _).
  set (pts := map (aff_scal k) _).
  assert (Hl : length pts = pred (length (nd_pts c))) by (unfold pts; rewrite map_length; apply diffs_len).
  assert (Hne : pts <> []) by (intros E; rewrite E in Hl; cbn in Hl; lia).
  replace (match pts with [] => [aff_zero] | _ => pts end) with pts by (destruct pts; [congruence|reflexivity]).
  rewrite nd_make_ok by assumption. eexists. split; [reflexivity|]. cbn [nd_pts nd_min nd_max nd_mult].
  split; [split; [exact Hne|exact Hlt]|]. split; [reflexivity|]. split; [reflexivity|]. split; [exact Hl|].
  intros x. unfold pts, hodo. rewrite !map_map, <- map_diffs, !map_map, map_length. apply map_ext. intros p.
  rewrite ev_aff_scal, vscal_vscal. f_equal. unfold k, d_fac. rewrite <- Nat.sub_1_r. destruct scaled; [ring|]. field. lra.
Qed.
Lemma derivate2_ok scaled c : (3 <= length (nd_pts c))%nat -> nd_min c < nd_max c -> exists c',
  nd_derivate aff aff_sub aff_scal aff_zero scaled 2 c = Ok c' /\ nd_ok aff c' /\
  nd_min c' = nd_min c /\ nd_max c' = nd_max c /\ length (nd_pts c') = (length (nd_pts c) - 2)%nat /\
  forall x, let T := nd_max c - nd_min c in
    map (fun p => ev_aff p x) (nd_pts c') =
    map (vscal (d_fac scaled T * d_fac scaled T)) (hodo_n 2 T (map (fun p => ev_aff p x) (nd_pts c))).
Proof.
  intros HL Hlt. cbn [nd_derivate].
  destruct (derivate1_ok scaled c ltac:(lia) Hlt) as (c1 & -> & O1 & m1 & M1 & L1 & E1). cbn [bind].
  destruct (derivate1_ok scaled c1 ltac:(lia) ltac:(lra)) as (c2 & -> & O2 & m2 & M2 & L2 & E2). cbn [bind].
  exists c2. split; [reflexivity|]. split; [exact O2|]. split; [lra|]. split; [lra|]. split; [lia|].
  intros x. cbv zeta. rewrite E2, E1, m1, M1, hodo_scal, map_map. cbn [hodo_n]. apply map_ext. intros v. apply vscal_vscal.
Qed.

(** * Rows *)
Lemma kin_row_aff_ok p K k x : vdot (fst (kin_row_aff p K k)) x <= snd (kin_row_aff p K k) <-> vdot K (ev_aff p x) <= k.
Proof.
  unfold kin_row_aff, ev_aff; cbn [fst snd].
  replace (vdot (vmmul K (fst p)) x) with (vdot K (mvmul (fst p) x)) by (unfold vmmul, mvmul, vadd, vscal, vdot; cbn; ring).
  replace (vdot K (vadd (mvmul (fst p) x) (snd p))) with (vdot K (mvmul (fst p) x) + vdot K (snd p)) by (unfold vadd, vdot; cbn; ring).
  lra.
Qed.
Lemma kin_rows_aff_sat p x : forall kin Kin l, kin_rows (kin_row_aff p) Kin kin = Ok l ->
  (sat l x <-> forall i K k, nth_error Kin i = Some K -> nth_error kin i = Some k -> vdot K (ev_aff p x) <= k).
Proof.
  induction kin as [|k kin IH]; intros Kin l H.
  - assert (l = []) by (destruct Kin; cbn in H; injection H as <-; reflexivity). subst.
    split; [intros _ i K k _ Hk; destruct i; discriminate|intros _; constructor].
  - destruct Kin as [|K Kin]; [discriminate|]. cbn [kin_rows] in H.
    destruct (kin_rows _ Kin kin) as [rs| |] eqn:E; try discriminate. cbn [bind] in H. injection H as <-.
    specialize (IH _ _ E). unfold sat in *. split.
    + intros HF. inversion HF; subst. intros [|i] K' k' HK Hk; cbn in HK, Hk.
      * injection HK as <-. injection Hk as <-. apply kin_row_aff_ok. assumption.
      * eapply IH; eassumption.
    + intros Hall. constructor; [apply kin_row_aff_ok; apply (Hall 0%nat); reflexivity|].
      apply IH. intros i K' k' HK Hk. apply (Hall (S i)); assumption.
Qed.
Lemma acc_rows_aff_sat p amax x : sat (acc_rows (fst p) (snd p) amax) x <-> within amax (ev_aff p x).
Proof.
  unfold sat, acc_rows, within, ev_aff. rewrite !Forall_cons_iff. cbn [fst snd].
  destruct p as [[r0 r1 r2] v]. unfold mvmul, vadd, vopp; cbn [fst snd row0 row1 row2 vx vy vz].
  assert (E : forall r, vdot (V3 (- vx r) (- vy r) (- vz r)) x = - vdot r x) by (intros; unfold vdot; cbn; ring).
  rewrite !E. split.
  - intros (A1 & A2 & A3 & A4 & A5 & A6 & _). repeat split; apply Rabs_le; lra.
  - intros (A1 & A2 & A3). apply Rabs_le_inv in A1, A2, A3. repeat split; try lra. constructor.
Qed.

Definition krows_aff (c : contact) (p : aff) : list (vec3 * R) := okd [] (kin_rows (kin_row_aff p) (cd_Kin c) (cd_kin c)).
Lemma krows_aff_ok c p : (length (cd_kin c) <= length (cd_Kin c))%nat ->
  kin_rows (kin_row_aff p) (cd_Kin c) (cd_kin c) = Ok (krows_aff c p) /\ length (krows_aff c p) = length (cd_kin c) /\
  forall x, sat (krows_aff c p) x <-> kin_ok c (ev_aff p x).
Proof.
  intros HL. destruct (kin_rows_ex (kin_row_aff p) _ _ HL) as [l E]. unfold krows_aff. rewrite E. cbn [okd].
  split; [reflexivity|]. split; [eapply kin_rows_len; eassumption|]. intros x. apply (kin_rows_aff_sat p x _ _ _ E).
Qed.

Lemma cont_kin_ok c : (length (cd_kin c) <= length (cd_Kin c))%nat -> forall ps st,
  fits st (length (flat_map (krows_aff c) ps)) -> cont_kin c ps st = Ok (put st (flat_map (krows_aff c) ps)).
Proof.
  intros HL. induction ps as [|p ps IH]; intros st Hf; cbn [cont_kin flat_map] in *.
  - rewrite put_nil; [reflexivity|exact Hf].
  - destruct (krows_aff_ok c p HL) as (E & Hl & _). rewrite E. cbn [bind]. rewrite app_length in Hf.
    rewrite emit_ok by (unfold fits in *; lia). cbn [bind]. rewrite IH.
    + rewrite put_put by exact Hf. reflexivity.
    + apply put_fits; unfold fits in *; lia.
Qed.
Lemma cont_stab_ok m g : forall ws st, fits st (length (flat_map (srows g m) ws)) ->
  cont_stab m g ws st = Ok (put st (flat_map (srows g m) ws)).
Proof.
  induction ws as [|w ws IH]; intros st Hf; cbn [cont_stab flat_map] in *.
  - rewrite put_nil; [reflexivity|exact Hf].
  - unfold assignStabilityConstraintsForTimeStep. rewrite srows_eq. cbn [bind]. rewrite app_length in Hf.
    rewrite emit_ok by (unfold fits in *; lia). cbn [bind]. rewrite IH.
    + rewrite put_put by exact Hf. reflexivity.
    + apply put_fits; unfold fits in *; lia.
Qed.
Definition arows_aff (amax : R) (p : aff) := acc_rows (fst p) (snd p) amax.
Lemma cont_acc_ok amax : forall ps st, fits st (length (flat_map (arows_aff amax) ps)) ->
  cont_acc amax ps st = Ok (put st (flat_map (arows_aff amax) ps)).
Proof.
  induction ps as [|p ps IH]; intros st Hf; cbn [cont_acc flat_map] in *.
  - rewrite put_nil; [reflexivity|exact Hf].
  - rewrite app_length in Hf. fold (arows_aff amax p). rewrite emit_ok by (unfold fits in *; lia). cbn [bind]. rewrite IH.
    + rewrite put_put by exact Hf. reflexivity.
    + apply put_fits; unfold fits in *; lia.
Qed.
