(** Meaning of the discretised constraints. *)
From Verif Require Import Vec SpecBezier SpecTime ModelData ModelDispatch ModelUtils ModelRows ModelCom
  SpecCom SpecCtr ProofBezier ProofCurve ProofWaypoints ProofWaypoints2 ProofWaypointsErr
  ProofTime ProofRows ProofEmit.
Open Scope R_scope.

(** Bernstein combination *)
Lemma bern_eval_ok n i u : 0 <= u <= 1 -> bern_eval n i u = Ok (bern n i u).
Proof.
  intros [H0 H1]. unfold bern_eval. destruct (Rle_dec 0 u); [|lra]. destruct (Rle_dec u 1); [|lra]. reflexivity.
Qed.

Lemma combine_w_ok n u : 0 <= u <= 1 -> forall wps j acc, exists r,
  combine_w n j u wps acc = Ok r /\
  forall phi : wp6 -> R, (forall a b, phi (w6_add a b) = phi a + phi b) ->
    (forall k a, phi (w6_scal k a) = k * phi a) ->
    phi r = phi acc + sumf (length wps) (fun k => bern n (j + k) u * nth k (map phi wps) 0).
Proof.
  intros Hu. induction wps as [|w wps IH]; intros j acc.
  - cbn. exists acc. split; [reflexivity|]. intros. ring.
  - cbn [combine_w]. rewrite (bern_eval_ok n j u Hu). cbn [bind].
    destruct (IH (S j) (w6_add acc (w6_scal (bern n j u) w))) as (r & Hr & Hphi). exists r. split; [exact Hr|].
    intros phi Ha Hs. rewrite (Hphi phi Ha Hs), Ha, Hs. cbn [length map]. rewrite sumf_S_l. cbn [nth].
    rewrite Nat.add_0_r, Rplus_assoc. f_equal. f_equal. apply sumf_ext. intros i Hi.
    replace (S j + i)%nat with (j + S i)%nat by lia. reflexivity.
Qed.

Lemma bezl_sumf P s : bezl P s = sumf (length P) (fun i => bern (length P - 1) i s * nth i P 0).
Proof.
  unfold bezl, bez. destruct P as [|a P]; cbn [length pred].
  - cbn. ring.
  - rewrite Nat.sub_succ, Nat.sub_0_r. reflexivity.
Qed.

Lemma w_at wps u : 0 <= u <= 1 -> exists r,
  combine_w (length wps - 1) 0 u wps w6_zero = Ok r /\
  forall x, ev_w6 r x = (bez3 (map (fun w => fst (ev_w6 w x)) wps) u,
                         bez3 (map (fun w => snd (ev_w6 w x)) wps) u).
Proof.
  intros Hu. destruct (combine_w_ok (length wps - 1) u Hu wps 0 w6_zero) as (r & Hr & Hphi).
  exists r. split; [exact Hr|]. intros y.
  assert (HH : forall phi : wp6 -> R, (forall a b, phi (w6_add a b) = phi a + phi b) ->
    (forall k a, phi (w6_scal k a) = k * phi a) -> phi r = bezl (map phi wps) u).
  { intros phi Ha Hs. rewrite (Hphi phi Ha Hs), bezl_sumf, map_length.
    assert (Hz : phi w6_zero = 0).
    { assert (E : w6_zero = w6_scal 0 w6_zero).
      { unfold w6_scal, w6_zero, mscal, mzero, vscal, vzero; cbn. rewrite Rmult_0_l. reflexivity. }
      rewrite E, Hs. ring. }
    rewrite Hz. cbn [Nat.add]. ring. }
  clear -HH.
  assert (E : forall (f : wp6 -> vec3), bez3 (map f wps) u =
    V3 (bezl (map (fun w => vx (f w)) wps) u) (bezl (map (fun w => vy (f w)) wps) u) (bezl (map (fun w => vz (f w)) wps) u)).
  { intros f. unfold bez3. rewrite !map_map. reflexivity. }
  rewrite !E. unfold ev_w6 at 1.
  f_equal; apply v3_eq; cbn [vx vy vz fst snd];
    match goal with |- _ = bezl (map ?f wps) u => rewrite <- (HH f) end;
    try reflexivity; intros; unfold ev_w6, w6_add, w6_scal, mvmul, madd, mscal, vadd, vscal, vdot; cbn; ring.
Qed.

Definition okd {A} (d : A) (m : outcome A) : A := match m with Ok a => a | _ => d end.

Lemma mapM_ok {A B} (f : A -> outcome B) (g : A -> B) l : (forall a, In a l -> f a = Ok (g a)) -> mapM f l = Ok (map g l).
Proof.
  induction l as [|a l IH]; intros H; cbn [mapM map]; [reflexivity|].
  rewrite H by (left; reflexivity). cbn [bind]. rewrite IH; [reflexivity|]. intros; apply H; right; assumption.
Qed.

(** rows *)
Lemma kin_row_ok co K k x : vdot (fst (kin_row co K k)) x <= snd (kin_row co K k) <-> vdot K (ev_coefs co x) <= k.
Proof.
  unfold kin_row, ev_coefs, vdot, vadd, vscal; cbn. split; intros; lra.
Qed.
Lemma kin_rows_ex f : forall kin Kin, (length kin <= length Kin)%nat -> exists l, kin_rows f Kin kin = Ok l.
Proof.
  induction kin as [|k kin IH]; intros [|K Kin] H; try (cbn in H; lia); try (eexists; reflexivity).
  cbn [kin_rows]. destruct (IH Kin) as [l ->]; [cbn in H; lia|]. eexists. reflexivity.
Qed.
Lemma kin_rows_sat co x : forall kin Kin l, kin_rows (kin_row co) Kin kin = Ok l ->
  (sat l x <-> forall i K k, nth_error Kin i = Some K -> nth_error kin i = Some k -> vdot K (ev_coefs co x) <= k).
Proof.
  induction kin as [|k kin IH]; intros Kin l H.
  - assert (l = []) as -> by (destruct Kin; inversion H; reflexivity). split; [|intros; constructor].
    intros _ i K k _ Hk. destruct i; discriminate.
  - destruct Kin as [|K Kin]; [discriminate|]. cbn [kin_rows] in H.
    destruct (kin_rows (kin_row co) Kin kin) as [rs| |] eqn:E; try discriminate. cbn [bind] in H.
    inversion H; subst. specialize (IH _ _ E). unfold sat in *. rewrite Forall_cons_iff, kin_row_ok, IH. split.
    + intros [H1 H2] [|i] K' k' HK Hk; cbn in HK, Hk; [congruence|eapply H2; eauto].
    + intros H'. split; [apply (H' 0%nat K k); reflexivity|]. intros i K' k' HK Hk. apply (H' (S i)); assumption.
Qed.

Lemma acc_rows_sat a v amax x :
  sat (acc_rows (mscal a mid) v amax) x <-> within amax (ev_coefs (a, v) x).
Proof.
  rewrite within_coord. unfold sat, acc_rows, ev_coefs. rewrite !Forall_cons_iff.
  unfold vdot, vadd, vscal, vopp, mscal, mid, vadd, vscal, vopp; cbn [fst snd row0 row1 row2 vx vy vz]. split.
  - intros (H1 & H2 & H3 & H4 & H5 & H6 & _). cbn [fst snd row0 row1 row2 vx vy vz] in *. repeat split; nra.
  - intros ((A1 & A2) & (B1 & B2) & (C1 & C2)). cbn [fst snd row0 row1 row2 vx vy vz] in *. repeat split; try nra. constructor.
Qed.

Lemma stab_row_ok u h g w x :
  vdot (v6_mmul u w) x <= h + v6_dot u (vsub g (w_head w), vsub vzero (w_tail w)) <->
  dot6 u (v6sub (ev_w6 w x) (g, vzero)) <= h.
Proof.
  unfold v6_mmul, v6_dot, dot6, v6sub, ev_w6, vmmul, mvmul, vdot, vadd, vsub, vscal, vzero; cbn. split; intros; lra.
Qed.

Lemma dsc_ok m g w : exists rows, dynamicStabilityConstraints m g w = Ok rows /\ length rows = length m /\
  forall x, sat rows x <-> Forall (fun Hh => dot6 (fst Hh) (v6sub (ev_w6 w x) (g, vzero)) <= snd Hh) m.
Proof.
  unfold dynamicStabilityConstraints. set (l := map _ m).
  destruct (Normalize3_ok l) as (z & l' & HN & HL & HS & _). unfold Normalize3. rewrite HN. cbn [bind snd].
  exists l'. split; [reflexivity|]. split; [rewrite HL; unfold l; apply map_length|].
  intros x. change (sat l' x) with (ssat vec3 vec3 vdot l' x). rewrite <- HS. unfold ssat, l. rewrite Forall_map.
  rewrite !Forall_forall. split; intros H Hh Hin; apply stab_row_ok, H, Hin.
Qed.
Definition srows (g : vec3) (m : list (v6 * R)) (w : wp6) := okd [] (dynamicStabilityConstraints m g w).
Lemma srows_eq g m w : dynamicStabilityConstraints m g w = Ok (srows g m w).
Proof. unfold srows. destruct (dsc_ok m g w) as (rows & -> & _). reflexivity. Qed.
Lemma srows_len g m w : length (srows g m w) = length m.
Proof. unfold srows. destruct (dsc_ok m g w) as (rows & -> & H & _). exact H. Qed.
Lemma srows_sat g m w x : sat (srows g m w) x <->
  Forall (fun Hh => dot6 (fst Hh) (v6sub (ev_w6 w x) (g, vzero)) <= snd Hh) m.
Proof. unfold srows. destruct (dsc_ok m g w) as (rows & -> & _ & H). apply H. Qed.

(** updateH *)
Lemma norm6_scal k a : norm6 (v6_scal k a) = Rabs k * norm6 a.
Proof.
  unfold norm6. replace (dot6 (v6_scal k a) (v6_scal k a)) with ((k * k) * dot6 a a)
    by (unfold dot6, v6_scal, vscal, vdot; cbn; ring).
  rewrite sqrt_mult_alt by nra. rewrite <- (sqrt_Rsqr_abs k). reflexivity.
Qed.
Lemma dot6_nonneg a : 0 <= dot6 a a.
Proof. unfold dot6, vdot. nra. Qed.
Lemma norm6_pos a : a <> (vzero, vzero) -> 0 < norm6 a.
Proof.
  intros H. apply sqrt_lt_R0. destruct (Rle_lt_or_eq_dec _ _ (dot6_nonneg a)) as [Hlt|Heq]; [exact Hlt|].
  exfalso. apply H. destruct a as [[a1 a2 a3] [b1 b2 b3]]. unfold dot6, vdot in Heq; cbn in Heq.
  unfold vzero. f_equal; f_equal; nra.
Qed.

Definition mh (pData : problem) (c : contact) : list (v6 * R) := okd [] (updateH pData c).
Definition php (c : contact) : cphase := match cd_phase c with Some ph => ph | None => CPhase [] 0 vzero [] end.

Definition urow (ph : cphase) (Hh : v6 * R) (red : R) : v6 * R :=
  (v6_scal (- / norm6 (fst Hh)) (fst Hh), snd Hh - red).

Lemma updateH_row_ok ph red (Hh : v6 * R) : 0 < cp_mass ph -> fst Hh <> (vzero, vzero) ->
  updateH_row ph red Hh = Ok (urow ph Hh (Rmax 0 red)).
Proof.
  intros Hm Hne. unfold updateH_row, urow. cbv zeta. pose proof (norm6_pos _ Hne) as Hn.
  assert (HN : v6_norm (v6_scal (cp_mass ph) (v6_scal (-1) (fst Hh))) = cp_mass ph * norm6 (fst Hh)).
  { change (v6_norm ?a) with (norm6 a). rewrite !norm6_scal. rewrite (Rabs_right (cp_mass ph)) by lra.
    rewrite (Rabs_left (-1)) by lra. ring. }
  rewrite HN. destruct (Req_EM_T (cp_mass ph * norm6 (fst Hh)) 0) as [E|E].
  { exfalso. nra. }
  f_equal. f_equal.
  - unfold v6_div, v6_scal, vdivs, vscal; cbn. f_equal; apply v3_eq; cbn; field; lra.
  - unfold Rmax. destruct (Rle_dec 0 red), (Rlt_dec 0 red); lra.
Qed.

Lemma updateH_ok pData c : contact_wf c ->
  updateH pData c = Ok (map (fun Hh => urow (php c) Hh (margin pData)) (cp_poly (php c))).
Proof.
  intros (ph & Hph & Hm & Hrows & _). unfold updateH, php. rewrite Hph. cbn [deref bind].
  apply mapM_ok. intros Hh Hin. rewrite Forall_forall in Hrows. apply updateH_row_ok; [exact Hm|apply Hrows, Hin].
Qed.

(** the enforced inequality in terms of the wrench *)
Lemma urow_ok ph (Hh : v6 * R) red W g : 0 < cp_mass ph -> fst Hh <> (vzero, vzero) ->
  (dot6 (fst (urow ph Hh red)) (v6sub W (g, vzero)) <= snd (urow ph Hh red) <->
   dot6 (fst Hh) (v6_scal (cp_mass ph) (v6sub (g, vzero) W)) <= cp_mass ph * norm6 (fst Hh) * (snd Hh - red)).
Proof.
  intros Hm Hne. pose proof (norm6_pos _ Hne) as Hn. unfold urow; cbn [fst snd].
  assert (E : dot6 (fst Hh) (v6_scal (cp_mass ph) (v6sub (g, vzero) W)) =
              cp_mass ph * norm6 (fst Hh) * dot6 (v6_scal (- / norm6 (fst Hh)) (fst Hh)) (v6sub W (g, vzero))).
  { unfold dot6, v6_scal, v6sub, vdot, vsub, vscal, vzero; cbn. field. lra. }
  rewrite E. split; intros H.
  - apply Rmult_le_compat_l; [nra|exact H].
  - apply Rmult_le_reg_l in H; [exact H|]. nra.
Qed.

(** rows_of: which rows are there *)
Lemma sat_app l m x : sat (l ++ m) x <-> sat l x /\ sat m x.
Proof. apply Forall_app. Qed.
Lemma sat_flat_map {A} (f : A -> list (vec3 * R)) l x : sat (flat_map f l) x <-> forall a, In a l -> sat (f a) x.
Proof.
  induction l as [|a l IH]; cbn [flat_map].
  - split; [intros _ a []|intros _; constructor].
  - rewrite sat_app, IH. split.
    + intros [H1 H2] b [->|Hb]; auto.
    + intros H. split; [apply H; left; reflexivity|]. intros b Hb. apply H. right; exact Hb.
Qed.

Lemma rows_of_sat {A} (ford fsw : contact -> A -> list (vec3 * R)) x : forall conts bs,
  length conts = length bs ->
  (sat (rows_of ford fsw conts bs) x <->
   (forall i c b a, nth_error conts i = Some c -> nth_error bs i = Some b -> In a b -> sat (ford c a) x) /\
   (forall i c b b' a, nth_error conts (S i) = Some c -> nth_error bs i = Some b -> b = b' ++ [a] -> sat (fsw c a) x)).
Proof.
  induction conts as [|c conts IH]; intros [|b bs] HL; try discriminate.
  - split; [|intros; constructor]. intros _. split; intros [|i]; discriminate.
  - cbn [rows_of]. rewrite !sat_app, (IH bs) by (cbn in HL; lia). rewrite sat_flat_map. split.
    + intros (H1 & H2 & H3 & H4). split.
      * intros [|i] c' b' a Hc Hb Ha; cbn in Hc, Hb; [|eapply H3; eauto].
        injection Hc as <-. injection Hb as <-. auto.
      * intros [|i] c' b' b'' a Hc Hb Ha; cbn [nth_error] in Hc, Hb; [|eapply H4; eauto].
        injection Hb as <-. subst b. rewrite rev_app_distr in H2. cbn [rev app] in H2.
        destruct conts as [|c2 conts]; [discriminate|]. injection Hc as <-. exact H2.
    + intros [H1 H2]. split; [|split; [|split]].
      * intros a Ha. apply (H1 0%nat c b a); auto.
      * destruct conts as [|c2 conts]; [constructor|]. destruct (rev b) as [|a r] eqn:Er; [constructor|].
        apply (H2 0%nat c2 b (rev r) a); try reflexivity.
        rewrite <- (rev_involutive b), Er. reflexivity.
      * intros i c' b' a Hc Hb Ha. apply (H1 (S i) c' b' a); assumption.
      * intros i c' b' b'' a Hc Hb Ha. apply (H2 (S i) c' b' b'' a); assumption.
Qed.

Lemma rows_of_map {A B} (h : A -> B) (f1 f2 : contact -> B -> list (vec3 * R)) : forall conts bs,
  rows_of f1 f2 conts (map (map h) bs) = rows_of (fun c a => f1 c (h a)) (fun c a => f2 c (h a)) conts bs.
Proof.
  induction conts as [|c conts IH]; intros [|b bs]; try reflexivity. cbn [rows_of map]. rewrite IH.
  f_equal; [|f_equal].
  - induction b as [|a b IHb]; cbn; [reflexivity|rewrite IHb; reflexivity].
  - destruct conts; [reflexivity|]. rewrite <- map_rev. destruct (rev b); reflexivity.
Qed.

Lemma tagged_fst : forall bs z, map fst (tagged_from z bs) = concat bs.
Proof.
  induction bs as [|b bs IH]; intros z; cbn [tagged_from concat]; [reflexivity|].
  rewrite map_app, IH, map_map. cbn. rewrite map_id. reflexivity.
Qed.
Lemma concat_map_map {A B} (f : A -> B) bs : map f (concat bs) = concat (map (map f) bs).
Proof. apply concat_map. Qed.

Lemma count_split {A} l1 l2 : forall f conts (bs : list (list A)),
  (count_rows l1 f conts bs + count_rows l2 f conts bs)%nat = count_rows (fun c => (l1 c + l2 c)%nat) f conts bs.
Proof.
  intros f conts; revert f; induction conts as [|c conts IH]; intros f [|b bs]; try reflexivity.
  cbn [count_rows]. rewrite <- IH. lia.
Qed.
Lemma count_map {A B} (h : A -> B) len : forall f conts bs, count_rows len f conts (map (map h) bs) = count_rows len f conts bs.
Proof.
  intros f conts; revert f; induction conts as [|c conts IH]; intros f [|b bs]; try reflexivity.
  cbn [count_rows map]. rewrite map_length, IH. reflexivity.
Qed.

Section Main.
  Variable pData : problem.
  Variable Ts : list R.
  Variable bs : list (list R).
  Hypothesis WP : well_posed pData Ts.
  Let T := total Ts.
  Hypothesis HLbs : length bs = length Ts.
  Hypothesis HNe : Forall (fun b => b <> []) bs.
  Hypothesis HTm : forall b t, In b bs -> In t b -> 0 <= t <= T.

  Lemma T_pos : 0 < T.
  Proof.
    destruct WP as (_ & _ & Hne & HF & _). unfold T. clear -Hne HF.
    destruct Ts as [|d l]; [congruence|]. inversion HF as [|? ? Hd HF']; subst. cbn [total].
    assert (0 <= total l); [|lra]. clear -HF'. induction HF' as [|a l Ha _ IH]; cbn; lra.
  Qed.

  Lemma norm_time t : 0 <= t <= T -> Rmin (t / T) 1 = t / T /\ 0 <= t / T <= 1.
  Proof.
    intros [H0 H1]. pose proof T_pos as HT.
    assert (t / T <= 1).
    { apply (Rmult_le_reg_r T); [exact HT|]. unfold Rdiv. rewrite Rmult_assoc, Rinv_l by lra. lra. }
    assert (0 <= t / T) by (apply Rmult_le_pos; [exact H0|apply Rlt_le, Rinv_0_lt_compat, HT]).
    split; [apply Rmin_left; assumption|split; assumption].
  Qed.

  Definition wf_t (ws : list wp6) (t : R) : wp6 := okd w6_zero (combine_w (length ws - 1) 0 (t / T) ws w6_zero).
  Definition cof (pi : list vec3) (t : R) : coefs := okd (0, vzero) (evaluateCurveAtTime pData pi (t / T)).
  Definition aof (pi : list vec3) (t : R) : coefs := okd (0, vzero) (evaluateAccelerationCurveAtTime pData pi T (t / T)).

  Lemma times_in tp : In tp (tagged bs) -> 0 <= fst tp <= T.
  Proof.
    intros Hin. apply (in_map fst) in Hin. unfold tagged in Hin. rewrite tagged_fst in Hin. apply in_concat in Hin.
    destruct Hin as (b & Hb & Ht). eapply HTm; eauto.
  Qed.

  Lemma curve_T x : exists pi cv, computeConstantWaypoints pData T = Ok pi /\
    computeBezierCurve (flag_of pData) T pi x = Ok cv /\ com_curve pData T x = Ok cv /\ bc_T cv = T.
  Proof.
    destruct WP as (Hf & Hcap & _). destruct (com_curve_total pData T x Hf Hcap T_pos) as [cv Hcv].
    destruct (boundary_ok pData T x cv Hf Hcv) as [HTc _].
    unfold com_curve in Hcv. destruct (computeConstantWaypoints pData T) as [pi| |] eqn:E; try discriminate.
    exists pi, cv. unfold com_curve. rewrite E. auto.
  Qed.

  Lemma ws_eq ws : computeWwaypoints pData T = Ok ws ->
    computeDiscretizedWwaypoints pData T (tagged bs) = Ok (concat (map (map (wf_t ws)) bs)).
  Proof.
    intros E. unfold computeDiscretizedWwaypoints. rewrite E. cbn [bind].
    rewrite (mapM_ok _ (fun tp => wf_t ws (fst tp))).
    - f_equal. rewrite <- map_map with (f := fst). unfold tagged. rewrite tagged_fst. apply concat_map.
    - intros tp Hin. destruct (norm_time _ (times_in tp Hin)) as [-> Hu]. unfold wf_t.
      destruct (w_at ws (fst tp / T) Hu) as (r & -> & _). reflexivity.
  Qed.
  Lemma wf_t_ev ws t x : 0 <= t <= T -> ev_w6 (wf_t ws t) x = curve6 (map (fun w => ev_w6 w x) ws) T t.
  Proof.
    intros Ht. destruct (norm_time t Ht) as [_ Hu]. unfold wf_t.
    destruct (w_at ws (t / T) Hu) as (r & -> & Hr). cbn [okd]. rewrite Hr. unfold curve6, curve.
    rewrite !map_map. reflexivity.
  Qed.
  Lemma cs_eq pi : computeConstantWaypoints pData T = Ok pi ->
    computeDiscretizedWaypoints pData T (tagged bs) = Ok (concat (map (map (cof pi)) bs)).
  Proof.
    intros E. unfold computeDiscretizedWaypoints. rewrite E. cbn [bind].
    rewrite (mapM_ok _ (fun tp => cof pi (fst tp))).
    - f_equal. rewrite <- map_map with (f := fst). unfold tagged. rewrite tagged_fst. apply concat_map.
    - intros tp Hin. destruct (norm_time _ (times_in tp Hin)) as [-> Hu]. unfold cof.
      destruct (curve_T vzero) as (pi' & cv & E' & Hb & _). rewrite E in E'. injection E' as <-.
      destruct WP as (Hf & _). destruct (c02_ok pData T vzero pi cv (fst tp / T) Hf E Hb) as (co & -> & _). reflexivity.
  Qed.
  Lemma cof_ev pi cv t x : computeConstantWaypoints pData T = Ok pi -> com_curve pData T x = Ok cv ->
    ev_coefs (cof pi t) x = cv_fun cv t.
  Proof.
    intros E Hcv. unfold com_curve in Hcv. rewrite E in Hcv. cbn [bind] in Hcv.
    destruct WP as (Hf & _). destruct (c02_ok pData T x pi cv (t / T) Hf E Hcv) as (co & Hco & Hev).
    unfold cof. rewrite Hco. cbn [okd]. rewrite Hev. f_equal. pose proof T_pos. field. lra.
  Qed.
  Lemma as_eq pi : computeConstantWaypoints pData T = Ok pi ->
    computeDiscretizedAccelerationWaypoints pData T (tagged bs) = Ok (map (aof pi) (concat bs)).
  Proof.
    intros E. unfold computeDiscretizedAccelerationWaypoints. rewrite E. cbn [bind].
    rewrite (mapM_ok _ (fun tp => aof pi (fst tp))).
    - f_equal. rewrite <- map_map with (f := fst). unfold tagged. rewrite tagged_fst. reflexivity.
    - intros tp Hin. destruct (norm_time _ (times_in tp Hin)) as [-> Hu]. unfold aof.
      destruct (curve_T vzero) as (pi' & cv & E' & Hb & _). rewrite E in E'. injection E' as <-.
      destruct WP as (Hf & _). destruct (c03_ok pData T vzero pi cv (fst tp / T) Hf E Hb) as (co & -> & _). reflexivity.
  Qed.
  Lemma aof_ev pi cv t x : computeConstantWaypoints pData T = Ok pi -> com_curve pData T x = Ok cv ->
    is_deriv_n 2 (cv_fun cv) t (ev_coefs (aof pi t) x).
  Proof.
    intros E Hcv. unfold com_curve in Hcv. rewrite E in Hcv. cbn [bind] in Hcv.
    destruct WP as (Hf & _). destruct (c03_ok pData T x pi cv (t / T) Hf E Hcv) as (co & Hco & Hev).
    unfold aof. rewrite Hco. cbn [okd]. pose proof T_pos.
    replace (t / T * T) with t in Hev by (field; lra). exact Hev.
  Qed.

  Definition krows (c : contact) (co : coefs) : list (vec3 * R) := okd [] (kin_rows (kin_row co) (cd_Kin c) (cd_kin c)).
  Lemma wf_in c : In c (contacts pData) -> contact_wf c.
  Proof. destruct WP as (_ & _ & _ & _ & _ & HF). rewrite Forall_forall in HF. apply HF. Qed.
  Lemma krows_eq c co : In c (contacts pData) -> kin_rows (kin_row co) (cd_Kin c) (cd_kin c) = Ok (krows c co).
  Proof.
    intros Hin. destruct (wf_in c Hin) as (ph & _ & _ & _ & HL). unfold krows.
    destruct (kin_rows_ex (kin_row co) _ _ HL) as [l ->]. reflexivity.
  Qed.
  Lemma krows_sat c co x : In c (contacts pData) -> (sat (krows c co) x <-> kin_ok c (ev_coefs co x)).
  Proof. intros Hin. apply kin_rows_sat, krows_eq, Hin. Qed.
  Lemma mh_eq c : In c (contacts pData) -> updateH pData c = Ok (mh pData c).
  Proof. intros Hin. unfold mh. rewrite (updateH_ok pData c (wf_in c Hin)). reflexivity. Qed.
  Lemma php_eq c : In c (contacts pData) -> cd_phase c = Some (php c).
  Proof. intros Hin. destruct (wf_in c Hin) as (ph & E & _). unfold php. rewrite E. reflexivity. Qed.
  Lemma mh_len c : In c (contacts pData) -> length (mh pData c) = length (cp_poly (php c)).
  Proof. intros Hin. unfold mh. rewrite (updateH_ok pData c (wf_in c Hin)). cbn [okd]. apply map_length. Qed.

  Definition n_acc : nat := if k_constraintAcceleration (constr pData) then (6 * length (concat bs))%nat else 0%nat.

  Section Filled.
    Variable ws : list wp6.
    Variable pi : list vec3.
    Variable g0 : vec3.
    Hypothesis Ews : computeWwaypoints pData T = Ok ws.
    Hypothesis Epi : computeConstantWaypoints pData T = Ok pi.
    Hypothesis Eg : front_gravity pData = Ok g0.

    Definition all_stab := rows_of (fun c t => srows g0 (mh pData c) (wf_t ws t))
                                   (fun c t => srows (cp_gravity (php c)) (mh pData c) (wf_t ws t)) (contacts pData) bs.
    Definition all_kin := rows_of (fun c t => krows c (cof pi t)) (fun c t => krows c (cof pi t)) (contacts pData) bs.
    Definition all_acc := if k_constraintAcceleration (constr pData)
      then flat_map (fun t => acc_rows (mscal (fst (aof pi t)) mid) (snd (aof pi t)) (k_maxAcceleration (constr pData))) (concat bs)
      else [].

    Lemma HLc : length (contacts pData) = length bs.
    Proof. destruct WP as (_ & _ & _ & _ & HL & _). congruence. Qed.
    Lemma bs_ne : bs <> [].
    Proof. destruct WP as (_ & _ & Hne & _). intros ->. destruct Ts; [congruence|discriminate]. Qed.

    Lemma filled : exists n,
      (sw <- stepIdPerPhase (tagged bs) ;; computeNumIneq pData Ts sw) = Ok (Z.of_nat n) /\
      n = (length all_stab + length all_kin + length all_acc)%nat /\
      n = (count_rows (fun c => (length (cp_poly (php c)) + length (cd_kin c))%nat) true (contacts pData) bs + n_acc)%nat /\
      constraintsOneStep_raw pData Ts T (tagged bs) = Ok (n, map some_row (all_stab ++ all_kin ++ all_acc)) /\
      computeConstraintsOneStep pData Ts T (tagged bs) = Ok (all_stab ++ all_kin ++ all_acc).
    Proof.
      set (rows := all_stab ++ all_kin ++ all_acc).
      assert (HLs : length all_stab = count_rows (fun c => length (cp_poly (php c))) true (contacts pData) bs).
      { apply rows_of_len; try apply HLc; try exact HNe; intros c a Hin; rewrite srows_len; apply mh_len, Hin. }
      assert (HLk : length all_kin = count_rows (fun c => length (cd_kin c)) true (contacts pData) bs).
      { apply rows_of_len; try apply HLc; try exact HNe; intros c a Hin;
          exact (kin_rows_len _ _ _ _ (krows_eq c _ Hin)). }
      assert (HLa : length all_acc = n_acc).
      { unfold all_acc, n_acc. destruct (k_constraintAcceleration (constr pData)); [|reflexivity].
        rewrite (flat_map_len _ 6); [reflexivity|]. intros; reflexivity. }
      assert (Hnum : computeNumIneq pData Ts (ends 0 bs) = Ok (Z.of_nat (length rows))).
      { unfold computeNumIneq. rewrite <- HLbs.
        assert (HFp : Forall (fun c => cd_phase c <> None) (contacts pData)).
        { apply Forall_forall. intros c Hin. rewrite (php_eq c Hin). discriminate. }
        pose proof (num_ineq_loop_ok pData bs (contacts pData) [] [] 0 0 0 HLc eq_refl HFp eq_refl) as Hn.
        cbn [app length Nat.eqb] in Hn. rewrite Hn. cbn [bind].
        pose proof (ends_last_val bs 0 0%Z bs_ne) as Hlast.
        assert (Hm : (match ends 0 bs with [] => UB | _ => Ok (last (ends 0 bs) 0%Z) end) = Ok (last (ends 0 bs) 0%Z)).
        { pose proof bs_ne. destruct bs; [congruence|reflexivity]. }
        rewrite Hm, Hlast. cbn [bind fst snd]. f_equal.
        assert (Hsame : count_rows (fun c => match cd_phase c with Some ph => length (cp_poly ph) | None => 0%nat end) true (contacts pData) bs
           = count_rows (fun c => length (cp_poly (php c))) true (contacts pData) bs).
        { assert (G : forall f l (m : list (list R)), (forall c, In c l -> cd_phase c = Some (php c)) ->
             count_rows (fun c => match cd_phase c with Some ph => length (cp_poly ph) | None => 0%nat end) f l m
             = count_rows (fun c => length (cp_poly (php c))) f l m).
          { intros f l; revert f; induction l as [|c l IH]; intros f [|m ms] Hc; try reflexivity. cbn [count_rows].
            rewrite (Hc c) by (left; reflexivity). rewrite IH; [reflexivity|]. intros; apply Hc; right; assumption. }
          apply G. apply php_eq. }
        rewrite Hsame. unfold rows. rewrite !app_length, HLs, HLk, HLa. unfold n_acc.
        destruct (k_constraintAcceleration (constr pData)); lia. }
      exists (length rows).
      assert (Hraw : constraintsOneStep_raw pData Ts T (tagged bs) = Ok (length rows, map some_row rows)).
      { unfold constraintsOneStep_raw. rewrite (stepIdPerPhase_tagged bs HNe bs_ne). cbn [bind]. rewrite Hnum. cbn [bind].
        destruct (Z.ltb_spec (Z.of_nat (length rows)) 0); [lia|]. rewrite Nat2Z.id.
        set (st0 := (0%nat, repeat (vzero, None) (length rows)) : st_rows).
        assert (Hfit : fits st0 (length all_stab + (length all_kin + length all_acc))).
        { unfold fits, st0; cbn [fst snd]. rewrite repeat_length. unfold rows. rewrite !app_length. lia. }
        (* stability *)
        unfold assignStabilityConstraints. rewrite (ws_eq ws Ews). cbn [bind].
        destruct (contacts pData) as [|c0' conts] eqn:Ec.
        { exfalso. pose proof HLc as H'. rewrite Ec in H'. pose proof bs_ne. destruct bs; [congruence|discriminate]. }
        cbn [get nth_error bind].
        assert (Hin0 : In c0' (contacts pData)) by (rewrite Ec; left; reflexivity).
        assert (Hg0 : cp_gravity (php c0') = g0).
        { unfold front_gravity in Eg. rewrite Ec in Eg. cbn [get nth_error bind] in Eg. rewrite (php_eq _ Hin0) in Eg.
          cbn in Eg. congruence. }
        rewrite (php_eq _ Hin0). cbn [deref bind]. rewrite Hg0. rewrite (mh_eq _ Hin0). cbn [bind].
        assert (Hst : all_stab = rows_of (fun c => srows g0 (mh pData c))
            (fun c => srows (cp_gravity (php c)) (mh pData c)) (contacts pData) (map (map (wf_t ws)) bs)).
        { unfold all_stab. rewrite rows_of_map. reflexivity. }
        destruct (stab_loop_ok pData g0 (mh pData) php srows (fun g m w => srows_eq g m w) mh_eq php_eq
            (map (map (wf_t ws)) bs) (contacts pData) [] [] 0 st0) as (i & m & Hrun).
        { rewrite map_length. apply HLc. }
        { pose proof bs_ne. destruct bs; [congruence|discriminate]. }
        { rewrite Forall_map. eapply Forall_impl; [|exact HNe]. intros b Hb E. apply Hb. destruct b; [reflexivity|discriminate]. }
        { reflexivity. } { intros z []. }
        { rewrite <- Hst. unfold fits in *. lia. }
        rewrite <- Hst in Hrun. rewrite Ec in Hrun. cbn [hd length app] in Hrun. rewrite ends_map in Hrun.
        rewrite Hrun. cbn [bind snd].
        set (st1 := put st0 all_stab).
        assert (Hfit1 : fits st1 (length all_kin + length all_acc)).
        { apply put_fits; [unfold fits in *; lia|exact Hfit]. }
        (* kinematics *)
        unfold assignKinematicConstraints. rewrite (cs_eq pi Epi). cbn [bind].
        assert (Hkt : all_kin = rows_of krows krows (contacts pData) (map (map (cof pi)) bs)).
        { unfold all_kin. rewrite rows_of_map. reflexivity. }
        destruct (kin_loop_ok pData krows krows_eq (map (map (cof pi)) bs) (contacts pData) [] [] 0 st1) as (i2 & Hrun2).
        { rewrite map_length. apply HLc. }
        { pose proof bs_ne. destruct bs; [congruence|discriminate]. }
        { rewrite Forall_map. eapply Forall_impl; [|exact HNe]. intros b Hb E. apply Hb. destruct b; [reflexivity|discriminate]. }
        { reflexivity. } { intros z []. } { reflexivity. }
        { rewrite <- Hkt. unfold fits in *. lia. }
        rewrite <- Hkt in Hrun2. cbn [length app] in Hrun2. rewrite ends_map in Hrun2. rewrite Hrun2. cbn [bind snd].
        set (st2 := put st1 all_kin).
        assert (Hfit2 : fits st2 (length all_acc)).
        { apply put_fits; [unfold fits in *; lia|exact Hfit1]. }
        assert (Hend : assignAccelerationConstraints pData (tagged bs) T st2 = Ok (put st2 all_acc)).
        { unfold assignAccelerationConstraints, all_acc in *. destruct (k_constraintAcceleration (constr pData)).
          - rewrite (as_eq pi Epi). cbn [bind].
            assert (Efm : flat_map (fun co => acc_rows (mscal (fst co) mid) (snd co) (k_maxAcceleration (constr pData))) (map (aof pi) (concat bs))
               = flat_map (fun t => acc_rows (mscal (fst (aof pi t)) mid) (snd (aof pi t)) (k_maxAcceleration (constr pData))) (concat bs)).
            { clear. induction (concat bs) as [|t l IH]; cbn [flat_map map]; [reflexivity|]. rewrite IH. reflexivity. }
            rewrite acc_loop_ok; rewrite Efm; [reflexivity|exact Hfit2].
          - rewrite put_nil; [reflexivity|exact Hfit2]. }
        rewrite Hend. unfold st2. rewrite put_put by exact Hfit1. unfold st1.
        rewrite put_put by (rewrite app_length; exact Hfit). unfold st0. fold rows. rewrite put_full. reflexivity. }
      split; [rewrite (stepIdPerPhase_tagged bs HNe bs_ne); exact Hnum|].
      split; [unfold rows; rewrite !app_length; lia|].
      split; [unfold rows; rewrite !app_length, HLs, HLk, HLa, <- count_split; lia|].
      split; [exact Hraw|]. unfold computeConstraintsOneStep. rewrite Hraw. cbn [bind snd]. apply read_back.
    Qed.
  End Filled.
End Main.
