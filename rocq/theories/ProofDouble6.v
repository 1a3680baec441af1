(** Double arithmetic: the constraints at rounded times. *)
From Flocq Require Import Core BinarySingleNaN.
From Verif Require Import Vec SpecBezier SpecTime ModelData ModelDispatch ModelUtils ModelRows ModelCom SpecCom SpecCtr ProofCom2 ProofCom3
  Double ModelDouble SpecDouble ProofDouble ProofDouble2 ProofDouble3 ProofDouble4.
Open Scope R_scope.

(** only the number of durations matters *)
Lemma one_step_len pData Ts Ts' T ta : length Ts = length Ts' ->
  computeConstraintsOneStep pData Ts T ta = computeConstraintsOneStep pData Ts' T ta.
Proof. intro E. unfold computeConstraintsOneStep, constraintsOneStep_raw, computeNumIneq. rewrite E. reflexivity. Qed.

Lemma total_repeat a n : total (repeat a n) = INR n * a.
Proof. induction n as [|n IH]; [cbn; ring|]. cbn [repeat total]. rewrite IH, S_INR. ring. Qed.

Lemma tagged_eval (h : f64 -> R) : forall bs z, map (fun a : f64 * Z => (h (fst a), snd a)) (tagged_f z bs) = tagged_from z (map (map h) bs).
Proof.
  induction bs as [|b bs IH]; intro z; [reflexivity|]. cbn [tagged_f map tagged_from]. rewrite map_app, !map_map, IH. reflexivity.
Qed.

Lemma eval_in (T t : f64) : posf T -> is_finite t = true -> 0 <= B2R t -> 0 <= eval_time T t <= B2R T.
Proof.
  intros [FT PT] Ft Pt. destruct (unit_time_ok T t FT Ft PT Pt) as [F A]. unfold eval_time.
  unfold bern_accepts in A. apply andb_prop in A. destruct A as [A1 A2].
  apply (fle_val f0 _ eq_refl F) in A1. apply (fle_val _ f1 F eq_refl) in A2. rewrite f0_val in A1. rewrite f1_val in A2. split; nra.
Qed.

(** the sample and the time of evaluation *)
Lemma tiny_half x : 0 <= x -> Rabs (rnd x - x) <= u53 * x + / IZR (2 ^ 1074).
Proof.
  intro X0. assert (P : 0 < / IZR (2 ^ 1074)) by (apply Rinv_0_lt_compat, IZR_lt; reflexivity).
  destruct (Rle_or_lt (/ IZR (2 ^ 1022)) x) as [L|L].
  - pose proof (rel_err x) as R. rewrite (Rabs_pos_eq x) in R by exact X0. specialize (R L). lra.
  - assert (U : ulp radix2 (FLT_exp (-1074) 53) x = bpow radix2 (-1074)).
    { apply ulp_FLT_small; [reflexivity|]. rewrite Rabs_pos_eq by exact X0. eapply Rlt_le_trans; [exact L|].
      change (-1074 + 53)%Z with (-(1021))%Z. rewrite bpow_opp. apply Rinv_le_contravar; [apply bpow_gt_0|].
      change (bpow radix2 1021) with (IZR (2 ^ 1021)). apply IZR_le. discriminate. }
    pose proof (error_le_half_ulp radix2 (FLT_exp (-1074) 53) (fun x => negb (Z.even x)) x) as E. rewrite U in E.
    assert (B : bpow radix2 (-1074) = / IZR (2 ^ 1074)) by (change (-1074)%Z with (-(1074))%Z; rewrite bpow_opp; reflexivity).
    rewrite B in E. pose proof u53_pos. assert (0 <= u53 * x) by (apply Rmult_le_pos; lra). lra.
Qed.

Lemma eval_near (T t : f64) : posf T -> is_finite t = true -> 0 <= B2R t ->
  (B2R T <= B2R t -> eval_time T t = B2R T) /\
  (B2R t <= B2R T -> Rabs (eval_time T t - B2R t) <= u53 * B2R t + / IZR (2 ^ 1074) * B2R T).
Proof.
  intros [FT PT] Ft Pt. set (q := B2R t / B2R T).
  assert (Q0 : 0 <= q) by (apply Rmult_le_pos; [exact Pt|apply Rlt_le, Rinv_0_lt_compat, PT]).
  assert (QT : q * B2R T = B2R t) by (unfold q; field; lra).
  assert (F1 : fmt 1) by (apply (fmt_Z 1); lia).
  assert (Big : 1 <= q -> unit_time T t = f1 \/ B2R (unit_time T t) = 1).
  { intro Q1. unfold unit_time, fmin. destruct (flt f1 (fdiv t T)) eqn:L; [left; reflexivity|]. right.
    assert (R1 : 1 <= rnd q) by (rewrite <- (rnd_fmt 1 F1); apply rnd_le, Q1).
    destruct (Rlt_or_le (Rabs (rnd q)) (bpow radix2 1024)) as [M|M].
    - destruct (fdiv_fin t T Ft ltac:(lra) M) as [F V]. fold q in V. rewrite V. apply Rle_antisym; [|exact R1].
      apply Rnot_lt_le. intro K. rewrite <- V, <- f1_val in K. apply (flt_val f1 _ eq_refl F) in K. congruence.
    - exfalso. destruct (unit_time_ok T t FT Ft PT Pt) as [F _]. unfold unit_time, fmin in F. rewrite L in F.
      rewrite (fdiv_over t T) in F; [discriminate|lra|exact M]. }
  split.
  - intro H. assert (Q1 : 1 <= q) by (unfold q; apply Rmult_le_reg_r with (B2R T); [exact PT|]; fold q; rewrite QT; lra).
    unfold eval_time. destruct (Big Q1) as [E|E]; rewrite E; rewrite ?f1_val; ring.
  - intro H. assert (Q1 : q <= 1) by (apply Rmult_le_reg_r with (B2R T); [exact PT|]; rewrite QT; lra).
    assert (R1 : rnd q <= 1) by (rewrite <- (rnd_fmt 1 F1); apply rnd_le, Q1).
    destruct (fdiv_fin t T Ft ltac:(lra)) as [F V].
    { fold q. rewrite Rabs_pos_eq by (apply rnd_ge0, Q0). eapply Rle_lt_trans; [exact R1|]. rewrite big. apply IZR_lt. reflexivity. }
    fold q in V. assert (E : B2R (unit_time T t) = rnd q).
    { unfold unit_time, fmin. destruct (flt f1 (fdiv t T)) eqn:L; [|exact V]. apply (flt_val f1 _ eq_refl F) in L. rewrite f1_val, V in L. lra. }
    unfold eval_time. rewrite E. replace (rnd q * B2R T - B2R t) with ((rnd q - q) * B2R T) by (rewrite <- QT; ring).
    rewrite Rabs_mult, (Rabs_pos_eq (B2R T)) by lra. pose proof (tiny_half q Q0) as K.
    apply (Rmult_le_compat_r (B2R T)) in K; [|lra]. eapply Rle_trans; [exact K|]. rewrite <- QT. lra.
Qed.

Section Rows.
Variable pData : problem.
Variable Ts : list f64.
Variable T : f64.
Variable bs : list (list f64).
Hypothesis WP : well_posed pData (map (fun d : f64 => B2R d) Ts).
Hypothesis HT : posf T.
Hypothesis HL : length bs = length Ts.
Hypothesis HN : Forall (fun b => b <> []) bs.
Hypothesis HF : forall b t, In b bs -> In t b -> is_finite t = true /\ 0 <= B2R t.

Let n := length Ts.
Let Ts' := repeat (B2R T / INR n) n.
Let rs := map (map (eval_time T)) bs.

Lemma n_pos' : (1 <= n)%nat.
Proof. destruct WP as (_ & _ & H & _). unfold n. destruct Ts; [elim H; reflexivity|cbn; lia]. Qed.
Lemma Ts'_total : total Ts' = B2R T.
Proof. unfold Ts'. rewrite total_repeat. field. apply not_0_INR. pose proof n_pos'. lia. Qed.
Lemma Ts'_wp : well_posed pData Ts'.
Proof.
  destruct WP as (A & B & _ & _ & C & D). pose proof n_pos' as N. split; [exact A|]. split; [exact B|]. split; [|split; [|split; [|exact D]]].
  - unfold Ts'. destruct n; [lia|discriminate].
  - apply Forall_forall. intros x Hx. apply repeat_spec in Hx. subst x. apply Rdiv_lt_0_compat; [apply HT|]. apply lt_0_INR. lia.
  - unfold Ts'. rewrite repeat_length, C, map_length. reflexivity.
Qed.
Lemma rs_in b t : In b rs -> In t b -> 0 <= t <= total Ts'.
Proof.
  intros Hb Ht. unfold rs in Hb. apply in_map_iff in Hb. destruct Hb as (b0 & <- & Hb). apply in_map_iff in Ht. destruct Ht as (t0 & <- & Ht).
  rewrite Ts'_total. destruct (HF b0 t0 Hb Ht) as [F P]. exact (eval_in T t0 HT F P).
Qed.
Lemma rs_ne : Forall (fun b => b <> []) rs.
Proof. unfold rs. rewrite Forall_map. eapply Forall_impl; [|exact HN]. intros b H E. destruct b; [congruence|discriminate E]. Qed.
Lemma rs_len : length rs = length Ts'.
Proof. unfold rs, Ts'. rewrite map_length, repeat_length. exact HL. Qed.

(** a sample of a phase: in its list, or the last of the phase before *)
Definition sample_of (i : nat) (t : f64) : Prop :=
  (exists b, nth_error bs i = Some b /\ In t b) \/ (exists i' b', i = S i' /\ nth_error bs i' = Some (b' ++ [t])).

Lemma sample_real i t : (in_block rs i t \/ at_switch rs i t) <-> exists t0, sample_of i t0 /\ t = eval_time T t0.
Proof.
  unfold rs, in_block, at_switch, sample_of. split.
  - intros [(b & E & H)|(i' & b & b' & -> & E & ->)].
    + rewrite nth_error_map in E. destruct (nth_error bs i) as [b0|]; [|discriminate E]. injection E as <-.
      apply in_map_iff in H. destruct H as (t0 & <- & H). exists t0. split; [left; eauto|reflexivity].
    + rewrite nth_error_map in E. destruct (nth_error bs i') as [b0|] eqn:E0; [|discriminate E]. cbn [option_map] in E.
      assert (E1 : map (eval_time T) b0 = b' ++ [t]) by congruence.
      destruct (exists_last (l := b0)) as (b1 & t0 & ->); [intros ->; destruct b'; discriminate E1|].
      rewrite map_app in E1. apply app_inj_tail in E1. destruct E1 as [_ E1]. exists t0. split; [|symmetry; exact E1]. right. exists i', b1. auto.
  - intros (t0 & [(b & E & H)|(i' & b' & -> & E)] & ->).
    + left. exists (map (eval_time T) b). rewrite nth_error_map, E. split; [reflexivity|apply in_map, H].
    + right. exists i', (map (eval_time T) (b' ++ [t0])), (map (eval_time T) b'). split; [reflexivity|]. rewrite nth_error_map, E. split; [reflexivity|].
      rewrite map_app. reflexivity.
Qed.

Lemma rows_exact g : same_gravity pData g -> In (flag_of pData) exact_w_flags -> exists rows,
  constraints_f pData Ts T (tagged_f 0 bs) = Ok rows /\
  forall x cv, com_curve pData (B2R T) x = Ok cv ->
    (sat rows x <-> forall i c t, nth_error (contacts pData) i = Some c -> sample_of i t ->
       contact_ok pData 0 c (cv_fun cv) (eval_time T t) /\ accel_ok pData (cv_fun cv) (eval_time T t)).
Proof.
  intros Hg Hf.
  destruct (block_exact pData Ts' rs Ts'_wp rs_len rs_ne rs_in (fun i t => in_block rs i t \/ at_switch rs i t) (fun i t _ => iff_refl _) g Hg Hf) as (rows & E & H).
  rewrite Ts'_total in E, H. exists rows. split.
  - unfold constraints_f. rewrite (tagged_eval (eval_time T)). fold rs.
    rewrite (one_step_len pData _ Ts'); [exact E|]. unfold Ts'. rewrite map_length, repeat_length. reflexivity.
  - intros x cv Hcv. rewrite (H x cv Hcv). unfold all_ok. split.
    + intros A i c t Hc Ht. apply (A i c (eval_time T t) Hc). apply sample_real. eauto.
    + intros A i c t Hc Ht. apply sample_real in Ht. destruct Ht as (t0 & Ht & ->). apply (A i c t0 Hc Ht).
Qed.
Lemma rows_dec g G : same_gravity pData g -> within G g -> In (flag_of pData) dec_w_flags -> exists rows,
  constraints_f pData Ts T (tagged_f 0 bs) = Ok rows /\
  forall x cv M, com_curve pData (B2R T) x = Ok cv -> Forall (within M) (bc_pts cv) ->
    let sl := 3 * (err_force M (B2R T) + err_moment G M (B2R T)) in
    (sat rows x -> forall i c t, nth_error (contacts pData) i = Some c -> sample_of i t ->
       contact_ok pData sl c (cv_fun cv) (eval_time T t) /\ accel_ok pData (cv_fun cv) (eval_time T t)) /\
    ((forall i c t, nth_error (contacts pData) i = Some c -> sample_of i t ->
       contact_ok pData (- sl) c (cv_fun cv) (eval_time T t) /\ accel_ok pData (cv_fun cv) (eval_time T t)) -> sat rows x).
Proof.
  intros Hg HG Hf.
  destruct (block_dec pData Ts' rs Ts'_wp rs_len rs_ne rs_in (fun i t => in_block rs i t \/ at_switch rs i t) (fun i t _ => iff_refl _) g G Hg HG Hf) as (rows & E & H).
  rewrite Ts'_total in E, H. exists rows. split.
  - unfold constraints_f. rewrite (tagged_eval (eval_time T)). fold rs.
    rewrite (one_step_len pData _ Ts'); [exact E|]. unfold Ts'. rewrite map_length, repeat_length. reflexivity.
  - intros x cv M Hcv HM. destruct (H x cv M Hcv HM) as [H1 H2]. split.
    + intros A i c t Hc Ht. apply (H1 A i c (eval_time T t) Hc). apply sample_real. eauto.
    + intros A. apply H2. intros i c t Hc Ht. apply sample_real in Ht. destruct Ht as (t0 & Ht & ->). apply (A i c t0 Hc Ht).
Qed.
End Rows.
