(** C14, C15, C45, C46, C49. *)
From Verif Require Import Vec SpecBezier SpecTime ModelData ModelDispatch ModelUtils ModelRows ModelCom
  SpecCom SpecCtr ProofBezier ProofCurve ProofWaypoints ProofWaypoints2 ProofWaypointsErr
  ProofTime ProofTime2 ProofRows ProofEmit ProofCom ProofCom2.
Open Scope R_scope.

Lemma wp_ne pData Ts : well_posed pData Ts -> Ts <> []. Proof. intros (_ & _ & H & _); exact H. Qed.
Lemma wp_pos pData Ts : well_posed pData Ts -> Forall (Rlt 0) Ts. Proof. intros (_ & _ & _ & H & _); exact H. Qed.

Lemma rows_needed_ext cs : forall n m i, (forall k, n k = m k) -> rows_needed cs n i = rows_needed cs m i.
Proof. induction cs as [|c cs IH]; intros n m i H; cbn; [reflexivity|]. rewrite H, (IH n m); auto. Qed.

Lemma count_needed (bs : list (list R)) (n : nat -> nat) : forall cs i, length cs = length bs ->
  (forall k b, nth_error bs k = Some b -> (length b + (if Nat.eqb (i + k) 0 then 0 else 1) = n (i + k))%nat) ->
  (forall c, In c cs -> cd_phase c = Some (php c)) ->
  count_rows (fun c => (length (cp_poly (php c)) + length (cd_kin c))%nat) (Nat.eqb i 0) cs bs = rows_needed cs n i.
Proof.
  induction bs as [|b bs IH]; intros [|c cs] i HL H HP; try discriminate; [reflexivity|].
  cbn [count_rows rows_needed]. rewrite (HP c) by (left; reflexivity).
  pose proof (H 0%nat b eq_refl) as H0. rewrite Nat.add_0_r in H0. rewrite H0. f_equal.
  rewrite <- (IH cs (S i)); [reflexivity|cbn in HL; lia| |intros; apply HP; right; assumption].
  intros k b' Hb'. specialize (H (S k) b' Hb'). rewrite Nat.add_succ_r in H. exact H.
Qed.

Lemma front_ex pData Ts : well_posed pData Ts -> exists g0, front_gravity pData = Ok g0.
Proof.
  intros (_ & _ & Hne & _ & HL & HF). unfold front_gravity.
  destruct (contacts pData) as [|c l]; [destruct Ts; [congruence|discriminate]|].
  cbn. inversion HF as [|? ? (ph & E & _) _]; subst. rewrite E. eexists; reflexivity.
Qed.

(** C14 *)
Lemma c14_fixed pData Ts p : well_posed pData Ts -> (1 <= p)%nat -> exists n rows,
  n = (rows_needed (contacts pData) (fun _ => S p) 0 + acc_needed pData (length Ts * p + 1))%nat /\
  length rows = n /\
  constraintsOneStep_raw pData Ts (total Ts) (computeDiscretizedTimeFixed Ts p) =
    Ok (n, map (fun rb => (fst rb, Some (snd rb))) rows) /\
  computeConstraintsOneStep pData Ts (total Ts) (computeDiscretizedTimeFixed Ts p) = Ok rows.
Proof.
  intros WP Hp. pose proof (wp_ne _ _ WP) as Hne. pose proof (wp_pos _ _ WP) as HF.
  pose proof (fixed_tagged Ts p Hp Hne) as Et.
  destruct (front_ex pData Ts WP) as [g0 Eg]. pose proof WP as (Hfc & Hcap & _ & _ & HLc & _).
  destruct (ws_ex pData (total Ts) g0 Hfc Hcap (T_pos pData Ts WP) Eg) as [ws Ews].
  destruct (meaning pData Ts (fixed_bs Ts p) WP (fixed_bs_len Ts p) (fixed_bs_ne Ts p Hp)
    (fixed_times Ts p Hp HF) g0 ws Eg Ews) as (n & rows & _ & H2 & H3 & H4 & H5 & _).
  exists n, rows. rewrite Et. split; [|split; [exact H2|split; [exact H4|exact H5]]].
  rewrite H3. f_equal.
  - apply (count_needed (fixed_bs Ts p) (fun _ => S p) (contacts pData) 0).
    + rewrite fixed_bs_len. exact HLc.
    + intros k b Hb. cbn [Nat.add]. destruct (nth_ex _ Ts k b (fixed_bs_len Ts p) Hb) as [d Hd].
      rewrite (fixed_bs_nth Ts p k d Hd) in Hb. injection Hb as <-. rewrite app_length, frac_len.
      destruct (Nat.eqb k 0); cbn; lia.
    + intros c Hin. apply (php_eq pData Ts WP c Hin).
  - unfold n_acc, acc_needed. destruct (k_constraintAcceleration (constr pData)); [|reflexivity]. f_equal.
    destruct (c10_ok Ts p Hp Hne) as (HL & _). rewrite Et in HL. rewrite <- HL.
    rewrite <- (map_length fst). unfold tagged. rewrite tagged_fst. reflexivity.
Qed.

Lemma sum_lens Ts dt bs : length bs = length Ts -> step_bs_spec Ts dt bs -> exists ns,
  length ns = length Ts /\ (forall i k, nth_error ns i = Some k -> steps_to (phase_start Ts i) (phase_end Ts i) dt k) /\
  map (@length R) bs = map S ns.
Proof.
  intros HL HS.
  assert (G : forall (bs : list (list R)) off, (forall i b, nth_error bs i = Some b -> exists n,
      steps_to (phase_start Ts (off + i)) (phase_end Ts (off + i)) dt n /\
      b = step_samples (phase_start Ts (off + i)) (phase_end Ts (off + i)) dt n) -> exists ns,
    length ns = length bs /\ (forall i k, nth_error ns i = Some k -> steps_to (phase_start Ts (off + i)) (phase_end Ts (off + i)) dt k) /\
    map (@length R) bs = map S ns).
  { clear. induction bs as [|b bs IH]; intros off H.
    - exists []. split; [reflexivity|]. split; [|reflexivity]. intros [|i] k Hk; discriminate.
    - destruct (H 0%nat b eq_refl) as (n & Hn & Eb). rewrite Nat.add_0_r in Hn, Eb.
      destruct (IH (S off)) as (ns & A & B & C).
      { intros i b' Hb'. specialize (H (S i) b' Hb'). rewrite Nat.add_succ_r in H. exact H. }
      exists (n :: ns). split; [cbn; lia|]. split.
      + intros [|i] k Hk; [injection Hk as <-; rewrite Nat.add_0_r; exact Hn|].
        rewrite Nat.add_succ_r. exact (B i k Hk).
      + cbn [map]. rewrite C. f_equal. rewrite Eb. unfold step_samples. rewrite app_length, map_length, seq_length. cbn. lia. }
  destruct (G bs 0%nat HS) as (ns & A & B & C). exists ns. split; [lia|]. split; [exact B|exact C].
Qed.

Fixpoint sum_nat (l : list nat) : nat := match l with [] => 0 | a :: l' => (a + sum_nat l')%nat end.
Lemma concat_len (bs : list (list R)) : length (concat bs) = sum_nat (map (@length R) bs).
Proof. induction bs as [|b bs IH]; cbn; [reflexivity|]. rewrite app_length, IH. reflexivity. Qed.

Lemma c14_step pData Ts dt : well_posed pData Ts -> 0 < dt -> exists ta ns n rows,
  computeDiscretizedTime Ts dt = Ok ta /\
  length ns = length Ts /\
  (forall i k, nth_error ns i = Some k -> steps_to (phase_start Ts i) (phase_end Ts i) dt k) /\
  n = (rows_needed (contacts pData) (fun i => nth i ns 0 + (if Nat.eqb i 0 then 1 else 2)) 0
       + acc_needed pData (fold_right Nat.add 0 (map S ns)))%nat /\
  length rows = n /\
  constraintsOneStep_raw pData Ts (total Ts) ta = Ok (n, map (fun rb => (fst rb, Some (snd rb))) rows) /\
  computeConstraintsOneStep pData Ts (total Ts) ta = Ok rows.
Proof.
  intros WP Hdt. pose proof (wp_ne _ _ WP) as Hne. pose proof (wp_pos _ _ WP) as HF.
  destruct (c11_ok Ts dt Hdt HF) as (bs & Et & HL & Hbs & _).
  destruct (sum_lens Ts dt bs HL Hbs) as (ns & N1 & N2 & N3).
  destruct (front_ex pData Ts WP) as [g0 Eg]. pose proof WP as (Hfc & Hcap & _ & _ & HLc & _).
  destruct (ws_ex pData (total Ts) g0 Hfc Hcap (T_pos pData Ts WP) Eg) as [ws Ews].
  destruct (meaning pData Ts bs WP HL (step_bs_ne Ts dt bs Hbs)
    (step_times Ts dt bs Hdt HF HL Hbs) g0 ws Eg Ews) as (n & rows & _ & H2 & H3 & H4 & H5 & _).
  exists (tagged bs), ns, n, rows. split; [exact Et|]. split; [exact N1|]. split; [exact N2|].
  split; [|split; [exact H2|split; [exact H4|exact H5]]].
  rewrite H3. f_equal.
  - apply (count_needed bs (fun i => nth i ns 0 + (if Nat.eqb i 0 then 1 else 2))%nat (contacts pData) 0).
    + rewrite HL. exact HLc.
    + intros k b Hb. cbn [Nat.add].
      assert (E : nth_error (map (@length R) bs) k = Some (length b)) by (apply map_nth_error, Hb).
      rewrite N3 in E. destruct (nth_error ns k) as [m|] eqn:Em.
      2:{ apply nth_error_None in Em. assert (nth_error (map S ns) k = None) by (apply nth_error_None; rewrite map_length; exact Em). congruence. }
      rewrite (map_nth_error _ _ _ Em) in E. injection E as <-. rewrite (nth_error_nth _ _ 0%nat Em). destruct (Nat.eqb k 0); lia.
    + intros c Hin. apply (php_eq pData Ts WP c Hin).
  - unfold n_acc, acc_needed. destruct (k_constraintAcceleration (constr pData)); [|reflexivity]. f_equal.
    rewrite concat_len, N3. reflexivity.
Qed.

(** C15 *)
Definition ok_all (pData : problem) (smp : nat -> R -> Prop) := all_ok pData smp.

Lemma fixed_smp Ts p : (1 <= p)%nat -> forall i t, (i < length Ts)%nat ->
  (sampled_fixed Ts p i t <-> in_block (fixed_bs Ts p) i t \/ at_switch (fixed_bs Ts p) i t).
Proof. intros Hp i t Hi. apply fixed_sampled; assumption. Qed.

Lemma c15_fixed pData Ts p g : well_posed pData Ts -> (1 <= p)%nat -> same_gravity pData g ->
  In (flag_of pData) exact_w_flags -> exists rows,
  computeConstraintsOneStep pData Ts (total Ts) (computeDiscretizedTimeFixed Ts p) = Ok rows /\
  forall x cv, com_curve pData (total Ts) x = Ok cv ->
    (sat rows x <-> forall i c t, nth_error (contacts pData) i = Some c -> sampled_fixed Ts p i t ->
       contact_ok pData 0 c (cv_fun cv) t /\ accel_ok pData (cv_fun cv) t).
Proof.
  intros WP Hp Hs Hf. rewrite (fixed_tagged Ts p Hp (wp_ne _ _ WP)).
  exact (block_exact pData Ts (fixed_bs Ts p) WP (fixed_bs_len Ts p) (fixed_bs_ne Ts p Hp)
    (fixed_times Ts p Hp (wp_pos _ _ WP)) (sampled_fixed Ts p) (fixed_smp Ts p Hp) g Hs Hf).
Qed.

Lemma c15_step pData Ts dt g : well_posed pData Ts -> 0 < dt -> same_gravity pData g ->
  In (flag_of pData) exact_w_flags -> exists ta rows,
  computeDiscretizedTime Ts dt = Ok ta /\
  computeConstraintsOneStep pData Ts (total Ts) ta = Ok rows /\
  forall x cv, com_curve pData (total Ts) x = Ok cv ->
    (sat rows x <-> forall i c t, nth_error (contacts pData) i = Some c -> sampled_step Ts dt i t ->
       contact_ok pData 0 c (cv_fun cv) t /\ accel_ok pData (cv_fun cv) t).
Proof.
  intros WP Hdt Hs Hf. pose proof (wp_pos _ _ WP) as HF.
  destruct (c11_ok Ts dt Hdt HF) as (bs & Et & HL & Hbs & _). exists (tagged bs).
  destruct (block_exact pData Ts bs WP HL (step_bs_ne Ts dt bs Hbs) (step_times Ts dt bs Hdt HF HL Hbs)
     (sampled_step Ts dt) (fun i t Hi => step_sampled Ts dt bs i t Hdt HF HL Hbs Hi) g Hs Hf) as (rows & H1 & H2).
  exists rows. split; [exact Et|]. split; [exact H1|exact H2].
Qed.

Lemma c15_fixed_dec pData Ts p g G : well_posed pData Ts -> (1 <= p)%nat -> same_gravity pData g -> within G g ->
  In (flag_of pData) dec_w_flags -> exists rows,
  computeConstraintsOneStep pData Ts (total Ts) (computeDiscretizedTimeFixed Ts p) = Ok rows /\
  forall x cv M, com_curve pData (total Ts) x = Ok cv -> Forall (within M) (bc_pts cv) ->
    let sl := 3 * (err_force M (total Ts) + err_moment G M (total Ts)) in
    (sat rows x -> forall i c t, nth_error (contacts pData) i = Some c -> sampled_fixed Ts p i t ->
       contact_ok pData sl c (cv_fun cv) t /\ accel_ok pData (cv_fun cv) t) /\
    ((forall i c t, nth_error (contacts pData) i = Some c -> sampled_fixed Ts p i t ->
       contact_ok pData (- sl) c (cv_fun cv) t /\ accel_ok pData (cv_fun cv) t) -> sat rows x).
Proof.
  intros WP Hp Hs HG Hf. rewrite (fixed_tagged Ts p Hp (wp_ne _ _ WP)).
  exact (block_dec pData Ts (fixed_bs Ts p) WP (fixed_bs_len Ts p) (fixed_bs_ne Ts p Hp)
    (fixed_times Ts p Hp (wp_pos _ _ WP)) (sampled_fixed Ts p) (fixed_smp Ts p Hp) g G Hs HG Hf).
Qed.

Lemma c15_step_dec pData Ts dt g G : well_posed pData Ts -> 0 < dt -> same_gravity pData g -> within G g ->
  In (flag_of pData) dec_w_flags -> exists ta rows,
  computeDiscretizedTime Ts dt = Ok ta /\
  computeConstraintsOneStep pData Ts (total Ts) ta = Ok rows /\
  forall x cv M, com_curve pData (total Ts) x = Ok cv -> Forall (within M) (bc_pts cv) ->
    let sl := 3 * (err_force M (total Ts) + err_moment G M (total Ts)) in
    (sat rows x -> forall i c t, nth_error (contacts pData) i = Some c -> sampled_step Ts dt i t ->
       contact_ok pData sl c (cv_fun cv) t /\ accel_ok pData (cv_fun cv) t) /\
    ((forall i c t, nth_error (contacts pData) i = Some c -> sampled_step Ts dt i t ->
       contact_ok pData (- sl) c (cv_fun cv) t /\ accel_ok pData (cv_fun cv) t) -> sat rows x).
Proof.
  intros WP Hdt Hs HG Hf. pose proof (wp_pos _ _ WP) as HF.
  destruct (c11_ok Ts dt Hdt HF) as (bs & Et & HL & Hbs & _). exists (tagged bs).
  destruct (block_dec pData Ts bs WP HL (step_bs_ne Ts dt bs Hbs) (step_times Ts dt bs Hdt HF HL Hbs)
     (sampled_step Ts dt) (fun i t Hi => step_sampled Ts dt bs i t Hdt HF HL Hbs Hi) g G Hs HG Hf) as (rows & H1 & H2).
  exists rows. split; [exact Et|]. split; [exact H1|exact H2].
Qed.

(** C46: which gravity *)
Lemma fixed_in_block Ts p i t : (1 <= p)%nat -> (i < length Ts)%nat ->
  (in_block (fixed_bs Ts p) i t <-> (i = 0%nat /\ t = 0) \/
     exists j d, (1 <= j <= p)%nat /\ nth_error Ts i = Some d /\ t = phase_start Ts i + INR j / INR p * d).
Proof.
  intros Hp Hi. destruct (nth_error Ts i) as [d|] eqn:Ed; [|apply nth_error_None in Ed; lia].
  pose proof (fixed_bs_nth Ts p i d Ed) as Hb. split.
  - intros (b & Hb' & Ht). rewrite Hb in Hb'. injection Hb' as <-. apply in_app_or in Ht. destruct Ht as [Ht|Ht].
    + left. destruct i; [|contradiction]. destruct Ht as [<-|[]]. auto.
    + right. apply frac_in in Ht. destruct Ht as (j & Hj & ->). exists j, d. auto.
  - intros H. eexists. split; [exact Hb|]. apply in_or_app. destruct H as [[-> ->]|(j & d' & Hj & Hd & ->)].
    + left. left. reflexivity.
    + injection Hd as <-. right. apply frac_in. eauto.
Qed.
Lemma fixed_at_switch Ts p i t : (1 <= p)%nat -> (i < length Ts)%nat ->
  (at_switch (fixed_bs Ts p) i t <-> (0 < i)%nat /\ t = phase_start Ts i).
Proof.
  intros Hp Hi. split.
  - intros (i' & b & b' & -> & Hb & E). split; [lia|].
    destruct (nth_error Ts i') as [d'|] eqn:Ed'; [|apply nth_error_None in Ed'; lia].
    rewrite (fixed_bs_nth Ts p i' d' Ed') in Hb. destruct (frac_samples_end (phase_start Ts i') d' p Hp) as [l El].
    rewrite El, app_assoc in Hb. injection Hb as Hb. rewrite E in Hb. apply last_unique in Hb. subst t.
    rewrite phase_start_S, (phase_end_nth _ _ _ Ed'). reflexivity.
  - intros [H ->]. destruct i as [|i]; [lia|].
    destruct (nth_error Ts i) as [d'|] eqn:Ed'; [|apply nth_error_None in Ed'; lia].
    destruct (frac_samples_end (phase_start Ts i) d' p Hp) as [l El].
    eexists i, _, _. split; [reflexivity|]. split; [apply (fixed_bs_nth Ts p i d' Ed')|].
    rewrite El, app_assoc. rewrite phase_start_S, (phase_end_nth _ _ _ Ed'). reflexivity.
Qed.

Lemma c46_fixed pData Ts p g0 : well_posed pData Ts -> (1 <= p)%nat -> front_gravity pData = Ok g0 ->
  In (flag_of pData) exact_w_flags -> exists rows,
  computeConstraintsOneStep pData Ts (total Ts) (computeDiscretizedTimeFixed Ts p) = Ok rows /\
  forall x cv, com_curve pData (total Ts) x = Ok cv ->
    (sat rows x <-> forall i c ph j d, nth_error (contacts pData) i = Some c -> cd_phase c = Some ph ->
       nth_error Ts i = Some d -> (j <= p)%nat ->
       let t := phase_start Ts i + INR j / INR p * d in
       let g := if (Nat.eqb j 0 && negb (Nat.eqb i 0))%bool then cp_gravity ph else g0 in
       kin_ok c (cv_fun cv t) /\ accel_ok pData (cv_fun cv) t /\
       exists acc, is_deriv_n 2 (cv_fun cv) t acc /\
         cone_ok (margin pData) 0 ph (giw2 (cp_mass ph) g g0 (cv_fun cv t) acc)).
Proof.
  intros WP Hp Eg Hf. rewrite (fixed_tagged Ts p Hp (wp_ne _ _ WP)).
  destruct (meaning2 pData Ts (fixed_bs Ts p) WP (fixed_bs_len Ts p) (fixed_bs_ne Ts p Hp)
    (fixed_times Ts p Hp (wp_pos _ _ WP)) (sampled_fixed Ts p) (fixed_smp Ts p Hp) g0 Eg Hf) as (rows & H1 & H2).
  exists rows. split; [exact H1|]. intros x cv Hcv. rewrite (H2 x cv Hcv). clear H2.
  assert (HL : length (contacts pData) = length Ts) by apply (HLct pData Ts WP). split.
  - intros H i c ph j d Hc Hph Hd Hj t g.
    assert (Hi : (i < length Ts)%nat) by (apply nth_error_Some; congruence).
    destruct (H i c ph t Hc Hph) as (A & B & C).
    assert (Hsm : sampled_fixed Ts p i t) by (exists j, d; auto). destruct (A Hsm) as [K1 K2].
    split; [exact K1|]. split; [exact K2|]. unfold g. destruct j as [|j].
    + assert (Et : t = phase_start Ts i) by (unfold t; cbn; lra). destruct i as [|i]; cbn [Nat.eqb negb andb].
      * apply B. apply fixed_in_block; [exact Hp|exact Hi|]. left. split; [reflexivity|]. rewrite Et. reflexivity.
      * apply C. apply fixed_at_switch; [exact Hp|exact Hi|]. split; [lia|exact Et].
    + cbn [Nat.eqb andb]. apply B. apply fixed_in_block; [exact Hp|exact Hi|]. right. exists (S j), d. split; [lia|]. auto.
  - intros H i c ph t Hc Hph. assert (Hi : (i < length Ts)%nat) by (rewrite <- HL; apply nth_error_Some; congruence).
    destruct (nth_error Ts i) as [d|] eqn:Ed; [|apply nth_error_None in Ed; lia]. split; [|split].
    + intros (j & d' & Hj & Hd & ->). rewrite Ed in Hd. injection Hd as <-.
      destruct (H i c ph j d Hc Hph Ed Hj) as (K1 & K2 & _). auto.
    + intros Ht. apply fixed_in_block in Ht; [|exact Hp|exact Hi]. destruct Ht as [[-> ->]|(j & d' & Hj & Hd & ->)].
      * destruct (H 0%nat c ph 0%nat d Hc Hph Ed ltac:(lia)) as (_ & _ & acc & Ha). cbn [Nat.eqb negb andb] in Ha.
        replace (phase_start Ts 0 + INR 0 / INR p * d) with 0 in Ha by (unfold phase_start; cbn; lra). exists acc. exact Ha.
      * rewrite Ed in Hd. injection Hd as <-. destruct (H i c ph j d Hc Hph Ed ltac:(lia)) as (_ & _ & acc & Ha).
        replace (Nat.eqb j 0) with false in Ha by (symmetry; apply Nat.eqb_neq; lia). exists acc. exact Ha.
    + intros Ht. apply fixed_at_switch in Ht; [|exact Hp|exact Hi]. destruct Ht as [Hi0 ->].
      destruct (H i c ph 0%nat d Hc Hph Ed ltac:(lia)) as (_ & _ & acc & Ha).
      replace (Nat.eqb i 0) with false in Ha by (symmetry; apply Nat.eqb_neq; lia). cbn [Nat.eqb negb andb] in Ha.
      replace (phase_start Ts i + INR 0 / INR p * d) with (phase_start Ts i) in Ha by (cbn; lra). exists acc. exact Ha.
Qed.

(** C45: half-spaces *)
Lemma halfspace_eq (H : v6) a b : H <> (vzero, vzero) -> ((forall w, dot6 H w <= a <-> dot6 H w <= b) <-> a = b).
Proof.
  intros Hne. split; [|intros ->; tauto]. intros Hall.
  assert (Hn : 0 < dot6 H H).
  { pose proof (norm6_pos _ Hne) as Hp. unfold norm6 in Hp. destruct (Rle_lt_dec (dot6 H H) 0) as [Hle|Hlt]; [|exact Hlt].
    rewrite (sqrt_neg_0 _ Hle) in Hp. lra. }
  assert (E : forall k, dot6 H (v6_scal (k / dot6 H H) H) = k).
  { intros k. transitivity (k / dot6 H H * dot6 H H); [|field; lra]. generalize (k / dot6 H H). intros q.
    unfold dot6, v6_scal, vdot, vscal; cbn. ring. }
  pose proof (proj1 (Hall (v6_scal (a / dot6 H H) H))) as A. pose proof (proj2 (Hall (v6_scal (b / dot6 H H) H))) as B.
  rewrite E in A, B. apply Rle_antisym; [apply A|apply B]; lra.
Qed.

Lemma c45_ok pData c ph g : cd_phase c = Some ph -> 0 < cp_mass ph -> k_reduce_h (constr pData) <= 0 ->
  Forall (fun Hh => fst Hh <> (vzero, vzero)) (cp_poly ph) -> exists rows,
  updateH pData c = Ok rows /\
  Forall2 (fun Hh r =>
    (forall W, dot6 (fst r) (v6sub W (g, vzero)) <= snd r <->
               dot6 (fst Hh) (v6_scal (cp_mass ph) (v6sub (g, vzero) W)) <= cp_mass ph * norm6 (fst Hh) * snd Hh) /\
    ((forall W, dot6 (fst r) (v6sub W (g, vzero)) <= snd r <->
                dot6 (fst Hh) (v6_scal (cp_mass ph) (v6sub (g, vzero) W)) <= snd Hh)
     <-> snd Hh = 0 \/ cp_mass ph * norm6 (fst Hh) = 1)) (cp_poly ph) rows.
Proof.
  intros Hph Hm Hred Hrows. exists (map (fun Hh => urow ph Hh 0) (cp_poly ph)). split.
  - unfold updateH. rewrite Hph. cbn [deref bind]. apply mapM_ok. intros Hh Hin. rewrite Forall_forall in Hrows.
    rewrite updateH_row_ok; [|exact Hm|apply Hrows, Hin]. rewrite Rmax_left by exact Hred. reflexivity.
  - induction (cp_poly ph) as [|Hh l IH]; cbn [map]; constructor; [|apply IH; inversion Hrows; assumption].
    inversion Hrows as [|? ? Hne _]; subst.
    assert (K : forall W, dot6 (fst (urow ph Hh 0)) (v6sub W (g, vzero)) <= snd (urow ph Hh 0) <->
      dot6 (fst Hh) (v6_scal (cp_mass ph) (v6sub (g, vzero) W)) <= cp_mass ph * norm6 (fst Hh) * snd Hh).
    { intros W. rewrite (urow_ok ph Hh 0 W g Hm Hne). rewrite Rminus_0_r. tauto. }
    split; [exact K|].
    transitivity (forall w, dot6 (fst Hh) w <= cp_mass ph * norm6 (fst Hh) * snd Hh <-> dot6 (fst Hh) w <= snd Hh).
    + split.
      * intros H w. pose (W := v6sub (g, vzero) (v6_scal (/ cp_mass ph) w)).
        assert (E : v6_scal (cp_mass ph) (v6sub (g, vzero) W) = w).
        { unfold W, v6_scal, v6sub; cbn. destruct w as [[w1 w2 w3] [w4 w5 w6]]. unfold vscal, vsub, vzero; cbn.
          f_equal; f_equal; field; lra. }
        specialize (H W). specialize (K W). rewrite E in H, K. tauto.
      * intros H W. rewrite K. apply H.
    + rewrite (halfspace_eq _ _ _ Hne). split.
      * intros E. destruct (Req_dec (snd Hh) 0) as [H0|H0]; [left; exact H0|right].
        apply (Rmult_eq_reg_r (snd Hh)); [lra|exact H0].
      * intros [E|E]; [rewrite E; ring|rewrite E; ring].
Qed.

(** C49 *)
Lemma fixed_zero Ts : computeDiscretizedTimeFixed Ts 0 = [(total Ts, (Z.of_nat (length Ts) - 1)%Z)].
Proof.
  unfold computeDiscretizedTimeFixed.
  assert (E : forall Ts i t arr, fixed_outer Ts 0 i t arr = arr).
  { clear. induction Ts as [|d Ts IH]; intros; cbn; [reflexivity|apply IH]. }
  rewrite E. cbn [removelast app]. rewrite total_sumR. reflexivity.
Qed.
Lemma c49_ok pData Ts : (2 <= length Ts)%nat ->
  computeConstraintsOneStep pData Ts (total Ts) (computeDiscretizedTimeFixed Ts 0) = UB.
Proof.
  intros H. rewrite fixed_zero. unfold computeConstraintsOneStep, constraintsOneStep_raw. cbn [stepIdPerPhase step_ids bind].
  destruct Ts as [|d1 [|d2 Ts]]; cbn in H; try lia.
  assert (E : computeNumIneq pData (d1 :: d2 :: Ts) [0%Z] = UB).
  { unfold computeNumIneq. cbn [length num_ineq_loop].
    destruct (get (contacts pData) 0) as [c| |] eqn:E0; cbn [bind]; try reflexivity.
    2:{ unfold get in E0. destruct (nth_error _ _); discriminate. }
    destruct (cd_phase c) as [ph|]; cbn [deref bind]; [|reflexivity]. cbn [get nth_error bind].
    destruct (get (contacts pData) 1) as [c'| |] eqn:E1; cbn [bind]; try reflexivity.
    2:{ unfold get in E1. destruct (nth_error _ _); discriminate. }
    destruct (cd_phase c') as [ph'|]; cbn [deref bind]; reflexivity. }
  rewrite E. reflexivity.
Qed.

(** C46 witnesses: a body at rest at (0,1,0); phase 0 has gravity (0,0,s) and no
    polytope row, phase 1 has gravity (0,0,-s) and the row "moment about x <= 0". *)
Definition w46_ph0 (s : R) : cphase := CPhase [] 1 (V3 0 0 s) [].
Definition w46_ph1 (s : R) : cphase := CPhase [((vzero, V3 1 0 0), 0)] 1 (V3 0 0 (- s)) [].
Definition w46_p : vec3 := V3 0 1 0.
Definition w46 (s : R) : problem :=
  Problem [Contact (Some (w46_ph0 s)) [] [] [] []; Contact (Some (w46_ph1 s)) [] [] [] []]
    w46_p vzero vzero vzero w46_p vzero vzero vzero vzero false
    (Constraints F_dc1_c1 false 0 0) ACCELERATION DOUBLE_DESCRIPTION.

Lemma w46_wp s : well_posed (w46 s) [1; 1].
Proof.
  split; [cbn; tauto|]. split; [reflexivity|]. split; [discriminate|].
  split; [repeat constructor; lra|]. split; [reflexivity|].
  constructor; [|constructor; [|constructor]]; (eexists; split; [reflexivity|]; split; [cbn; lra|]; split; [|cbn; lia]); cbn.
  - constructor.
  - constructor; [|constructor]. cbn. intros E. injection E. lra.
Qed.

Lemma w46_curve s : exists cv : bcurve, com_curve (w46 s) (total [1; 1]) w46_p = Ok cv /\
  (forall t, cv_fun cv t = w46_p) /\ forall t, is_deriv_n 2 (cv_fun cv) t vzero.
Proof.
  destruct (com_curve_total (w46 s) (total [1; 1]) w46_p) as [cv Hcv]; [cbn; tauto|reflexivity|cbn; lra|].
  exists cv. split; [exact Hcv|].
  assert (E : forall t, cv_fun cv t = w46_p).
  { intros t. unfold com_curve in Hcv. cbn in Hcv. destruct (Rle_dec (1 + (1 + 0)) 0) as [H|H]; [lra|].
    injection Hcv as <-. unfold cv_fun, curve, bez3, bezl. cbn [bc_pts bc_T map length pred].
    apply v3_eq; cbn [vx vy vz w46_p vzero];
    (match goal with |- bez ?n ?f ?u = ?c => rewrite (bez_ext n f (fun _ => c) u); [apply bez_const|] end);
    intros i Hi; do 5 (destruct i as [|i]; [cbn; field_simplify; try lra; reflexivity|]); lia. }
  split; [exact E|]. intros t. exists (fun _ => vzero). split.
  - intros u. unfold is_deriv. split; [|split].
    + apply (derivable_pt_lim_ext (fct_cte 0)); [intros v; rewrite E; reflexivity|apply derivable_pt_lim_const].
    + apply (derivable_pt_lim_ext (fct_cte 1)); [intros v; rewrite E; reflexivity|apply derivable_pt_lim_const].
    + apply (derivable_pt_lim_ext (fct_cte 0)); [intros v; rewrite E; reflexivity|apply derivable_pt_lim_const].
  - exists (fun _ => vzero). split; [|reflexivity]. intros u.
    repeat split; apply derivable_pt_lim_const.
Qed.

Lemma w46_uniq (f : R -> vec3) t acc : is_deriv_n 2 f t vzero -> is_deriv_n 2 f t acc -> acc = vzero.
Proof. intros H1 H2. exact (is_deriv_n_unique 2 _ _ t _ _ (fun _ => eq_refl) H2 H1). Qed.

Lemma w46_meaning s : exists rows cv,
  computeConstraintsOneStep (w46 s) [1; 1] (total [1; 1]) (computeDiscretizedTimeFixed [1; 1] 1) = Ok rows /\
  com_curve (w46 s) (total [1; 1]) w46_p = Ok cv /\
  (sat rows w46_p <-> s <= 0) /\
  ((forall i c t, nth_error (contacts (w46 s)) i = Some c -> sampled_fixed [1; 1] 1 i t ->
     contact_ok (w46 s) 0 c (cv_fun cv) t /\ accel_ok (w46 s) (cv_fun cv) t) <-> 0 <= s).
Proof.
  destruct (c46_fixed (w46 s) [1; 1] 1 (V3 0 0 s) (w46_wp s)) as (rows & Hr & Hm); [lia|reflexivity|cbn; tauto|].
  destruct (w46_curve s) as (cv & Hcv & Hf & Ha). exists rows, cv. split; [exact Hr|]. split; [exact Hcv|].
  assert (Hmar : margin (w46 s) = 0) by (unfold margin; cbn; apply Rmax_left; lra).
  assert (HN : norm6 (vzero, V3 1 0 0) = 1).
  { unfold norm6, dot6, vdot; cbn. replace (_ + _) with 1 by ring. apply sqrt_1. }
  split.
  - rewrite (Hm _ _ Hcv). split.
    + intros H. destruct (H 1%nat _ _ 1%nat 1 eq_refl eq_refl eq_refl ltac:(lia)) as (_ & _ & acc & Hd & Hc).
      apply (w46_uniq _ _ _ (Ha _)) in Hd. subst acc. rewrite Hmar, Hf in Hc.
      cbn [Nat.eqb andb negb] in Hc. inversion Hc as [|? ? H1 _]; subst. cbn [fst snd] in H1. rewrite HN in H1.
      unfold dot6, giw2, vdot, w46_p in H1; cbn in H1. lra.
    + intros Hs i c ph j d Hc Hph Hd Hj. cbn zeta.
      destruct i as [|[|i]]; [| |cbn in Hc; destruct i; discriminate].
      * injection Hc as <-. injection Hph as <-. split; [intros k K kk HK; destruct k; discriminate|].
        split; [intros Hx; discriminate|]. exists vzero. split; [apply Ha|]. constructor.
      * injection Hc as <-. injection Hph as <-. split; [intros k K kk HK; destruct k; discriminate|].
        split; [intros Hx; discriminate|]. exists vzero. split; [apply Ha|]. rewrite Hmar, Hf. constructor; [|constructor].
        cbn [fst snd]. rewrite HN. destruct (_ && _)%bool; unfold dot6, giw2, vdot, w46_p; cbn; lra.
  - split.
    + intros H. assert (Hsm : sampled_fixed [1; 1] 1 1 (phase_start [1; 1] 1 + INR 1 / INR 1 * 1)) by (exists 1%nat, 1; repeat split; lia).
      destruct (H 1%nat _ _ eq_refl Hsm) as [[_ (ph & acc & Hph & Hd & Hc)] _].
      apply (w46_uniq _ _ _ (Ha _)) in Hd. subst acc. injection Hph as <-. rewrite Hmar, Hf in Hc.
      inversion Hc as [|? ? H1 _]; subst. cbn [fst snd] in H1. rewrite HN in H1.
      unfold dot6, giw, vdot, w46_p in H1; cbn in H1. lra.
    + intros Hs i c t Hc _.
      destruct i as [|[|i]]; [| |cbn in Hc; destruct i; discriminate]; injection Hc as <-; (split; [|intros Hx; discriminate]);
        (split; [intros k K kk HK; destruct k; discriminate|]); eexists _, vzero; (split; [reflexivity|]; split; [apply Ha|]);
        rewrite Hmar, Hf; constructor; [|constructor].
      cbn [fst snd]. rewrite HN. unfold dot6, giw, vdot, w46_p; cbn. lra.
Qed.

Lemma c46_unsound : exists pData Ts p rows x cv, well_posed pData Ts /\
  computeConstraintsOneStep pData Ts (total Ts) (computeDiscretizedTimeFixed Ts p) = Ok rows /\
  com_curve pData (total Ts) x = Ok cv /\ sat rows x /\
  ~ (forall i c t, nth_error (contacts pData) i = Some c -> sampled_fixed Ts p i t ->
       contact_ok pData 0 c (cv_fun cv) t /\ accel_ok pData (cv_fun cv) t).
Proof.
  destruct (w46_meaning (-1)) as (rows & cv & H1 & H2 & H3 & H4).
  exists (w46 (-1)), [1; 1], 1%nat, rows, w46_p, cv. split; [apply w46_wp|]. split; [exact H1|]. split; [exact H2|].
  split; [apply H3; lra|]. rewrite H4. lra.
Qed.
Lemma c46_incomplete : exists pData Ts p rows x cv, well_posed pData Ts /\
  computeConstraintsOneStep pData Ts (total Ts) (computeDiscretizedTimeFixed Ts p) = Ok rows /\
  com_curve pData (total Ts) x = Ok cv /\ ~ sat rows x /\
  (forall i c t, nth_error (contacts pData) i = Some c -> sampled_fixed Ts p i t ->
       contact_ok pData 0 c (cv_fun cv) t /\ accel_ok pData (cv_fun cv) t).
Proof.
  destruct (w46_meaning 1) as (rows & cv & H1 & H2 & H3 & H4).
  exists (w46 1), [1; 1], 1%nat, rows, w46_p, cv. split; [apply w46_wp|]. split; [exact H1|]. split; [exact H2|].
  split; [rewrite H3; lra|]. apply H4. lra.
Qed.
