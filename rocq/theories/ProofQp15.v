(** QP solver: no active set comes back, so the iteration limit is not reached when
    there are fewer active sets than iterations. *)
From Coq Require Import Lia Lra Psatz List Bool FunctionalExtensionality.
From Verif Require Import Vec SpecBezier ModelData ModelSolver ModelQp ProofBezier ProofQp ProofQp2 ProofQp3 ProofQp4 ProofQp5 ProofQp6 ProofQp7 SpecQp.
Open Scope R_scope.

(** * The value along an execution *)
Lemma L1_value q st st' : step_L1 q st = Ok (Next L2 st') -> q_f st' = q_f st.
Proof.
  unfold step_L1. cbv zeta. destruct (_ <=? _)%nat; [discriminate|]. destruct (mark _ _ _ _ _) as [iai| |]; try discriminate. cbn [bind].
  destruct (Rle_dec _ _); [discriminate|]. intros [= <-]. reflexivity.
Qed.
Lemma L1_limit q st st' : step_L1 q st = Ok (Done st_MAX_ITER st') -> (e_max q <= S (q_iter st))%nat.
Proof.
  unfold step_L1. cbv zeta. destruct (Nat.leb_spec (e_max q) (S (q_iter st))); [auto|]. destruct (mark _ _ _ _ _) as [iai| |]; try discriminate. cbn [bind].
  destruct (Rle_dec _ _); discriminate.
Qed.
Lemma L2_value q st st' : step_L2 q st = Ok (Next L2a st') -> q_f st' = q_f st.
Proof.
  unfold step_L2. destruct (worst _ _ _ _ _) as [ss ip]. destruct (Rle_dec _ _); [discriminate|]. destruct (_ <=? _)%nat; [discriminate|].
  intros [= <-]. reflexivity.
Qed.
Lemma L2a_value q st p st' : well_scaled q -> inv2 q st -> step_L2a q st = Ok (Next p st') ->
  q_f st <= q_f st' /\ (p = L1 -> q_f st < q_f st').
Proof.
  intros WS V. pose proof (j_inv _ _ V) as I. set (n := e_n q). set (iq := q_iq st). set (ip := q_ip st). set (np := e_CI q ip).
  set (d := compute_d n (q_J st) np). set (z := update_z n (q_J st) d iq). set (r := update_r (q_R st) d iq).
  assert (Hz : (if (n <=? iq)%nat then (fun _ => 0) else z) = z).
  { destruct (Nat.leb_spec n iq) as [H|]; [|reflexivity]. apply functional_extensionality. intros i. unfold z, update_z.
    replace (n - iq)%nat with 0%nat by lia. reflexivity. }
  assert (Hrow : is_row q np) by (right; exists ip; split; [exact (j_ip _ _ V)|reflexivity]).
  pose proof (step_scaled q _ _ _ st np WS I Hrow) as Sc. cbv zeta in Sc. fold n iq in Sc. fold d in Sc. fold z in Sc.
  pose proof eps_pos as EP. pose proof (j_neg _ _ V) as Hneg. fold ip in Hneg. pose proof (j_u _ _ V) as HU. fold iq in HU.
  unfold step_L2a. cbv zeta. change (q_ip st) with ip. change (e_CI q ip) with np. change (e_n q) with n. change (q_iq st) with iq.
  change (compute_d n (q_J st) np) with d. change (update_z n (q_J st) d iq) with z. rewrite Hz. change (update_r (q_R st) d iq) with r.
  destruct (dual_step (iq - e_E q) (e_E q) r (q_u st) (q_A st) None 0%Z) as [t1 l] eqn:ED.
  apply dual_step_ok in ED. destruct ED as (D1 & _ & _).
  assert (T1 : forall t, t1 = Some t -> 0 <= t).
  { intros t ->. destruct D1 as [[D1 _]|(j & Hj & Hr & [= ->] & _)]; [discriminate|]. pose proof (i_u _ _ _ _ _ I j ltac:(fold iq; lia)) as Uj.
    apply Rmult_le_pos; [exact Uj|]. left. apply Rinv_0_lt_compat. exact Hr. }
  destruct Sc as [(S1 & S2 & S3)|(S1 & S2 & _ & _)].
  - rewrite S3, Rabs_R0. destruct (Rlt_dec eps52 0) as [|_]; [lra|]. destruct t1 as [t1|]; [|discriminate].
    destruct (unmark _ _ _) as [iai| |]; try discriminate. cbn [bind]. destruct (delete_constraint _ _ _ _ _ _ _ _) as [[[[[R' J'] A'] u'] iq']| |]; try discriminate.
    cbn [bind]. intros [= <- <-]. split; [cbn [q_f]; lra|discriminate].
  - rewrite (Rabs_pos_eq (dot n z z)) by lra. destruct (Rlt_dec eps52 (dot n z z)) as [_|]; [|contradiction].
    set (t2 := - q_s st ip / dot n z np).
    assert (T2 : 0 < t2). { unfold t2. rewrite (dot_sym n z np). apply Rmult_lt_0_compat; [lra|]. apply Rinv_0_lt_compat. exact S2. }
    rewrite (dot_sym n z np) in *. set (w := dot n np z) in *.
    assert (UP : forall t, 0 <= t -> q_f st <= q_f st + t * w * (1 / 2 * t + q_u st iq)).
    { intros t Ht. assert (0 <= t * w) by (apply Rmult_le_pos; lra). assert (0 <= t * w * (1 / 2 * t + q_u st iq)) by (apply Rmult_le_pos; lra). lra. }
    assert (UPS : forall t, 0 < t -> q_f st < q_f st + t * w * (1 / 2 * t + q_u st iq)).
    { intros t Ht. assert (0 < t * w) by (apply Rmult_lt_0_compat; lra). assert (0 < t * w * (1 / 2 * t + q_u st iq)) by (apply Rmult_lt_0_compat; lra). lra. }
    assert (G : forall t, 0 <= t -> (if Req_EM_T t t2 then
          a <- add_constraint n (q_R st) (q_J st) d iq (q_Rn st) ;;
          let '(ok, R', J', iq', Rn') := a in
          if ok then
            Ok (Next L1 (Qst (fun k => q_x st k + t * z k) (setv (fun k => if (k <? iq)%nat then q_u st k - t * r k else q_u st k) iq (q_u st iq + t)) (q_A st) iq' R' J' Rn' (q_f st + t * w * (1 / 2 * t + q_u st iq)) (q_iter st) (q_s st) (q_ss st) ip (setv (q_iai st) ip (-1)%Z) (q_ex st)
                 (q_xo st) (q_uo st) (q_Ao st) (q_tol st)))
          else
            b <- delete_constraint (e_I q + e_E q) (e_E q) R' J' (q_A st) (setv (fun k => if (k <? iq)%nat then q_u st k - t * r k else q_u st k) iq (q_u st iq + t)) iq' (Z.of_nat ip) ;;
            let '(R'', J'', A'', u'', iq'') := b in
            iai <- restore q (q_Ao st) 0 iq'' (fun i => Z.of_nat i) ;;
            Ok (Next L2 (Qst (q_xo st) (fun i => if (i <? iq'')%nat then q_uo st i else u'' i)
                 (fun i => if (i <? iq'')%nat then q_Ao st i else A'' i) iq'' R'' J'' Rn' (q_f st + t * w * (1 / 2 * t + q_u st iq)) (q_iter st) (q_s st) (q_ss st) ip iai
                 (setv (q_ex st) ip false) (q_xo st) (q_uo st) (q_Ao st) (q_tol st)))
        else
          iai <- unmark q l (q_iai st) ;;
          a <- delete_constraint (e_I q + e_E q) (e_E q) (q_R st) (q_J st) (q_A st) (setv (fun k => if (k <? iq)%nat then q_u st k - t * r k else q_u st k) iq (q_u st iq + t)) iq l ;;
          let '(R', J', A', u', iq') := a in
          let s := setv (q_s st) ip (dot n np (fun k => q_x st k + t * z k) + e_ci q ip) in
          Ok (Next L2a (Qst (fun k => q_x st k + t * z k) u' A' iq' R' J' (q_Rn st) (q_f st + t * w * (1 / 2 * t + q_u st iq)) (q_iter st) s (q_ss st) ip iai (q_ex st)
               (q_xo st) (q_uo st) (q_Ao st) (q_tol st)))) = Ok (Next p st') -> q_f st <= q_f st' /\ (p = L1 -> q_f st < q_f st')).
    { intros t Ht. destruct (Req_EM_T t t2) as [->|Hne].
      - destruct (add_constraint _ _ _ _ _ _) as [[[[[ok R'] J'] iq'] Rn']| |]; try discriminate. cbn [bind]. destruct ok.
        + intros [= <- <-]. cbn [q_f]. auto.
        + destruct (delete_constraint _ _ _ _ _ _ _ _) as [[[[[R2 J2] A2] u2] iq2]| |]; try discriminate. cbn [bind].
          destruct (restore _ _ _ _ _) as [iai| |]; try discriminate. cbn [bind]. intros [= <- <-]. cbn [q_f]. split; [auto|discriminate].
      - destruct (unmark _ _ _) as [iai| |]; try discriminate. cbn [bind]. destruct (delete_constraint _ _ _ _ _ _ _ _) as [[[[[R2 J2] A2] u2] iq2]| |]; try discriminate.
        cbn [bind]. intros [= <- <-]. cbn [q_f]. split; [auto|discriminate]. }
    destruct t1 as [t1|]; apply G; [|lra]. apply Rmin_glb; [apply T1; reflexivity|lra].
Qed.

Lemma L2a_climb q : symmetric q -> well_scaled q -> forall c st, (q_iq st <= c)%nat -> inv2 q st ->
  (exists k st', steps q k (Ok (Next L2a st)) = Ok (Done st_UNBOUNDED st') /\ forall y, ~ feasible q y) \/
  (exists k st', steps q k (Ok (Next L2a st)) = Ok (Next L1 st') /\ inv q (e_E q) 0 0 st' /\ q_iter st' = q_iter st /\ q_f st < q_f st').
Proof.
  intros Sy WS. induction c as [|c IH]; intros st Hc V.
  all: destruct (step_L2a_ok q st Sy WS V) as [(E & F)|[(st' & E & V' & Hq & Hi & Ht)|(st' & E & I & Hi & Ht)]].
  1, 4: left; exists 1%nat, st; split; [exact E|exact F].
  2, 4: right; exists 1%nat, st'; split; [exact E|]; split; [exact I|]; split; [exact Hi|exact (proj2 (L2a_value q st _ _ WS V E) eq_refl)].
  - lia.
  - pose proof (proj1 (L2a_value q st _ _ WS V E)) as F0.
    destruct (IH st') as [(k & st2 & E2 & F)|(k & st2 & E2 & I & Hi2 & Ht2)]; [lia|exact V'|left|right]; exists (1 + k)%nat, st2.
    + rewrite steps_add, steps_one. cbn [step]. rewrite E. split; [exact E2|exact F].
    + rewrite steps_add, steps_one. cbn [step]. rewrite E. split; [exact E2|]. split; [exact I|]. split; [congruence|lra].
Qed.

(** * The value depends on the active set only *)
Lemma inv_active q st y : convex q -> inv q (e_E q) 0 0 st -> eqs_hold q y ->
  (forall k j, (e_E q <= k < q_iq st)%nat -> q_A st k = Z.of_nat j -> 0 <= slack q y j) ->
  objective q (q_x st) <= objective q y.
Proof.
  intros [Sy PD] I Ye Ya. set (z := fun k => y k - q_x st k).
  replace y with (fun k => q_x st k + 1 * z k) by (apply functional_extensionality; intros k; unfold z; ring).
  rewrite obj_move by exact Sy. pose proof (pd_nonneg q z PD) as P0. enough (P : 0 <= dot (e_n q) z (fun i => hmul q (q_x st) i + e_g q i)) by lra.
  rewrite (dot_ext _ z z _ (fun i => sumf (q_iq st) (fun k => q_u st k * normal q (q_A st k) i))).
  2: reflexivity.
  2: { intros i Hi. rewrite (i_st _ _ _ _ _ I i Hi). ring. }
  rewrite dot_sum. apply sumf_nonneg. intros k Hk. rewrite (dot_sym _ z). change (0 <= q_u st k * dot (e_n q) (normal q (q_A st k)) z).
  assert (E : dot (e_n q) (normal q (q_A st k)) z = dot (e_n q) (normal q (q_A st k)) y - dot (e_n q) (normal q (q_A st k)) (q_x st)).
  { unfold dot, z. rewrite <- sumf_minus. apply sumf_ext. intros; ring. }
  rewrite E. pose proof (i_act _ _ _ _ _ I k Hk) as A. destruct (Nat.lt_ge_cases k (e_E q)) as [H|H].
  - rewrite (i_eq _ _ _ _ _ I k H), normal_eq, offset_eq in *. specialize (Ye k H). unfold eq_gap in Ye.
    replace (dot (e_n q) (e_CE q k) y - dot (e_n q) (e_CE q k) (q_x st)) with 0 by lra. lra.
  - destruct (i_in _ _ _ _ _ I k ltac:(lia)) as (j & Hj & EA). pose proof (i_u _ _ _ _ _ I k ltac:(lia)) as U.
    specialize (Ya k j ltac:(lia) EA). rewrite EA, normal_in, offset_in in *. unfold slack in Ya.
    apply Rmult_le_pos; [exact U|lra].
Qed.
Definition isact (q : eqp) (st : qst) (j : nat) : bool :=
  existsb (fun k => Z.eqb (q_A st (e_E q + k)%nat) (Z.of_nat j)) (seq 0 (q_iq st - e_E q)).
Lemma isact_iff q st j : isact q st j = true <-> exists k, (e_E q <= k < q_iq st)%nat /\ q_A st k = Z.of_nat j.
Proof.
  unfold isact. rewrite existsb_exists. split.
  - intros (k & Hk & E). apply in_seq in Hk. apply Z.eqb_eq in E. exists (e_E q + k)%nat. split; [lia|exact E].
  - intros (k & Hk & E). exists (k - e_E q)%nat. split; [apply in_seq; lia|]. apply Z.eqb_eq. replace (e_E q + (k - e_E q))%nat with k by lia. exact E.
Qed.
Definition sig (q : eqp) (st : qst) : list bool := map (isact q st) (seq 0 (e_I q)).
Lemma sig_same q a b : sig q a = sig q b -> forall j, (j < e_I q)%nat -> isact q a j = isact q b j.
Proof. unfold sig. intros E j Hj. exact (ext_in_map E j ltac:(apply in_seq; lia)). Qed.
Lemma sig_le q a b : convex q -> inv q (e_E q) 0 0 a -> inv q (e_E q) 0 0 b -> sig q a = sig q b -> q_f a <= q_f b.
Proof.
  intros C Ia Ib E. rewrite (i_f _ _ _ _ _ Ia), (i_f _ _ _ _ _ Ib). apply (inv_active q a _ C Ia (inv_eqs q b Ib)). intros k j Hk Ek.
  destruct (i_in _ _ _ _ _ Ia k Hk) as (j' & Hj & E'). assert (j' = j) by (apply Nat2Z.inj; congruence). subst j'.
  assert (B : isact q b j = true) by (rewrite <- (sig_same q a b E j Hj); apply isact_iff; exists k; auto).
  apply isact_iff in B. destruct B as (k' & Hk' & EB). right. symmetry. exact (active_slack q _ _ _ b k' j Ib (proj2 Hk') EB).
Qed.

(** * Counting *)
Fixpoint sigs (m k : nat) : list (list bool) :=
  match m, k with
  | O, _ => [[]]
  | S m', O => [repeat false (S m')]
  | S m', S k' => map (cons false) (sigs m' k) ++ map (cons true) (sigs m' k')
  end.
Lemma sigs_length : forall m k, length (sigs m k) = subsets m k.
Proof. induction m as [|m IH]; intros [|k]; try reflexivity. cbn [sigs subsets]. rewrite app_length, !map_length, !IH. reflexivity. Qed.
Definition ones (l : list bool) : nat := length (filter (fun b => b) l).
Lemma ones_none : forall l, ones l = 0%nat -> l = repeat false (length l).
Proof.
  induction l as [|b l IH]; intros H; [reflexivity|]. unfold ones in *. destruct b; cbn in H; [lia|]. cbn. f_equal. apply IH. exact H.
Qed.
Lemma sigs_in : forall m k l, length l = m -> (ones l <= k)%nat -> In l (sigs m k).
Proof.
  induction m as [|m IH]; intros k [|b l] HL HO; try discriminate; [destruct k; now left|]. injection HL as HL. destruct k as [|k].
  - left. rewrite <- HL. symmetry. change (S (length l)) with (length (b :: l)). apply ones_none. lia.
  - cbn [sigs]. apply in_or_app. unfold ones in HO. cbn in HO. destruct b; cbn in HO; [right|left]; apply in_map, IH; auto; unfold ones; lia.
Qed.
Lemma ones_map (X : Type) (f : X -> bool) : forall l, ones (map f l) = length (filter f l).
Proof. induction l as [|a l IH]; [reflexivity|]. unfold ones in *. cbn. destruct (f a); cbn; now rewrite IH. Qed.
Lemma sig_ones q st : inv q (e_E q) 0 0 st -> (ones (sig q st) <= e_n q - e_E q)%nat.
Proof.
  intros I. unfold sig. rewrite ones_map. pose proof (i_n _ _ _ _ _ I) as Hn.
  apply Nat.le_trans with (q_iq st - e_E q)%nat; [|lia].
  replace (q_iq st - e_E q)%nat with (length (map (fun k => Z.to_nat (q_A st (e_E q + k)%nat)) (seq 0 (q_iq st - e_E q)))) by (rewrite map_length, seq_length; reflexivity).
  apply NoDup_incl_length; [apply NoDup_filter, seq_NoDup|]. intros j Hj. apply filter_In in Hj. destruct Hj as [_ Hj].
  unfold isact in Hj. apply existsb_exists in Hj. destruct Hj as (k & Hk & E). apply Z.eqb_eq in E. apply in_map_iff. exists k. rewrite E, Nat2Z.id. auto.
Qed.

(** * The limit is not reached *)
Lemma L1_climb q : convex q -> well_scaled q -> (subsets (e_I q) (e_n q - e_E q) < e_max q)%nat ->
  forall c seen st, (e_max q <= q_iter st + c)%nat -> inv q (e_E q) 0 0 st ->
  q_iter st = length seen -> NoDup (map (sig q) seen) -> (forall a, In a seen -> inv q (e_E q) 0 0 a /\ q_f a < q_f st) ->
  exists k s st', steps q k (Ok (Next L1 st)) = Ok (Done s st') /\ s <> st_MAX_ITER.
Proof.
  intros C WS HN. pose proof (proj1 C) as Sy. induction c as [|c IH]; intros seen st Hc I HL ND HS.
  all: assert (ND' : NoDup (map (sig q) (st :: seen))) by
    (cbn [map]; constructor; [|exact ND]; intros Hin; apply in_map_iff in Hin; destruct Hin as (a & E & Ha); destruct (HS a Ha) as [Ia Hf];
     pose proof (sig_le q st a C I Ia (eq_sym E)); lra).
  all: assert (LIM : (S (q_iter st) < e_max q)%nat) by
    (rewrite HL; change (S (length seen)) with (length (st :: seen)); rewrite <- (map_length (sig q)); apply Nat.le_lt_trans with (subsets (e_I q) (e_n q - e_E q)); [|exact HN];
     rewrite <- sigs_length; apply NoDup_incl_length; [exact ND'|]; intros l Hl; apply in_map_iff in Hl; destruct Hl as (a & <- & Ha);
     apply sigs_in; [unfold sig; now rewrite map_length, seq_length|]; apply sig_ones; destruct Ha as [<-|Ha]; [exact I|exact (proj1 (HS a Ha))]).
  all: destruct (step_L1_ok q st I) as [(st1 & E1 & I1)|[(st1 & E1 & I1 & Hv)|(st1 & E1 & K & Hv & Hi & Hl & Ht)]].
  1, 4: apply L1_limit in E1; lia.
  1, 3: exists 1%nat, st_OPTIMAL, st1; split; [exact E1|discriminate].
  - lia.
  - destruct (step_L2_ok q st1 K) as [(st2 & E2 & I2 & Hv2)|(st2 & E2 & V & Hi2 & Ht2)].
    + exists (1 + 1)%nat, st_OPTIMAL, st2. rewrite steps_add, steps_one. cbn [step]. rewrite E1. split; [exact E2|discriminate].
    + pose proof (L1_value q st st1 E1) as F1. pose proof (L2_value q st1 st2 E2) as F2.
      destruct (L2a_climb q Sy WS (q_iq st2) st2 (le_n _) V) as [(k & st3 & E3 & F)|(k & st3 & E3 & I3 & Hi3 & Hf3)].
      * exists (1 + (1 + k))%nat, st_UNBOUNDED, st3. rewrite !steps_add, !steps_one. cbn [step]. rewrite E1, steps_one. cbn [step]. rewrite E2. split; [exact E3|discriminate].
      * destruct (IH (st :: seen) st3) as (k4 & s & st4 & E4 & EN); [lia|exact I3|cbn [length]; lia|exact ND'| |].
        { intros a [<-|Ha]; [split; [exact I|lra]|]. destruct (HS a Ha). split; [assumption|lra]. }
        exists (1 + (1 + (k + k4)))%nat, s, st4. rewrite !steps_add, !steps_one. cbn [step]. rewrite E1, steps_one. cbn [step]. rewrite E2, E3. split; [exact E4|exact EN].
Qed.
Lemma run_limit q st0 k s st : convex q -> well_scaled q -> (e_E q <= e_n q)%nat -> (subsets (e_I q) (e_n q - e_E q) < e_max q)%nat ->
  q_iq st0 = 0%nat -> inv q 0 0 0 st0 -> q_iter st0 = 0%nat ->
  steps q k (add_equalities q (e_E q) 0 st0) = Ok (Done s st) -> s <> st_MAX_ITER.
Proof.
  intros C WS En HN Hq I Hi E.
  destruct (add_eq_ok q (proj1 C) WS En (e_E q) 0 st0 ltac:(lia) Hq I) as [(st1 & E1 & F)|(st1 & E1 & I1 & Hi1 & Ht1)]; rewrite E1 in E.
  - rewrite steps_done in E. injection E as <- _. discriminate.
  - destruct (L1_climb q C WS HN (e_max q) [] st1 ltac:(lia) I1) as (k2 & s2 & st2 & E2 & N); [cbn; lia|constructor|intros a []|].
    assert (P : steps q (k + k2) (Ok (Next L1 st1)) = steps q (k2 + k) (Ok (Next L1 st1))) by (f_equal; lia).
    rewrite !steps_add, E, E2, !steps_done in P. injection P as -> _. exact N.
Qed.
Lemma c59_limit q mem status st : convex q -> well_scaled q -> (e_E q <= e_n q)%nat -> (subsets (e_I q) (e_n q - e_E q) < e_max q)%nat ->
  returns q mem status st -> status <> st_MAX_ITER.
Proof.
  intros C WS En HN (k & E). destruct (init_ok q mem C) as (L & st0 & _ & _ & EI & Hq & I & Hi & _).
  unfold execution in E. rewrite EI in E. exact (run_limit q st0 k status st C WS En HN Hq I Hi E).
Qed.

(** * Dependent equalities are reported *)
Lemma inv_independent q extra ip st : inv q (e_E q) extra ip st -> ~ eqs_dependent q.
Proof.
  intros I (c & (k0 & Hk0 & C0) & HS). destruct (i_fac _ _ _ _ _ I) as (F1 & F2 & F3). pose proof (i_e _ _ _ _ _ I) as He. pose proof (i_n _ _ _ _ _ I) as Hn.
  assert (Z : forall m k, (e_E q - m <= k < e_E q)%nat -> c k = 0).
  { induction m as [|m IH]; intros k Hk; [lia|]. destruct (Nat.lt_ge_cases k (e_E q - m)) as [Hlt|Hge]; [|apply IH; lia].
    assert (S0 : sumf (e_E q) (fun l => c l * q_R st k l) = 0).
    { transitivity (sumf (e_E q) (fun l => c l * compute_d (e_n q) (q_J st) (normal q (q_A st l)) k)).
      - apply sumf_ext. intros l Hl. rewrite F1 by lia. rewrite (proj2 (Nat.ltb_lt _ _)) by lia. reflexivity.
      - transitivity (sumf (e_n q) (fun i => q_J st i k * sumf (e_E q) (fun l => c l * e_CE q l i))).
        + rewrite (sumf_ext (e_n q) _ (fun i => sumf (e_E q) (fun l => q_J st i k * (c l * e_CE q l i)))) by (intros; now rewrite sumf_scal).
          rewrite sumf_swap. apply sumf_ext. intros l Hl. unfold compute_d. rewrite <- sumf_scal. apply sumf_ext. intros i Hi.
          rewrite (i_eq _ _ _ _ _ I l Hl), normal_eq. ring.
        + apply sumf_zero. intros i Hi. rewrite HS by exact Hi. ring. }
    rewrite (sumf_one (e_E q) _ k) in S0; [|lia|].
    - apply Rmult_integral in S0. destruct S0 as [S0|S0]; [exact S0|]. exfalso. apply (F3 k); [lia|exact S0].
    - intros l Hl Hne. destruct (Nat.lt_ge_cases l k) as [L|L]; [rewrite F2 by exact L; ring|]. rewrite IH by lia. ring. }
  apply C0. apply (Z (e_E q)). lia.
Qed.
Lemma run_dependent q st0 : convex q -> well_scaled q -> (e_E q <= e_n q)%nat -> eqs_dependent q ->
  q_iq st0 = 0%nat -> inv q 0 0 0 st0 -> exists st, add_equalities q (e_E q) 0 st0 = Ok (Done st_REDUNDANT st).
Proof.
  intros C WS En D Hq I.
  destruct (add_eq_ok q (proj1 C) WS En (e_E q) 0 st0 ltac:(lia) Hq I) as [(st1 & E1 & F)|(st1 & E1 & I1 & Hi1 & Ht1)]; [exists st1; exact E1|].
  exfalso. exact (inv_independent _ _ _ _ I1 D).
Qed.
Lemma c59_dependent q mem : convex q -> well_scaled q -> (e_E q <= e_n q)%nat -> eqs_dependent q ->
  exists st, returns q mem st_REDUNDANT st.
Proof.
  intros C WS En D. destruct (init_ok q mem C) as (L & st0 & _ & _ & EI & Hq & I & Hi & _).
  destruct (run_dependent q st0 C WS En D Hq I) as (st & E). exists st, 0%nat. unfold execution. cbn [steps]. rewrite EI. exact E.
Qed.
(** every feasible problem with independent equalities and few active sets is solved *)
Lemma c59_decides q mem : convex q -> well_scaled q -> (e_E q <= e_n q)%nat -> (subsets (e_I q) (e_n q - e_E q) < e_max q)%nat ->
  ~ eqs_dependent q ->
  (exists st, returns q mem st_OPTIMAL st) \/ (exists st, returns q mem st_UNBOUNDED st /\ forall y, ~ feasible q y).
Proof.
  intros C WS En HN ND. destruct (solve_ends q mem C WS En) as (L & k & s & st & _ & EX & EN).
  assert (RR : returns q mem s st) by (exists k; exact EX). pose proof (c59_limit q mem s st C WS En HN RR) as NM.
  destruct EN as [st1 _ _|st1 _|st1 NF|st1 D]; [left; exists st1; exact RR|congruence|right; exists st1; auto|contradiction].
Qed.
Lemma subsets_pow : forall m k, (subsets m k <= 2 ^ m)%nat.
Proof.
  induction m as [|m IH]; intros [|k]; cbn [subsets Nat.pow]; try lia.
  - pose proof (Nat.pow_nonzero 2 m). lia.
  - pose proof (IH (S k)). pose proof (IH k). lia.
Qed.
Lemma subsets_all : forall m k, (m <= k)%nat -> (subsets m k = 2 ^ m)%nat.
Proof. induction m as [|m IH]; intros [|k] H; cbn [subsets Nat.pow]; try lia. rewrite !IH by lia. lia. Qed.
Lemma c59_subsets m k : (subsets m k <= 2 ^ m)%nat /\ (forall k', (m <= k')%nat -> subsets m k' = 2 ^ m)%nat /\ (subsets 17 3 < 1000)%nat.
Proof. split; [apply subsets_pow|]. split; [apply subsets_all|apply Nat.ltb_lt; reflexivity]. Qed.
