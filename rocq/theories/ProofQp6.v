(** QP solver: the labels l1 and l2, the equalities, and whole executions. *)
From Coq Require Import Lia Lra Psatz List FunctionalExtensionality.
From Verif Require Import Vec SpecBezier ModelData ModelSolver ModelQp SpecQp ProofBezier ProofQp ProofQp2 ProofQp3 ProofQp4 ProofQp5.
Open Scope R_scope.

(** * l1 *)
Lemma mark_ok q A : forall cnt i iai, (forall k, (i <= k < i + cnt)%nat -> exists j, (j < e_I q)%nat /\ A k = Z.of_nat j) ->
  exists iai', mark q A i cnt iai = Ok iai' /\
    forall j, iai' j = (-1)%Z -> iai j = (-1)%Z \/ exists k, (i <= k < i + cnt)%nat /\ A k = Z.of_nat j.
Proof.
  induction cnt as [|cnt IH]; intros i iai H; cbn [mark]; [exists iai; split; [reflexivity|auto]|].
  destruct (H i) as (j0 & Hj0 & E0); [lia|]. rewrite E0. rewrite (proj2 (Z.leb_le _ _)), (proj2 (Z.ltb_lt _ _)) by lia. cbn [andb]. rewrite Nat2Z.id.
  destruct (IH (S i) (setv iai j0 (-1)%Z)) as (iai' & E & P); [intros; apply H; lia|]. exists iai'. split; [exact E|].
  intros j Hj. destruct (P j Hj) as [P1|(k & Hk & EK)].
  - destruct (Nat.eq_dec j j0) as [->|Hne]; [right; exists i; split; [lia|exact E0]|]. left. now rewrite setv_ne in P1 by exact Hne.
  - right. exists k. split; [lia|exact EK].
Qed.
Lemma psi_violation q x : Rabs (sumf (e_I q) (fun i => Rmin 0 (slack q x i))) = violation q x.
Proof.
  unfold violation. rewrite (sumf_ext (e_I q) (fun i => Rmax 0 (- slack q x i)) (fun i => - Rmin 0 (slack q x i))).
  - rewrite sumf_opp. apply Rabs_left1. assert (P : 0 <= sumf (e_I q) (fun i => - Rmin 0 (slack q x i))).
    { apply sumf_nonneg. intros i _. pose proof (Rmin_l 0 (slack q x i)). lra. }
    rewrite sumf_opp in P. lra.
  - intros i _. unfold Rmin, Rmax. destruct (Rle_dec _ _), (Rle_dec _ _); lra.
Qed.

(** the state at the label l2 *)
Record inv1 (q : eqp) (st : qst) : Prop := Inv1 {
  k_inv : inv q (e_E q) 0 0 st;
  k_s : forall i, q_s st i = slack q (q_x st) i;
  k_ss : q_ss st = 0;
  k_ex : forall i, q_ex st i = true
}.

Lemma step_L1_ok q st : inv q (e_E q) 0 0 st ->
  (exists st', step_L1 q st = Ok (Done st_MAX_ITER st') /\ inv q (e_E q) 0 0 st') \/
  (exists st', step_L1 q st = Ok (Done st_OPTIMAL st') /\ inv q (e_E q) 0 0 st' /\ violation q (q_x st') <= q_tol st) \/
  (exists st', step_L1 q st = Ok (Next L2 st') /\ inv1 q st' /\ q_tol st < violation q (q_x st') /\
     q_iter st' = S (q_iter st) /\ (q_iter st' < e_max q)%nat /\ q_tol st' = q_tol st).
Proof.
  intros I. unfold step_L1. cbv zeta. destruct (Nat.leb_spec (e_max q) (S (q_iter st))) as [Hi|Hi].
  - left. eexists. split; [reflexivity|]. destruct I; constructor; qst_cbn; assumption.
  - destruct (mark_ok q (q_A st) (q_iq st - e_E q) (e_E q) (q_iai st)) as (iai' & EM & PM).
    { intros k Hk. apply (i_in _ _ _ _ _ I). lia. }
    rewrite EM. cbn [bind].
    match goal with |- context [sumf (e_I q) ?f] => change f with (fun i => Rmin 0 (slack q (q_x st) i)) end.
    rewrite psi_violation.
    assert (IA : forall i, (i < e_I q)%nat -> iai' i = (-1)%Z -> exists k, (e_E q <= k < q_iq st)%nat /\ q_A st k = Z.of_nat i).
    { intros i Hi' E. destruct (PM i E) as [E'|(k & Hk & E')]; [apply (i_iai _ _ _ _ _ I i Hi' E')|]. exists k. split; [lia|exact E']. }
    destruct (Rle_dec (violation q (q_x st)) (q_tol st)) as [Hv|Hv]; right.
    + left. eexists. split; [reflexivity|]. qst_cbn. split; [|exact Hv]. destruct I; constructor; qst_cbn; assumption.
    + right. eexists. split; [reflexivity|]. split; [|qst_cbn; split; [lra|]; split; [reflexivity|]; split; [exact Hi|reflexivity]].
      constructor; qst_cbn; try reflexivity. destruct I; constructor; qst_cbn; assumption.
Qed.

(** * l2 *)
Lemma worst_ok st : forall cnt i ss ip ss' ip', worst cnt i st ss ip = (ss', ip') ->
  ((ss' = ss /\ ip' = ip) \/ ((i <= ip' < i + cnt)%nat /\ ss' = q_s st ip' /\ q_s st ip' < ss)) /\
  ss' <= ss /\
  (forall j, (i <= j < i + cnt)%nat -> q_iai st j <> (-1)%Z -> q_ex st j = true -> ss' <= q_s st j).
Proof.
  induction cnt as [|cnt IH]; intros i ss ip ss' ip' E; cbn [worst] in E.
  - injection E as <- <-. split; [left; auto|]. split; [lra|]. intros; lia.
  - destruct (Rlt_dec (q_s st i) ss) as [Hs|Hs].
    + destruct (negb (Z.eqb (q_iai st i) (-1)) && q_ex st i)%bool eqn:EB.
      * apply IH in E. destruct E as (E1 & E2 & E3). split; [|split; [lra|]].
        -- right. destruct E1 as [[-> ->]|(E1 & E4 & E5)]; [split; [lia|]; split; [reflexivity|exact Hs]|]. split; [lia|]. split; [exact E4|lra].
        -- intros j Hj Hi He. destruct (Nat.eq_dec j i) as [->|]; [exact E2|]. apply E3; [lia|exact Hi|exact He].
      * apply IH in E. destruct E as (E1 & E2 & E3). split; [|split; [exact E2|]].
        -- destruct E1 as [E1|(E1 & E4)]; [left; exact E1|right; split; [lia|exact E4]].
        -- intros j Hj Hi He. destruct (Nat.eq_dec j i) as [->|]; [|apply E3; [lia|exact Hi|exact He]]. exfalso.
           rewrite He, (proj2 (Z.eqb_neq _ _) Hi) in EB. discriminate.
    + apply IH in E. destruct E as (E1 & E2 & E3). split; [|split; [exact E2|]].
      * destruct E1 as [E1|(E1 & E4)]; [left; exact E1|right; split; [lia|exact E4]].
      * intros j Hj Hi He. destruct (Nat.eq_dec j i) as [->|]; [lra|]. apply E3; [lia|exact Hi|exact He].
Qed.

(** an active inequality is satisfied with equality *)
Lemma active_slack q e extra ip st k j : inv q e extra ip st -> (k < q_iq st)%nat -> q_A st k = Z.of_nat j -> slack q (q_x st) j = 0.
Proof. intros I Hk E. pose proof (i_act _ _ _ _ _ I k Hk) as A. rewrite E, normal_in, offset_in in A. exact A. Qed.

Lemma nodup_map {X Y} (f : X -> Y) l : (forall a b, In a l -> In b l -> f a = f b -> a = b) -> NoDup l -> NoDup (map f l).
Proof.
  induction l as [|a l IH]; intros H N; [constructor|]. inversion N; subst. cbn [map]. constructor.
  - rewrite in_map_iff. intros (b & E & Hb). apply H in E; [subst; contradiction|right; exact Hb|left; reflexivity].
  - apply IH; [|assumption]. intros x y Hx Hy. apply H; right; assumption.
Qed.
Lemma active_room q e extra ip st j : inv q e extra ip st -> (j < e_I q)%nat -> slack q (q_x st) j < 0 -> (q_iq st - e < e_I q)%nat.
Proof.
  intros I Hj Hs. set (l := map (fun k => Z.to_nat (q_A st (e + k))) (seq 0 (q_iq st - e))).
  assert (ND : NoDup (j :: l)).
  { constructor.
    - unfold l. rewrite in_map_iff. intros (k & E & Hk). apply in_seq in Hk.
      destruct (i_in _ _ _ _ _ I (e + k)%nat) as (j' & Hj' & E'); [lia|]. rewrite E', Nat2Z.id in E. subst j'.
      assert (EZ : slack q (q_x st) j = 0) by (refine (active_slack q e extra ip st (e + k) j I _ E'); lia). lra.
    - unfold l. apply nodup_map; [|apply seq_NoDup]. intros a b Ha Hb E. apply in_seq in Ha, Hb.
      destruct (i_in _ _ _ _ _ I (e + a)%nat) as (ja & Hja & Ea); [lia|]. destruct (i_in _ _ _ _ _ I (e + b)%nat) as (jb & Hjb & Eb); [lia|].
      rewrite Ea, Eb, !Nat2Z.id in E. subst jb. assert (e + a = e + b)%nat; [|lia].
      apply (i_inj _ _ _ _ _ I); [lia|lia|congruence]. }
  assert (IN : incl (j :: l) (seq 0 (e_I q))).
  { intros a [<-|Ha]; [apply in_seq; lia|]. unfold l in Ha. apply in_map_iff in Ha. destruct Ha as (k & <- & Hk). apply in_seq in Hk.
    destruct (i_in _ _ _ _ _ I (e + k)%nat) as (j' & Hj' & E'); [lia|]. rewrite E', Nat2Z.id. apply in_seq. lia. }
  pose proof (NoDup_incl_length ND IN) as HL. cbn [length] in HL. unfold l in HL. rewrite map_length, !seq_length in HL. lia.
Qed.

Lemma step_L2_ok q st : inv1 q st ->
  (exists st', step_L2 q st = Ok (Done st_OPTIMAL st') /\ inv q (e_E q) 0 0 st' /\ violation q (q_x st') = 0) \/
  (exists st', step_L2 q st = Ok (Next L2a st') /\ inv2 q st' /\ q_iter st' = q_iter st /\ q_tol st' = q_tol st).
Proof.
  intros K. pose proof (k_inv _ _ K) as I. unfold step_L2. rewrite (k_ss _ _ K). destruct (worst (e_I q) 0 st 0 (q_ip st)) as [ss ip] eqn:EW.
  apply worst_ok in EW. destruct EW as (W1 & W2 & W3). destruct (Rle_dec 0 ss) as [H0|H0].
  - left. eexists. split; [reflexivity|]. qst_cbn. split; [destruct I; constructor; qst_cbn; assumption|].
    unfold violation. apply sumf_zero. intros j Hj. apply Rmax_left. destruct (Rlt_dec (slack q (q_x st) j) 0) as [Hs|]; [exfalso|lra].
    assert (NA : q_iai st j <> (-1)%Z).
    { intros E. destruct (i_iai _ _ _ _ _ I j Hj E) as (k & Hk & EA). rewrite (active_slack _ _ _ _ _ _ _ I (proj2 Hk) EA) in Hs. lra. }
    specialize (W3 j ltac:(lia) NA (k_ex _ _ K j)). rewrite (k_s _ _ K) in W3. lra.
  - right. destruct W1 as [[-> _]|(W1 & W4 & W5)]; [lra|]. rewrite (k_s _ _ K) in W4, W5.
    pose proof (active_room _ _ _ _ _ ip I ltac:(lia) W5) as Room. pose proof (i_e _ _ _ _ _ I) as He.
    destruct (Nat.leb_spec (e_I q + e_E q) (q_iq st)) as [Hm|Hm]; [lia|].
    eexists. split; [reflexivity|]. split; [|split; reflexivity].
    assert (SA : forall k, (k < q_iq st)%nat -> setv (q_A st) (q_iq st) (Z.of_nat ip) k = q_A st k) by (intros; apply setv_ne; lia).
    constructor; qst_cbn; rewrite ?setv_eq; try reflexivity; try lra.
    + destruct I; constructor; qst_cbn; try assumption; rewrite ?setv_eq.
      * refine (factored_ext _ _ _ _ _ _ _ i_fac). intros k Hk. cbv beta. now rewrite SA.
      * intros k Hk. rewrite SA by lia. auto.
      * intros k Hk. rewrite SA by lia. auto.
      * intros k k' Hk Hk'. rewrite !SA by lia. auto.
      * intros i Hi. rewrite i_st by exact Hi. rewrite !Rmult_0_l. f_equal. apply sumf_ext. intros k Hk. rewrite SA by exact Hk. rewrite setv_ne by lia. reflexivity.
      * intros k Hk. rewrite setv_ne by lia. auto.
      * intros k Hk. rewrite SA by exact Hk. auto.
      * intros i Hi E. destruct (i_iai i Hi E) as (k & Hk & EK). exists k. split; [exact Hk|]. rewrite SA by lia. exact EK.
    + lia.
    + intros k Hk. rewrite SA by lia. intros E. rewrite (active_slack _ _ _ _ _ _ _ I (proj2 Hk) E) in W5. lra.
    + apply (k_s _ _ K).
    + rewrite (k_s _ _ K). exact W5.
    + exact Hm.
Qed.

(** * Whole executions from l1 *)
Lemma steps_add q : forall a b o, steps q (a + b) o = steps q b (steps q a o).
Proof.
  induction a as [|a IH]; intros b o; [reflexivity|]. cbn [Nat.add steps].
  destruct o as [[p st|s st]| |]; [apply IH|..]; destruct b; reflexivity.
Qed.
Lemma steps_one q p st : steps q 1 (Ok (Next p st)) = step q p st.
Proof. reflexivity. Qed.

Lemma L2a_run q : symmetric q -> well_scaled q -> forall c st, (q_iq st <= c)%nat -> inv2 q st ->
  (exists k st', steps q k (Ok (Next L2a st)) = Ok (Done st_UNBOUNDED st') /\ forall y, ~ feasible q y) \/
  (exists k st', steps q k (Ok (Next L2a st)) = Ok (Next L1 st') /\ inv q (e_E q) 0 0 st' /\ q_iter st' = q_iter st /\ q_tol st' = q_tol st).
Proof.
  intros Sy WS. induction c as [|c IH]; intros st Hc V.
  all: destruct (step_L2a_ok q st Sy WS V) as [(E & F)|[(st' & E & V' & Hq & Hi & Ht)|(st' & E & I & Hi & Ht)]].
  1, 4: left; exists 1%nat, st; split; [exact E|exact F].
  2, 4: right; exists 1%nat, st'; split; [exact E|]; split; [exact I|]; split; [exact Hi|exact Ht].
  - lia.
  - destruct (IH st') as [(k & st2 & E2 & F)|(k & st2 & E2 & I & Hi2 & Ht2)]; [lia|exact V'|left|right]; exists (1 + k)%nat, st2.
    + rewrite steps_add, steps_one. cbn [step]. rewrite E. split; [exact E2|exact F].
    + rewrite steps_add, steps_one. cbn [step]. rewrite E. split; [exact E2|]. split; [exact I|]. split; congruence.
Qed.

(** What an execution ends with. *)
Inductive ends (q : eqp) (tol : R) : Z -> qst -> Prop :=
| ends_optimal st : inv q (e_E q) 0 0 st -> violation q (q_x st) <= tol \/ violation q (q_x st) = 0 -> ends q tol st_OPTIMAL st
| ends_max st : inv q (e_E q) 0 0 st -> ends q tol st_MAX_ITER st
| ends_none st : (forall y, ~ feasible q y) -> ends q tol st_UNBOUNDED st
| ends_redundant st : eqs_dependent q -> ends q tol st_REDUNDANT st.

Lemma L1_run q : symmetric q -> well_scaled q -> forall c st, (e_max q <= q_iter st + c)%nat -> inv q (e_E q) 0 0 st ->
  exists k s st', steps q k (Ok (Next L1 st)) = Ok (Done s st') /\ ends q (q_tol st) s st'.
Proof.
  intros Sy WS. induction c as [|c IH]; intros st Hc I.
  all: destruct (step_L1_ok q st I) as [(st1 & E1 & I1)|[(st1 & E1 & I1 & Hv)|(st1 & E1 & K & Hv & Hi & Hl & Ht)]].
  1, 4: exists 1%nat, st_MAX_ITER, st1; split; [exact E1|constructor; exact I1].
  1, 3: exists 1%nat, st_OPTIMAL, st1; split; [exact E1|constructor; [exact I1|left; exact Hv]].
  - lia.
  - destruct (step_L2_ok q st1 K) as [(st2 & E2 & I2 & Hv2)|(st2 & E2 & V & Hi2 & Ht2)].
    + exists (1 + 1)%nat, st_OPTIMAL, st2. rewrite steps_add, steps_one. cbn [step]. rewrite E1. split; [exact E2|]. constructor; [exact I2|right; exact Hv2].
    + destruct (L2a_run q Sy WS (q_iq st2) st2 (le_n _) V) as [(k & st3 & E3 & F)|(k & st3 & E3 & I3 & Hi3 & Ht3)].
      * exists (1 + (1 + k))%nat, st_UNBOUNDED, st3. rewrite !steps_add, !steps_one. cbn [step]. rewrite E1, steps_one. cbn [step]. rewrite E2. split; [exact E3|constructor; exact F].
      * destruct (IH st3) as (k4 & s & st4 & E4 & EN); [lia|exact I3|].
        exists (1 + (1 + (k + k4)))%nat, s, st4. rewrite !steps_add, !steps_one. cbn [step]. rewrite E1, steps_one. cbn [step]. rewrite E2, E3. split; [exact E4|].
        replace (q_tol st) with (q_tol st3) by congruence. exact EN.
Qed.

(** * The equalities *)
Lemma add_eq_ok q : symmetric q -> well_scaled q -> (e_E q <= e_n q)%nat -> forall todo i st,
  (i + todo = e_E q)%nat -> q_iq st = i -> inv q i 0 0 st ->
  (exists st', add_equalities q todo i st = Ok (Done st_REDUNDANT st') /\ eqs_dependent q) \/
  (exists st', add_equalities q todo i st = Ok (Next L1 st') /\ inv q (e_E q) 0 0 st' /\ q_iter st' = q_iter st /\ q_tol st' = q_tol st).
Proof.
  intros Sy WS En. induction todo as [|todo IH]; intros i st Hi Hq I.
  - right. exists st. split; [reflexivity|]. replace (e_E q) with i by lia. auto.
  - cbn [add_equalities]. cbv zeta. set (np := e_CE q i). set (iq := q_iq st) in *. set (n := e_n q) in *.
    set (d := compute_d n (q_J st) np). set (z := update_z n (q_J st) d iq). set (r := update_r (q_R st) d iq).
    destruct (Nat.ltb_spec n iq) as [Hn|_]; [lia|].
    assert (Hrow : is_row q np) by (left; exists i; split; [lia|reflexivity]).
    set (A' := setv (q_A st) i (- Z.of_nat i - 1)%Z).
    assert (HA : forall k, (k < iq)%nat -> A' k = q_A st k) by (intros; apply setv_ne; lia).
    assert (HAi : A' i = (- Z.of_nat i - 1)%Z) by apply setv_eq.
    destruct (add_row q _ _ _ st np A' WS I Hrow HA) as (b & R' & J' & Rn' & EA & C).
    { fold iq. rewrite Hq, HAi. apply normal_eq. }
    { fold iq n. lia. }
    fold n iq in EA, C. fold d in EA, C. fold z in C. rewrite EA. cbn [bind].
    destruct C as [(-> & Z)|(-> & P1 & P2 & HI & HF & HR1 & HR)].
    + left. eexists. split; [reflexivity|]. exists (fun k => if (k <? i)%nat then - r k else if (k =? i)%nat then 1 else 0). split.
      * exists i. split; [lia|]. rewrite Nat.ltb_irrefl, Nat.eqb_refl. lra.
      * intros j Hj. replace (sumf (e_E q)) with (sumf (i + (1 + todo))) by (f_equal; lia). rewrite !sumf_split.
        rewrite (sumf_zero todo). 2: { intros k Hk. rewrite (proj2 (Nat.ltb_ge _ _)), (proj2 (Nat.eqb_neq _ _)) by lia. ring. }
        cbn [sumf]. rewrite !Nat.add_0_r, Nat.ltb_irrefl, Nat.eqb_refl.
        pose proof (step_Hz q _ _ _ _ np (i_inv _ _ _ _ _ I) (i_fac _ _ _ _ _ I) (i_n _ _ _ _ _ I) j Hj) as Hz. cbv beta in Hz. fold n iq in Hz. fold d in Hz. fold z r in Hz.
        assert (E0 : hmul q z j = 0) by (unfold hmul; apply sumf_zero; intros; rewrite Z; ring).
        rewrite (sumf_ext i _ (fun k => - (r k * normal q (q_A st k) j))).
        -- rewrite sumf_opp. rewrite Hq in Hz. fold np. lra.
        -- intros k Hk. rewrite (proj2 (Nat.ltb_lt _ _)) by exact Hk. rewrite (i_eq _ _ _ _ _ I k Hk), normal_eq. ring.
    + rewrite (Rabs_pos_eq (dot n z z)) by (pose proof eps_pos; lra). destruct (Rlt_dec eps52 (dot n z z)) as [_|]; [|contradiction].
      set (t := (- dot n np (q_x st) - e_ce q i) / dot n z np).
      destruct (move q _ _ _ st np t Sy I) as (M1 & M2 & M3). fold n iq in M1, M2, M3. fold d in M1, M2, M3. fold z r in M1, M2, M3.
      match goal with |- context [add_equalities q todo (S i) ?s] => set (st' := s) end.
      assert (Hlast : dot n np (fun k => q_x st k + t * z k) + e_ce q i = 0).
      { rewrite dot_lin. unfold t. rewrite (dot_sym n z np). field. lra. }
      assert (I' : inv q (S i) 0 0 st').
      { constructor; unfold st'; qst_cbn.
        - lia.
        - lia.
        - fold n. lia.
        - exact HI.
        - exact HF.
        - intros k Hk. destruct (Nat.eq_dec k i) as [->|]; [exact HAi|]. rewrite HA by lia. apply (i_eq _ _ _ _ _ I). lia.
        - intros k Hk. lia.
        - intros k k' Hk. lia.
        - exact HR1.
        - exact HR.
        - intros j Hj. rewrite M1 by exact Hj. cbn [sumf]. rewrite setv_eq. rewrite Hq in *. rewrite HAi, normal_eq.
          rewrite (sumf_ext i (fun k => setv _ _ _ k * _) (fun k => (q_u st k - t * r k) * normal q (q_A st k) j)); [fold np; ring|].
          intros k Hk. rewrite setv_ne by lia. rewrite (proj2 (Nat.ltb_lt _ _)) by exact Hk. now rewrite HA by exact Hk.
        - intros k Hk. lia.
        - intros k Hk. destruct (Nat.eq_dec k i) as [->|].
          + rewrite HAi, normal_eq, offset_eq. exact Hlast.
          + rewrite HA by lia. apply M2. lia.
        - rewrite M3, (i_f _ _ _ _ _ I), (dot_sym n z np). ring.
        - intros j Hj E. destruct (i_iai _ _ _ _ _ I j Hj E) as (k & Hk & _). fold iq in Hk. lia. }
      destruct (IH (S i) st') as [(st2 & E2 & F)|(st2 & E2 & I2 & Hi2 & Ht2)]; [lia|unfold st'; qst_cbn; lia|exact I'|left|right]; exists st2.
      * split; [exact E2|exact F].
      * split; [exact E2|]. split; [exact I2|]. split; [exact Hi2|exact Ht2].
Qed.

(** * Everything *)
Lemma qform_dot q v : qform (e_n q) (e_H q) v = dot (e_n q) v (hmul q v).
Proof. reflexivity. Qed.
Lemma init_ok q mem : convex q -> exists L st, chol (e_n q) (e_H q) = Ok L /\ is_cholesky q L /\
  solve_init q mem = add_equalities q (e_E q) 0 st /\ q_iq st = 0%nat /\ inv q 0 0 0 st /\ q_iter st = 0%nat /\ q_tol st = tolerance q L.
Proof.
  intros [Sy PD]. destruct (chol_succeeds (e_n q) (e_H q) Sy) as (L & EL); [intros v Hv; rewrite qform_dot; apply PD; exact Hv|].
  destruct (chol_ok _ _ _ Sy EL) as (D & T & M). exists L. eexists. split; [exact EL|]. split; [repeat split; assumption|].
  unfold solve_init. rewrite EL. cbn [bind]. split; [reflexivity|]. split; [reflexivity|].
  assert (Hx : forall i, (i < e_n q)%nat -> hmul q (fun i => - chol_solve (e_n q) L (e_g q) i) i = - e_g q i).
  { intros i Hi. unfold hmul, dot. rewrite (sumf_ext (e_n q) _ (fun j => - (e_H q i j * chol_solve (e_n q) L (e_g q) j))) by (intros; ring).
    rewrite sumf_opp, chol_solve_ok by assumption. reflexivity. }
  split.
  - constructor; qst_cbn; try lia; try (intros; lia).
    + apply factor_inverts with (1 := D); assumption.
    + split; [|split]; intros; first [lia|reflexivity].
    + lra.
    + left. reflexivity.
    + intros i Hi. rewrite Hx by exact Hi. cbn [sumf]. ring.
    + unfold objective. rewrite (dot_ext _ _ (fun i => - chol_solve (e_n q) L (e_g q) i) (hmul q _) (fun i => - e_g q i)) by (auto; exact Hx).
      assert (E : forall x, dot (e_n q) x (fun i => - e_g q i) = - dot (e_n q) (e_g q) x).
      { intros x. unfold dot. rewrite <- sumf_opp. apply sumf_ext. intros; ring. }
      rewrite E. field.
  - qst_cbn. split; [reflexivity|]. unfold tolerance. do 2 f_equal. unfold trace. apply sumf_ext. intros i Hi. apply inv_diag; assumption.
Qed.

Lemma tolerance_nonneg q L : is_cholesky q L -> 0 <= tolerance q L.
Proof.
  intros (D & _ & M). unfold tolerance. pose proof eps_pos. repeat apply Rmult_le_pos; try lra; try apply pos_INR.
  - apply sumf_nonneg. intros i Hi. rewrite M by assumption. apply sumf_sq_nonneg.
  - apply sumf_nonneg. intros i Hi. left. apply Rinv_0_lt_compat. apply D. exact Hi.
Qed.

Theorem solve_ends q mem : convex q -> well_scaled q -> (e_E q <= e_n q)%nat ->
  exists L k s st, is_cholesky q L /\ execution q mem k = Ok (Done s st) /\ ends q (tolerance q L) s st.
Proof.
  intros C WS En. destruct (init_ok q mem C) as (L & st0 & _ & HL & EI & Hq & I & Hi & Ht). exists L.
  destruct (add_eq_ok q (proj1 C) WS En (e_E q) 0 st0 ltac:(lia) Hq I) as [(st1 & E1 & F)|(st1 & E1 & I1 & Hi1 & Ht1)].
  - exists 0%nat, st_REDUNDANT, st1. split; [exact HL|]. split; [|constructor; exact F]. unfold execution. cbn [steps]. rewrite EI. exact E1.
  - destruct (L1_run q (proj1 C) WS (e_max q) st1 ltac:(lia) I1) as (k & s & st2 & E2 & F). exists k, s, st2.
    split; [exact HL|]. split; [unfold execution; rewrite EI, E1; exact E2|]. rewrite <- Ht, <- Ht1. exact F.
Qed.
