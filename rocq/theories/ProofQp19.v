(** QP solver: the minimiser under the equalities alone, when it meets the inequalities. *)
From Coq Require Import Lia Lra Psatz FunctionalExtensionality.
From Verif Require Import Vec SpecBezier ModelData ModelSolver ModelQp SpecQp SpecQp2 SpecEnd3
  ProofBezier ProofQp ProofQp2 ProofQp3 ProofQp4 ProofQp5 ProofQp6 ProofQp7 ProofQp13 ProofQp14 ProofQp16 ProofQp17 ProofQp18 SpecQp.
Import ListNotations.
Open Scope R_scope.

(** After the equalities the multipliers are exact too. *)
Lemma eadd_inv q lam : symmetric q -> weighted q lam -> eqs_apart q -> forall todo i st,
  (i + todo = e_E q)%nat -> q_iq st = i -> inv q i 0 0 st ->
  exists st', add_equalities q todo i st = Ok (Next L1 st') /\ inv q (e_E q) 0 0 st' /\ q_iq st' = e_E q /\ q_iter st' = q_iter st /\ q_tol st' = q_tol st.
Proof.
  intros Sy C AP. induction todo as [|todo IH]; intros i st Hi Hq I.
  - exists st. split; [reflexivity|]. replace (e_E q) with i by lia. auto.
  - assert (I0 : einv q i st) by (constructor; apply I).
    cbn [add_equalities]. cbv zeta. set (np := e_CE q i). set (iq := q_iq st) in *. set (n := e_n q) in *.
    set (d := compute_d n (q_J st) np). set (z := update_z n (q_J st) d iq). set (r := update_r (q_R st) d iq).
    pose proof (i_n _ _ _ _ _ I) as Hnn. fold iq n in Hnn. destruct (Nat.ltb_spec n iq) as [Hn|_]; [lia|].
    assert (Hrow : is_row q np) by (left; exists i; split; [lia|reflexivity]).
    set (A' := setv (q_A st) i (- Z.of_nat i - 1)%Z).
    assert (HA : forall k, (k < iq)%nat -> A' k = q_A st k) by (intros; apply setv_ne; lia).
    assert (HAi : A' i = (- Z.of_nat i - 1)%Z) by apply setv_eq.
    pose proof (step_orth q _ _ _ _ np (i_fac _ _ _ _ _ I) (i_n _ _ _ _ _ I)) as Ho. cbv beta in Ho. fold n iq in Ho. fold d in Ho. fold z in Ho.
    assert (P1 : eps52 < dot n z z).
    { apply (AP i z r ltac:(lia)).
      - intros j Hj. pose proof (step_Hz q _ _ _ _ np (i_inv _ _ _ _ _ I) (i_fac _ _ _ _ _ I) (i_n _ _ _ _ _ I) j Hj) as Hz. cbv beta in Hz. fold n iq in Hz. fold d in Hz. fold z r in Hz.
        rewrite Hz. f_equal. rewrite Hq. apply sumf_ext. intros k Hk. rewrite (i_eq _ _ _ _ _ I k Hk), normal_eq. reflexivity.
      - intros k Hk. rewrite <- (normal_eq q k), <- (i_eq _ _ _ _ _ I k Hk). apply Ho. lia. }
    destruct (eadd q lam _ st np A' C I0 Hrow HA) as (R' & J' & Rn' & EA & Hn & P2 & HI & HF & HR1 & HR).
    { fold iq. rewrite Hq, HAi. apply normal_eq. }
    { exact P1. }
    fold n iq in EA, P2, Hn. fold d in EA, P2. fold z in P2. rewrite EA. cbn [bind].
    rewrite (Rabs_pos_eq (dot n z z)) by (pose proof eps_pos; lra). destruct (Rlt_dec eps52 (dot n z z)) as [_|]; [|contradiction].
    set (t := (- dot n np (q_x st) - e_ce q i) / dot n z np).
    match goal with |- context [add_equalities q todo (S i) ?s] => set (st' := s) end.
    destruct (move q _ _ _ st np t Sy I) as (M1 & M2 & M3). fold n iq in M1, M2, M3. fold d in M1, M2, M3. fold z r in M1, M2, M3.
    assert (I' : inv q (S i) 0 0 st').
    { constructor; unfold st'; qst_cbn.
      - lia.
      - lia.
      - fold n. lia.
      - exact HI.
      - exact HF.
      - intros k Hk. destruct (Nat.eq_dec k i) as [->|]; [exact HAi|]. rewrite HA by lia. apply (i_eq _ _ _ _ _ I). lia.
      - intros k Hk. lia.
      - intros k k' Hk. lia.
      - exact HR1.
      - exact HR.
      - intros j Hj. rewrite M1 by exact Hj. cbn [sumf].
        rewrite setv_eq. rewrite Hq in *. rewrite HAi, normal_eq.
        rewrite (sumf_ext i (fun k => setv _ _ _ k * _) (fun k => (q_u st k - t * r k) * normal q (q_A st k) j)); [fold np; ring|].
        intros k Hk. rewrite setv_ne by lia. rewrite (proj2 (Nat.ltb_lt _ _)) by exact Hk. now rewrite HA by exact Hk.
      - intros k Hk. lia.
      - intros k Hk. destruct (Nat.eq_dec k i) as [->|].
        + rewrite dot_lin. rewrite HAi, normal_eq, offset_eq. fold np. unfold t. rewrite (dot_sym n z np). fold n. field. lra.
        + rewrite HA by lia. fold n. apply M2. lia.
      - rewrite M3. rewrite (i_f _ _ _ _ _ I), (dot_sym n z np). ring.
      - intros j Hj E. destruct (i_iai _ _ _ _ _ I j Hj E) as (k & Hk & _). fold iq in Hk. lia. }
    destruct (IH (S i) st') as (st2 & E2 & I2 & Hq2 & Hi2 & Ht2); [lia|unfold st'; qst_cbn; lia|exact I'|]. exists st2.
    split; [exact E2|]. split; [exact I2|]. split; [exact Hq2|]. split; [exact Hi2|exact Ht2].
Qed.
(** A point that satisfies the equalities costs at least as much as the point the
    equalities lead to. *)
Lemma inv_opt_eqs q st y : symmetric q -> inv q (e_E q) 0 0 st -> q_iq st = e_E q -> eqs_hold q y ->
  objective q (q_x st) + 1 / 2 * dot (e_n q) (fun k => y k - q_x st k) (hmul q (fun k => y k - q_x st k)) <= objective q y.
Proof.
  intros Sy I Hq Ye. set (z := fun k => y k - q_x st k).
  replace y with (fun k => q_x st k + 1 * z k) by (apply functional_extensionality; intros k; unfold z; ring).
  rewrite obj_move by exact Sy. enough (P : 0 = dot (e_n q) z (fun i => hmul q (q_x st) i + e_g q i)) by lra.
  rewrite (dot_ext _ z z _ (fun i => sumf (q_iq st) (fun k => q_u st k * normal q (q_A st k) i))).
  2: reflexivity.
  2: { intros i Hi. rewrite (i_st _ _ _ _ _ I i Hi). ring. }
  rewrite dot_sum. symmetry. apply sumf_zero. intros k Hk. rewrite (dot_sym _ z).
  assert (E : dot (e_n q) (normal q (q_A st k)) z = dot (e_n q) (normal q (q_A st k)) y - dot (e_n q) (normal q (q_A st k)) (q_x st)).
  { unfold dot, z. rewrite <- sumf_minus. apply sumf_ext. intros; ring. }
  pose proof (i_act _ _ _ _ _ I k Hk) as A. rewrite Hq in Hk.
  rewrite (i_eq _ _ _ _ _ I k Hk), normal_eq, offset_eq in *. specialize (Ye k Hk). unfold eq_gap in Ye.
  change (q_u st k * dot (e_n q) (e_CE q k) z = 0). rewrite E. replace (dot (e_n q) (e_CE q k) y - dot (e_n q) (e_CE q k) (q_x st)) with 0 by lra. ring.
Qed.
Lemma c72_direct q mem lam y : symmetric q -> weighted q lam -> eqs_apart q -> (1 < e_max q)%nat ->
  feasible q y -> (forall z, eqs_hold q z -> objective q y <= objective q z) ->
  exists st, execution q mem 1 = Ok (Done st_OPTIMAL st) /\ (forall k, (k < e_n q)%nat -> q_x st k = y k) /\ q_f st = objective q y.
Proof.
  intros Sy C AP Hm [Ye Yi] HM. pose proof (weighted_convex q lam Sy C) as HC.
  destruct (init_ok q mem HC) as (L & st0 & _ & HL & EI & Hq & I & Hi & Ht).
  destruct (eadd_inv q lam Sy C AP (e_E q) 0 st0 ltac:(lia) Hq I) as (st1 & E1 & I1 & Hq1 & Hi1 & Ht1).
  pose proof (inv_opt_eqs q st1 y Sy I1 Hq1 Ye) as O. pose proof (HM _ (inv_eqs q st1 I1)) as M.
  assert (XE : forall k, (k < e_n q)%nat -> q_x st1 k = y k).
  { intros k Hk. destruct (Req_dec (y k - q_x st1 k) 0) as [E|E]; [lra|]. exfalso.
    pose proof (proj2 HC _ (ex_intro (fun i => (i < e_n q)%nat /\ (fun k => y k - q_x st1 k) i <> 0) k (conj Hk E))). lra. }
  assert (V0 : violation q (q_x st1) = 0).
  { unfold violation. apply sumf_zero. intros j Hj. specialize (Yi j Hj). unfold slack in *.
    rewrite (dot_ext (e_n q) (e_CI q j) (e_CI q j) (q_x st1) y) by auto. apply Rmax_left. lra. }
  assert (OE : objective q (q_x st1) = objective q y).
  { unfold objective. rewrite (dot_ext (e_n q) (q_x st1) y (hmul q (q_x st1)) (hmul q y)); [|assumption|].
    - f_equal. apply dot_ext; auto.
    - intros i Hi'. unfold hmul. apply dot_ext; auto. }
  assert (E2 : execution q mem 1 = step_L1 q st1) by (unfold execution; rewrite EI, E1; reflexivity).
  pose proof (tolerance_nonneg q L HL) as TN.
  destruct (step_L1_ok q st1 I1) as [(st & E & _)|[(st & E & I2 & V)|(st & E & I2 & V & _)]].
  - exfalso. unfold step_L1 in E. cbv zeta in E. rewrite Hi1, Hi in E. destruct (Nat.leb_spec (e_max q) 1); [lia|].
    destruct (mark _ _ _ _ _); cbn [bind] in E; try discriminate E. destruct (Rle_dec _ _) in E; discriminate E.
  - assert (X : q_x st = q_x st1 /\ q_f st = q_f st1).
    { unfold step_L1 in E. cbv zeta in E. destruct (_ <=? _)%nat in E; [discriminate E|].
      destruct (mark _ _ _ _ _); cbn [bind] in E; try discriminate E. destruct (Rle_dec _ _) in E; [|discriminate E]. injection E as <-. qst_cbn. auto. }
    destruct X as [X1 X2]. exists st. rewrite E2. split; [exact E|]. rewrite X1, X2. split; [exact XE|]. rewrite (i_f _ _ _ _ _ I1). exact OE.
  - exfalso. assert (X : q_x st = q_x st1).
    { unfold step_L1 in E. cbv zeta in E. destruct (_ <=? _)%nat in E; [discriminate E|].
      destruct (mark _ _ _ _ _); cbn [bind] in E; try discriminate E. destruct (Rle_dec _ _) in E; [discriminate E|]. injection E as <-. reflexivity. }
    rewrite X, V0, Ht1, Ht in V. lra.
Qed.
