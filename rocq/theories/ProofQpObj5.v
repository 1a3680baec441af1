(** The solver object: what the calls return. *)
From Coq Require Import Lia Lra List FunctionalExtensionality.
From Verif Require Import Vec SpecBezier ModelData ModelSolver ModelQp ModelQpObj SpecQp SpecQpObj ProofBezier ProofQp ProofQp2 ProofQp3 ProofQp4 ProofQp5 ProofQp6 ProofQp7 ProofQpObj ProofQpObj2 ProofQpObj3 ProofQpObj4.
Open Scope R_scope.

Lemma fit_fits mem p s : fits s p -> fit mem p s = s.
Proof. intros (A & B & C). unfold fit. rewrite A, B, C, !Nat.eqb_refl. reflexivity. Qed.
Lemma fit_not mem p s : ~ fits s p -> fit mem p s = reset mem (e_n p) (e_E p) (e_I p) s.
Proof.
  intros N. unfold fit. destruct (Nat.eqb_spec (v_n s) (e_n p)), (Nat.eqb_spec (v_E s) (e_E p)), (Nat.eqb_spec (v_I s) (e_I p)); try reflexivity.
  exfalso. apply N. split; [|split]; assumption.
Qed.
Lemma gives_unique c status x s status' x' s' : (forall k r, c k = Ok (Some r) -> forall j, c (k + j)%nat = Ok (Some r)) ->
  gives c status x s -> gives c status' x' s' -> status = status' /\ x = x' /\ s = s'.
Proof.
  intros HM (k & E) (k' & E'). pose proof (HM k _ E k') as A. pose proof (HM k' _ E' k) as B.
  rewrite Nat.add_comm in B. rewrite A in B. injection B. auto.
Qed.
Lemma answer_done s p q o k status x s' : answer s p (steps q k o) = Ok (Some (status, x, s')) ->
  exists st, steps q k o = Ok (Done status st) /\ x = q_x st /\ s' = after s p status st.
Proof.
  unfold answer. destruct (steps q k o) as [[l st|t st]| |]; try discriminate. cbn [bind]. intros E. injection E as <- <- <-. exists st. auto.
Qed.

(** * The given inverse *)
Section Given.
  Variables (mem : qst) (s : solver) (p : eqp) (J : rmat).
  Let s0 := give_inverse J s.
  Let q := limited (v_max s) p.
  Lemma given_call k : fits s p ->
    solve_quadprog_dense mem s0 p k = answer s0 p (steps q k (add_equalities q (e_E q) 0 (start_given p (v_st s0)))).
  Proof. intros F. unfold solve_quadprog_dense, call. rewrite (fit_fits mem p s0) by exact F. reflexivity. Qed.
  Hypotheses (F : fits s p) (HJ : inverse_factor p J) (C : convex p) (W : well_scaled p) (E : (e_E p <= e_n p)%nat).
  Let tol := INR (e_I p) * eps52 * trace (e_n p) (e_H p) * trace (e_n p) J * 100.
  Let x0 : rvec := fun i => sumf (e_n p) (fun c => J i c * sumf (e_n p) (fun k => J k c * e_g p k)).
  Lemma given_gives : exists status st, gives (solve_quadprog_dense mem s0 p) status (q_x st) (after s0 p status (addf (dot (e_n p) (e_g p) x0) st)) /\
    ends (limited (v_max s) (flipped p)) tol status st.
  Proof.
    destruct (given_run p J (v_max s) HJ (v_st s0) C W E eq_refl) as (k & status & st & E1 & F1). exists status, st. split; [|exact F1].
    exists k. rewrite given_call by exact F. fold q in E1. rewrite E1. reflexivity.
  Qed.
  Lemma given_ends status x s' : gives (solve_quadprog_dense mem s0 p) status x s' -> exists st, x = q_x st /\
    s' = after s0 p status (addf (dot (e_n p) (e_g p) x0) st) /\ ends (limited (v_max s) (flipped p)) tol status st.
  Proof.
    intros (k & E0). rewrite given_call in E0 by exact F. apply answer_done in E0. destruct E0 as (st1 & E1 & -> & ->).
    destruct (given_run p J (v_max s) HJ (v_st s0) C W E eq_refl) as (k2 & status2 & st & E2 & F2). fold q in E2.
    destruct (steps_unique _ _ _ _ _ _ _ _ E1 E2) as [-> ->]. exists st. split; [reflexivity|]. split; [reflexivity|exact F2].
  Qed.
  Lemma given_value w : (forall i, (i < e_n p)%nat -> hmul p w i = e_g p i) -> dot (e_n p) (e_g p) x0 = dot (e_n p) (e_g p) w.
  Proof.
    intros Hw. destruct C as [_ PD]. apply dot_ext; [reflexivity|]. intros i Hi.
    destruct (Req_dec (x0 i - w i) 0) as [Z|Z]; [lra|]. exfalso.
    assert (HZ : forall k, (k < e_n p)%nat -> hmul p (fun i => x0 i - w i) k = 0).
    { intros k Hk. pose proof (given_min p J HJ k Hk) as G. fold x0 in G. specialize (Hw k Hk).
      enough (hmul p (fun i => x0 i - w i) k + hmul p w k = hmul p x0 k) by lra. unfold hmul, dot. rewrite <- sumf_plus. apply sumf_ext. intros; ring. }
    pose proof (PD (fun i => x0 i - w i) (ex_intro _ i (conj Hi Z))) as P. unfold dot in P. rewrite sumf_zero in P; [lra|].
    intros k Hk. rewrite HZ by exact Hk. ring.
  Qed.
  Lemma c57_opposite status x s' : gives (solve_quadprog_dense mem s0 p) status x s' -> status = st_OPTIMAL \/ status = st_MAX_ITER ->
    eqs_hold p x /\ (forall y, feasible p y -> objective (flipped p) x <= objective (flipped p) y) /\
    (forall w, (forall i, (i < e_n p)%nat -> hmul p w i = e_g p i) -> getObjValue s' = objective (flipped p) x + dot (e_n p) (e_g p) w) /\
    (status = st_OPTIMAL -> violation p x <= Rmax 0 (INR (e_I p) * eps52 * trace (e_n p) (e_H p) * trace (e_n p) J * 100) /\
       (violation p x = 0 -> forall y, feasible p y -> objective (flipped p) y <= objective (flipped p) x -> forall k, (k < e_n p)%nat -> y k = x k)) /\
    inverse_factor p (q_J (v_st s')).
  Proof.
    intros G HS. destruct (given_ends _ _ _ G) as (st & -> & -> & EN). set (q' := limited (v_max s) (flipped p)) in *.
    assert (I : inv q' (e_E q') 0 0 st) by (destruct EN; try assumption; destruct HS; discriminate).
    assert (C' : convex q') by exact C.
    split; [exact (inv_eqs _ _ I)|]. split.
    { intros y (Y1 & Y2). apply (inv_min q' st y C' I Y1). intros j Hj _. apply (Y2 j Hj). }
    split. { intros w Hw. unfold getObjValue, after, addf. cbn [v_st q_f]. rewrite (i_f _ _ _ _ _ I), (given_value w Hw). reflexivity. }
    split; [|exact (i_inv _ _ _ _ _ I)].
    intros HO. subst status. split.
    - remember st_OPTIMAL as so eqn:ES. destruct EN as [st2 I2 V| | |]; try discriminate. change (violation q' (q_x st2) <= Rmax 0 tol).
      destruct V as [V|V]; [pose proof (Rmax_r 0 tol)|pose proof (Rmax_l 0 tol)]; lra.
    - intros V y (Y1 & Y2) YO. apply (inv_min q' st y C' I Y1); [intros j Hj _; apply (Y2 j Hj)|exact YO].
  Qed.
End Given.
Lemma c57_unconstrained mem s p J : fits s p -> inverse_factor p J -> e_E p = 0%nat -> e_I p = 0%nat -> (1 < getMaxIter s)%nat ->
  exists x s', gives (solve_quadprog_dense mem (give_inverse J s) p) st_OPTIMAL x s' /\ forall i, (i < e_n p)%nat -> hmul p x i = e_g p i.
Proof.
  intros F HJ HE HI HM. exists (q_x (start_given p (v_st (give_inverse J s)))). eexists. split; [|exact (given_min p J HJ)].
  exists 1%nat. rewrite given_call by exact F. change (e_E (limited (v_max s) p)) with (e_E p). rewrite HE. cbn [add_equalities steps step].
  unfold step_L1. cbv zeta. change (e_E (limited (v_max s) p)) with (e_E p). change (e_I (limited (v_max s) p)) with (e_I p). rewrite HE, HI.
  destruct (Nat.leb_spec (e_max (limited (v_max s) p)) (S (q_iter (start_given p (v_st (give_inverse J s)))))) as [L|_].
  { cbn in L. unfold getMaxIter in HM. lia. }
  cbn [start_given start q_iq Nat.sub mark bind sumf q_tol]. rewrite Rabs_R0, HI. cbn [INR]. destruct (Rle_dec 0 _) as [_|N]; [reflexivity|exfalso; apply N; lra].
Qed.

(** * A given inverse that does not survive *)
Section Zero.
  Variables (mem : qst) (s : solver) (p : eqp) (J : rmat).
  Hypotheses (NF : ~ fits s p) (HM : (1 < getMaxIter s)%nat).
  Let s0 := give_inverse J s.
  Let q := limited (v_max s) p.
  Let st0 := start_given p (v_st (reset mem (e_n p) (e_E p) (e_I p) s0)).
  Lemma zero_call k : solve_quadprog_dense mem s0 p k = answer s0 p (steps q k (add_equalities q (e_E q) 0 st0)).
  Proof. unfold solve_quadprog_dense, call. rewrite (fit_not mem p s0) by exact NF. reflexivity. Qed.
  Lemma zero_x i : q_x st0 i = 0.
  Proof. cbn. apply sumf_zero. intros; ring. Qed.
  Lemma zero_J i j : q_J st0 i j = 0.
  Proof. reflexivity. Qed.
  Lemma zero_tol : q_tol st0 = 0.
  Proof. cbn. unfold trace at 2. rewrite (sumf_zero (e_n p) (fun _ => 0)) by reflexivity. ring. Qed.
  Lemma zero_slack i : slack p (q_x st0) i = e_ci p i.
  Proof. unfold slack, dot. rewrite sumf_zero; [ring|]. intros k _. rewrite zero_x. ring. Qed.
  Lemma zero_viol : violation p (q_x st0) = violation p (fun _ => 0).
  Proof.
    apply sumf_ext. intros i _. rewrite zero_slack. unfold slack, dot. rewrite sumf_zero by (intros; ring). rewrite Rplus_0_l. reflexivity.
  Qed.
  Lemma zero_d np c : compute_d (e_n p) (q_J st0) np c = 0.
  Proof. unfold compute_d. apply sumf_zero. intros i _. rewrite zero_J. ring. Qed.
  Lemma zero_ineqs : e_E p = 0%nat ->
    exists x s', gives (solve_quadprog_dense mem s0 p) (if Rle_dec (violation p (fun _ => 0)) 0 then st_OPTIMAL else st_UNBOUNDED) x s' /\ forall i, x i = 0.
  Proof.
    intros HE. destruct (Rle_dec (violation p (fun _ => 0)) 0) as [V|V].
    - exists (q_x st0). eexists. split; [exists 1%nat|exact zero_x]. rewrite zero_call. change (e_E q) with (e_E p). rewrite HE. cbn [add_equalities steps step].
      unfold step_L1. cbv zeta. change (e_E q) with (e_E p). rewrite HE. destruct (Nat.leb_spec (e_max q) (S (q_iter st0))) as [L|_]; [cbn in L; unfold getMaxIter in HM; lia|].
      cbn [Nat.sub]. change (q_iq st0) with 0%nat. cbn [Nat.sub mark bind].
      match goal with |- context [sumf (e_I q) ?f] => change f with (fun i => Rmin 0 (slack q (q_x st0) i)) end. rewrite psi_violation, zero_tol.
      change (violation q (q_x st0)) with (violation p (q_x st0)). rewrite zero_viol. destruct (Rle_dec _ 0) as [_|N]; [reflexivity|contradiction].
    - set (st1 := Qst (q_x st0) (q_u st0) (q_A st0) 0 (q_R st0) (q_J st0) (q_Rn st0) (q_f st0) 1 (fun i => dot (e_n p) (e_CI p i) (q_x st0) + e_ci p i) 0 0
        (q_iai st0) (fun _ => true) (q_x st0) (fun i => if (i <? 0)%nat then q_u st0 i else q_uo st0 i) (fun i => if (i <? 0)%nat then q_A st0 i else q_Ao st0 i) (q_tol st0)).
      assert (E1 : step_L1 q st0 = Ok (Next L2 st1)).
      { unfold step_L1. cbv zeta. change (e_E q) with (e_E p). rewrite HE. destruct (Nat.leb_spec (e_max q) (S (q_iter st0))) as [L|_]; [cbn in L; unfold getMaxIter in HM; lia|].
        change (q_iq st0) with 0%nat. cbn [Nat.sub mark bind].
        match goal with |- context [sumf (e_I q) ?f] => change f with (fun i => Rmin 0 (slack q (q_x st0) i)) end. rewrite psi_violation, zero_tol.
        change (violation q (q_x st0)) with (violation p (q_x st0)). rewrite zero_viol. destruct (Rle_dec _ 0) as [N|_]; [contradiction|]. unfold st1. rewrite zero_tol. reflexivity. }
      assert (E2 : exists st2, step_L2 q st1 = Ok (Next L2a st2) /\ q_iq st2 = 0%nat /\ q_J st2 = q_J st0 /\ q_x st2 = q_x st0).
      { unfold step_L2. destruct (worst (e_I q) 0 st1 (q_ss st1) (q_ip st1)) as [ss ip] eqn:EW. pose proof (worst_ok st1 _ _ _ _ _ _ EW) as (_ & _ & WK).
        destruct (Rle_dec 0 ss) as [S0|S0].
        - exfalso. apply V. right. apply sumf_zero. intros i Hi. apply Rmax_left.
          assert (Z : ss <= q_s st1 i). { apply WK; [cbn; lia|cbn; lia|reflexivity]. }
          assert (ZE : q_s st1 i = slack p (fun _ => 0) i).
          { change (slack p (q_x st0) i = slack p (fun _ => 0) i). rewrite zero_slack. unfold slack, dot. rewrite sumf_zero by (intros; ring). ring. }
          lra.
        - change (q_iq st1) with 0%nat. change (e_I q + e_E q)%nat with (e_I p + e_E p)%nat. rewrite HE. destruct (Nat.leb_spec (e_I p + 0) 0) as [L|_].
          + exfalso. apply V. right. unfold violation. replace (e_I p) with 0%nat by lia. reflexivity.
          + eexists. split; [reflexivity|]. repeat split. }
      destruct E2 as (st2 & E2 & Q2 & J2 & X2). exists (q_x st2). eexists. split; [exists 3%nat|intros i; rewrite X2; apply zero_x].
      rewrite zero_call. change (e_E q) with (e_E p). rewrite HE. cbn [add_equalities steps step]. rewrite E1. cbn [step]. rewrite E2. cbn [step].
      unfold step_L2a. cbv zeta. rewrite Q2, J2. change (e_E q) with (e_E p). rewrite HE. cbn [Nat.sub dual_step]. change (e_n q) with (e_n p).
      assert (ZZ : forall z : rvec, (forall i, z i = 0) -> dot (e_n p) z z = 0) by (intros z Hz; apply sumf_zero; intros i _; rewrite Hz; ring).
      rewrite ZZ.
      + rewrite Rabs_R0. destruct (Rlt_dec eps52 0) as [B|_]; [pose proof eps_pos; lra|]. reflexivity.
      + intros i. destruct (_ <=? _)%nat; [reflexivity|]. unfold update_z. apply sumf_zero. intros c _. rewrite zero_d. ring.
  Qed.
  Lemma add_loop_zero iq J' : forall cnt (d : rvec), (forall i, d i = 0) -> add_loop iq cnt d J' = (d, J').
  Proof.
    induction cnt as [|cnt IH]; intros d Hd; [reflexivity|]. cbn [add_loop]. rewrite !Hd.
    assert (Z : distance 0 0 = 0).
    { unfold distance. rewrite Rabs_R0. destruct (Rlt_dec 0 0); [lra|]. ring. }
    rewrite Z. destruct (Req_EM_T 0 0) as [_|]; [apply IH; exact Hd|contradiction].
  Qed.
  Lemma zero_eqs : (0 < e_E p)%nat -> (0 < e_n p)%nat ->
    exists x s', gives (solve_quadprog_dense mem s0 p) st_REDUNDANT x s' /\ forall i, x i = 0.
  Proof.
    intros HE Hn. eexists _, _. split; [exists 0%nat; rewrite zero_call; change (e_E q) with (e_E p); destruct (e_E p) as [|e]; [lia|]; cbn [add_equalities steps]|].
    - change (q_iq st0) with 0%nat. cbn [Nat.ltb Nat.leb]. replace (S (e_n q) <=? 0)%nat with false by reflexivity.
      unfold add_constraint. change (e_n q) with (e_n p). destruct (Nat.leb_spec (e_n p) 0) as [L|_]; [lia|].
      rewrite add_loop_zero by (intros; apply zero_d). rewrite zero_d, Rabs_R0. pose proof eps_pos. change (q_Rn st0) with 1.
      destruct (Rle_dec 0 (eps52 * 1)) as [_|N]; [|exfalso; apply N; lra]. cbn [bind]. unfold answer. cbn [bind]. reflexivity.
    - intros i. cbn [q_x]. rewrite zero_x. unfold update_z. rewrite (sumf_zero (e_n p - 0)); [ring|].
      intros c _. rewrite zero_d. ring.
  Qed.
End Zero.
