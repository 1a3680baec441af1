(** The returned curve between the samples of the two discretisations. *)
From Flocq Require Import Core BinarySingleNaN.
From Coq Require Import List Lia Lra.
From Verif Require Import Vec SpecBezier SpecTime ModelData ModelUtils ModelWaypoints ModelDispatch SpecCom SpecCtr SpecGap Double ModelDouble ModelPtsDouble ModelCoefDouble ModelRowsDouble
  SpecDouble SpecDouble2 SpecGapDouble SpecPtsDouble SpecCoefDouble SpecRowsDouble SpecPlanDouble
  ProofCurve ProofDouble6 ProofDouble7 ProofGapDouble ProofPlanDouble.
Import ListNotations.
Open Scope R_scope.

Section Main.
  Variables (d : fdata) (pData : problem) (T : f64).
  Hypotheses (Hd : denotes d pData) (Hm : mild_data d) (FT : is_finite T = true) (T0 : 0 < B2R T) (TB : B2R T <= 2 ^ 200).
  Hypotheses (Hf : In (flag_of pData) com_flags) (Hc : flag_of pData = F_capture -> dc1 pData = vzero) (TL : / 2 ^ 100 <= B2R T).
  Let ev := eval_time T.
  Let HT : posf T := conj FT T0.

  (** from two samples to what lies between *)
  Lemma between x cf c amax del M h a b t : bc_T cf = B2R T -> 0 <= M -> Forall (within M) (bc_pts cf) -> 0 <= a -> a <= t <= b -> b <= a + h -> b <= B2R T ->
    (forall s, s = a \/ s = b -> meets c amax (cv_fun cf) s (fun K k => del + kin_tol (degree cf) (B2R T) pData x K k) (fun ax => del + acc_tol (degree cf) (B2R T) pData x (B2R amax) ax)) ->
    meets_between pData (B2R T) x c amax cf del M h t.
  Proof.
    intros ET M0 HM Ha Ht Hh Hb H. assert (T1 : 0 < bc_T cf) by (rewrite ET; exact T0). assert (Dg : degree cf = Nat.pred (length (bc_pts cf))) by (unfold degree; lia). unfold meets_between. cbv zeta. rewrite Dg in *. rewrite <- ET in Hb, H |- *. split.
    - intros K k HK. destruct (H a (or_introl eq_refl)) as [Ka _]. destruct (H b (or_intror eq_refl)) as [Kb _].
      pose proof (kin_between cf M a b h (fv_R K) _ t T1 M0 HM Ha Ht Hh Hb (Ka K k HK) (Kb K k HK)) as G. lra.
    - exists (curve (hodo_n 2 (bc_T cf) (bc_pts cf)) (bc_T cf) t). split; [apply (curve_is_deriv_n 2)|]. intros ax Hax.
      pose proof (acc_between cf M a b h ax (B2R amax + (del + acc_tol (Nat.pred (length (bc_pts cf))) (bc_T cf) pData x (B2R amax) ax)) t T1 M0 HM Ha Ht Hh Hb Hax) as G.
      assert (X : forall s, s = a \/ s = b -> exists v, is_deriv_n 2 (cv_fun cf) s v /\ Rabs (ax v) <= B2R amax + (del + acc_tol (Nat.pred (length (bc_pts cf))) (bc_T cf) pData x (B2R amax) ax)).
      { intros s Hs. destruct (H s Hs) as [_ (v & Dv & Bv)]. exists v. split; [exact Dv|apply Bv, Hax]. }
      specialize (G X). lra.
  Qed.

  Lemma dummy (Ts : list f64) : Ts <> [] -> Forall posf Ts -> exists p, well_posed p (map (fun d : f64 => B2R d) Ts).
  Proof.
    intros N P. exists (Problem (repeat (Contact (Some (CPhase [] 1 vzero [])) [] [] [] []) (length Ts)) (c0 pData) (dc0 pData) (ddc0 pData) (j0 pData) (c1 pData) (dc1 pData) (ddc1 pData) (j1 pData) (l0 pData)
      (useAngularMomentum pData) (constr pData) (costFunction pData) (representation pData)).
    split; [exact Hf|]. split; [exact Hc|]. split; [intros E; apply map_eq_nil in E; contradiction|]. split; [rewrite Forall_map; eapply Forall_impl; [|exact P]; intros a Q; apply Q|].
    cbn [contacts]. split; [rewrite repeat_length, map_length; reflexivity|]. apply Forall_forall. intros c Hin. apply repeat_spec in Hin. subst c.
    exists (CPhase [] 1 vzero []). cbn [cd_phase cp_mass cp_poly cd_kin cd_Kin length]. repeat split; [lra|apply Forall_nil|lia].
  Qed.
  Lemma blocks_fit (bs : list (list f64)) : Forall (fun b => b <> []) bs -> (forall b t, In b bs -> In t b -> is_finite t = true /\ 0 <= B2R t) ->
    Forall (fun b => b <> [] /\ Forall (fun t => is_finite t = true /\ 0 <= B2R t) b) bs.
  Proof. intros N F. apply Forall_forall. intros b Hb. split; [exact (proj1 (Forall_forall _ _) N b Hb)|]. apply Forall_forall. intros t Ht. exact (F b t Hb Ht). Qed.

  Lemma plan_step Ts dt fuel ta : Ts <> [] -> Forall posf Ts -> posf dt -> is_finite (end_f Ts (length Ts)) = true -> computeDiscretizedTime_f fuel Ts dt = Some ta ->
    forall sub fcs amax, subtracts sub -> Forall mild_contact fcs -> length fcs = length Ts -> mild amax -> exists ev rk ra,
    evaluates T ev /\
    (B2R T <= B2R (end_f Ts (length Ts)) -> forall t, 0 <= t <= B2R T -> exists i, (i < length Ts)%nat /\ ev (start_f Ts i) <= t <= ev (end_f Ts i)) /\
    assignKinematicConstraints_f sub d fcs T ta = Ok rk /\ assignAccelerationConstraints_f d amax T ta = Ok ra /\
    forall x, exists cf, com_curve_f d T x = Ok cf /\
      forall del M, 0 <= M -> Forall (within M) (bc_pts cf) -> Forall (fun r => holds del r x) (rk ++ ra) ->
      forall i c t, nth_error fcs i = Some c -> ev (start_f Ts i) <= t <= ev (end_f Ts i) ->
        meets_between pData (B2R T) x c amax cf del M (gap_step (B2R T) (B2R dt)) t.
  Proof.
    intros N HP Hdt HF HE sub fcs amax Hsub Hk HL Ha. destruct step_blocks with (1 := HP) (2 := Hdt) (3 := HF) (4 := HE) as (bs & E & L & W & Nb & F). destruct (dummy Ts N HP) as (p' & WP).
    assert (NB : bs <> []) by (intros X; rewrite X in L; destruct Ts; [apply N; reflexivity|discriminate L]).
    destruct (at_samples d pData T Hd Hm FT T0 TB Hf Hc TL sub fcs bs amax Hsub Hk (eq_trans HL (eq_sym L)) NB Ha (blocks_fit bs Nb F)) as (rk & ra & Ek & Ea & G).
    pose proof (eval_evaluates T HT) as Ev. exists (eval_time T), rk, ra. split; [exact Ev|]. split; [exact (cover_step p' Ts T dt fuel ta WP HP HF HE _ Ev (eval_0 T HT))|].
    rewrite E. split; [exact Ek|]. split; [exact Ea|]. intros x. destruct (G x) as (cf & Ef & ET & Hs). exists cf. split; [exact Ef|].
    intros del M M0 HM Hr i c t Ec Ht. assert (Hi : (i < length Ts)%nat) by (rewrite <- HL; apply nth_error_Some; congruence).
    destruct (nth_error bs i) as [b|] eqn:Eb; [|apply nth_error_None in Eb; lia].
    destruct (walk_gap Ts T dt HP HT Hdt HF (eval_time T) i b t Hi Ev (W i b Eb) Ht) as (a & a' & Ia & Ia' & B & D).
    destruct (F b a (nth_error_In _ _ Eb) Ia) as [Fa Pa]. destruct (F b a' (nth_error_In _ _ Eb) Ia') as [Fa' Pa'].
    apply (between x cf c amax del M _ (eval_time T a) (eval_time T a')); [exact ET|exact M0|exact HM|apply (Ev a Fa Pa)|exact B|exact D|apply (Ev a' Fa' Pa')|].
    intros s [-> | ->]; apply (Hs del Hr i c); try exact Ec; left; exists b; split; assumption.
  Qed.

  Lemma plan_fixed (Ts : list f64) p del0 : Ts <> [] -> Forall posf Ts -> (1 <= p)%nat -> (Z.of_nat (length Ts) * Z.of_nat p < 2 ^ 53)%Z ->
    total (map (fun d : f64 => B2R d) Ts) <= IZR (2 ^ 1000) -> (forall d, In d Ts -> / IZR (2 ^ 1022) <= B2R d / INR p) ->
    Rabs (B2R T - total (map (fun d : f64 => B2R d) Ts)) <= del0 ->
    let arr := computeDiscretizedTimeFixed_f T Ts p in
    forall sub fcs amax, subtracts sub -> Forall mild_contact fcs -> length fcs = length Ts -> mild amax -> exists ev rk ra,
    evaluates T ev /\
    (forall t, 0 <= t <= B2R T -> exists i s zs e ze, (i < length Ts)%nat /\
       nth_error arr (i * p) = Some (s, zs) /\ nth_error arr (i * p + p) = Some (e, ze) /\ ev s <= t <= ev e) /\
    assignKinematicConstraints_f sub d fcs T arr = Ok rk /\ assignAccelerationConstraints_f d amax T arr = Ok ra /\
    forall x, exists cf, com_curve_f d T x = Ok cf /\
      forall del M, 0 <= M -> Forall (within M) (bc_pts cf) -> Forall (fun r => holds del r x) (rk ++ ra) ->
      forall i c D s zs e ze t, nth_error fcs i = Some c -> nth_error Ts i = Some D ->
        nth_error arr (i * p) = Some (s, zs) -> nth_error arr (i * p + p) = Some (e, ze) -> ev s <= t <= ev e ->
        meets_between pData (B2R T) x c amax cf del M (gap_fixed (length Ts) p (total (map (fun d : f64 => B2R d) Ts)) del0 (B2R T) (B2R D)) t.
  Proof.
    intros N HP Hp H53 LT HN HD arr sub fcs amax Hsub Hk HL Ha. destruct (dummy Ts N HP) as (p' & WP).
    destruct (fixed_cells p' Ts T p WP HP HT Hp H53 LT HN) as (cs & E & L & B). destruct (ws_facts p' Ts p WP HP Hp H53 LT HN cs L B) as (L2 & Nb & F & Et).
    assert (B' : forall a b, nth_error cs a = Some b -> length b = p) by (intros a b Hb; apply (B a b Hb)).
    assert (NB : with_start cs <> []) by (intros X; rewrite X in L2; destruct Ts; [apply N; reflexivity|discriminate L2]).
    destruct (at_samples d pData T Hd Hm FT T0 TB Hf Hc TL sub fcs _ amax Hsub Hk (eq_trans HL (eq_sym L2)) NB Ha (blocks_fit _ Nb F)) as (rk & ra & Ek & Ea & G).
    rewrite Et, <- E in Ek, Ea. fold arr in E, Ek, Ea.
    pose proof (eval_evaluates T HT) as Ev. exists (eval_time T), rk, ra. split; [exact Ev|]. split; [exact (cover_fixed p' Ts T p del0 WP HP HT Hp H53 LT HN HD _ Ev (eval_0 T HT))|].
    split; [exact Ek|]. split; [exact Ea|]. intros x. destruct (G x) as (cf & Ef & ET & Hs). exists cf. split; [exact Ef|].
    intros del M M0 HM Hr i c D s zs e ze t Ec HDi Es Ee Ht. assert (Hi : (i < length Ts)%nat) by (apply nth_error_Some; congruence).
    destruct (fixed_near p' Ts T p del0 WP HP HT Hp H53 LT HN HD (eval_time T) i D s e zs ze t Ev HDi Es Ee Ht) as (j & j' & a & za & a' & za' & Hj & Hj' & E1 & E2 & Bt & Dg & P0 & PT).
    assert (Sf : forall u, sample_of (with_start cs) i u -> in_force (with_start cs) i u).
    { intros u [K|(i' & b' & K1 & K2)]; [left; exact K|]. right. destruct (nth_error (with_start cs) i) as [b''|] eqn:Eb; [|apply nth_error_None in Eb; lia]. exists i', b', b''. rewrite <- K1. auto. }
    apply (between x cf c amax del M _ (eval_time T a) (eval_time T a')); [exact ET|exact M0|exact HM|exact P0|exact Bt|exact Dg|exact PT|].
    intros u [-> | ->]; apply (Hs del Hr i c); try exact Ec; apply Sf, (cells_sample Ts p Hp cs L B' i _ Hi).
    - exists j, za. split; [exact Hj|]. rewrite <- E. exact E1.
    - exists j', za'. split; [exact Hj'|]. rewrite <- E. exact E2.
  Qed.
End Main.
