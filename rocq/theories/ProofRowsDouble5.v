(** All the rows. *)
From Flocq Require Import Core BinarySingleNaN.
From Coq Require Import List Lia Lra.
From Verif Require Import Vec SpecBezier ModelData ModelUtils ModelCom ModelWaypoints ModelDispatch SpecCom Double ModelDouble ModelPtsDouble ModelCoefDouble ModelRowsDouble
  SpecDouble SpecDouble2 SpecPtsDouble SpecCoefDouble SpecRowsDouble
  ProofTime ProofDouble6 ProofDouble7 ProofWaypoints2 ProofCoefDouble5 ProofRowsDouble3 ProofRowsDouble4.
Import ListNotations.
Open Scope R_scope.

Lemma tagged_in : forall bs z tp, In tp (tagged_f z bs) -> exists b, In b bs /\ In (fst tp) b.
Proof.
  induction bs as [|b bs IH]; intros z tp H; [contradiction|]. cbn [tagged_f] in H. apply in_app_or in H as [H|H].
  - apply in_map_iff in H as (t & <- & H). exists b. split; [now left|exact H].
  - destruct (IH _ _ H) as (b' & H1 & H2). exists b'. split; [now right|exact H2].
Qed.
Lemma f2_weak {A B} (P Q : A -> B -> Prop) l m : (forall a b, P a b -> Q a b) -> Forall2 P l m -> Forall2 Q l m.
Proof. intros H. induction 1; constructor; auto. Qed.

Section Main.
  Variables (d : fdata) (pData : problem) (T : f64).
  Hypotheses (Hd : denotes d pData) (Hm : mild_data d) (FT : is_finite T = true) (T0 : 0 < B2R T) (TB : B2R T <= 2 ^ 200).
  Hypotheses (Hf : In (flag_of pData) com_flags) (Hc : flag_of pData = F_capture -> dc1 pData = vzero).

  Lemma c88_kinematics_at : let ev := eval_time T in
    forall sub fcs bs, subtracts sub -> Forall mild_contact fcs -> length fcs = length bs -> bs <> [] ->
      Forall (fun b => b <> [] /\ Forall (fun t => is_finite t = true /\ 0 <= B2R t) b) bs ->
    exists rows, assignKinematicConstraints_f sub d fcs T (tagged_f 0 bs) = Ok rows /\ Forall finite_row rows /\
    forall x, exists cv, com_curve pData (B2R T) x = Ok cv /\
      (forall del, Forall (fun r => holds del r x) rows -> forall i c t K k, nth_error fcs i = Some c -> in_force bs i t -> kin_of c K k ->
         vdot (fv_R K) (cv_fun cv (ev t)) <= B2R k + del + kin_err (degree cv) (B2R T) pData x (fv_R K) (B2R k)) /\
      (forall del, (forall i c t K k, nth_error fcs i = Some c -> in_force bs i t -> kin_of c K k ->
         vdot (fv_R K) (cv_fun cv (ev t)) + kin_err (degree cv) (B2R T) pData x (fv_R K) (B2R k) <= B2R k + del) ->
       Forall (fun r => holds del r x) rows).
  Proof.
    pose proof (c87_positions_at d pData T Hd Hm FT T0 TB Hf Hc) as Hs. pose proof (eval_evaluates T (conj FT T0)) as He. intro ev. fold ev in He, Hs. intros sub fcs bs Hsub Hk HL Hne Hb.
    assert (Nb : Forall (fun b : list f64 => b <> []) bs) by (revert Hb; apply Forall_impl; tauto).
    assert (Tok : times_ok (tagged_f 0 bs)).
    { apply Forall_forall. intros tp Hin. destruct (tagged_in _ _ _ Hin) as (b & H1 & H2). destruct (proj1 (Forall_forall _ _) Hb b H1) as [_ G]. exact (proj1 (Forall_forall _ _) G _ H2). }
    destruct (Hs _ Tok) as (ws & Ew & F). apply (blocks_split (fun t c => pos_ok pData T c (ev t))) in F as (wbs & -> & F).
    destruct (blocks_len _ _ _ F) as (Lw & Eends & Nw). specialize (Nw Nb).
    assert (Fit : Forall (fun c => length (fc_kin c) <= length (fc_Kin c))%nat fcs) by (revert Hk; apply Forall_impl; intros c G; apply G).
    assert (Eb : Forall (fun b : list R => b <> []) (map (map (fun a : f64 => B2R a)) bs)).
    { apply Forall_forall. intros b Hin. apply in_map_iff in Hin as (b0 & <- & Hin). pose proof (proj1 (Forall_forall _ _) Nb b0 Hin). destruct b0; [congruence|discriminate]. }
    exists (layout sub fcs wbs).
    assert (Er : forall i c t w K k, nth_error fcs i = Some c -> In t (concat bs) -> pos_ok pData T w (ev t) -> kin_of c K k ->
      finite_row (kin_row_f sub w K k) /\ forall x cv, com_curve pData (B2R T) x = Ok cv ->
        Rabs ((vdot (fv_R (fst (kin_row_f sub w K k))) x - B2R (snd (kin_row_f sub w K k))) - (vdot (fv_R K) (cv_fun cv (ev t)) - B2R k)) <= kin_err (degree cv) (B2R T) pData x (fv_R K) (B2R k)).
    { intros i c t w K k Ec Ht Hp (j & E1 & E2). destruct (proj1 (Forall_forall _ _) Hk c (nth_error_In _ _ Ec)) as (M1 & M2 & _).
      apply in_concat in Ht as (b & Hb1 & Hb2). destruct (proj1 (Forall_forall _ _) Hb b Hb1) as [_ G]. destruct (proj1 (Forall_forall _ _) G t Hb2) as [Ft Pt].
      apply (kin_near d pData T Hd Hm T0 TB Hf sub w (ev t) K k Hsub Hp (proj1 (He t Ft Pt)) (proj1 (Forall_forall _ _) M1 K (nth_error_In _ _ E1)) (proj1 (Forall_forall _ _) M2 k (nth_error_In _ _ E2))). }
    assert (Inc : forall i t, inf bs i t -> In t (concat bs)).
    { intros i t [(b & E & Hin)|(j & b & b' & _ & E & _)]; apply in_concat; [exists b|exists (b ++ [t])]; (split; [eapply nth_error_In; eassumption|]); [exact Hin|apply in_or_app; right; now left]. }
    split; [|split].
    - unfold assignKinematicConstraints_f. pose proof (tagged_eval (fun a => B2R a) bs 0) as Et. cbv beta in Et. rewrite Et.
      change (SpecTime.tagged_from 0 (map (map (fun a : f64 => B2R a)) bs)) with (SpecTime.tagged (map (map (fun a : f64 => B2R a)) bs)). rewrite stepIdPerPhase_tagged; [|exact Eb|destruct bs; [congruence|discriminate]].
      cbn [bind]. rewrite Ew. cbn [bind]. rewrite ends_map, <- Eends. apply (loop_ok sub fcs Fit wbs fcs [] [] 0%Z); [exact (eq_trans HL (eq_sym Lw))|intros ->; destruct bs; [congruence|discriminate Lw]|exact Nw|reflexivity|intros z []|reflexivity].
    - apply Forall_forall. intros r Hr. apply layout_in in Hr; [|exact (eq_trans HL (eq_sym Lw))]. destruct Hr as (i & c & w & Ec & Hi & Hr). apply krows_in in Hr as (K & k & HK & ->).
      destruct (inf_bwd _ _ _ _ _ F Hi) as (t & Ht & Rt). apply (Er i c t w K k Ec (Inc i t Ht) Rt HK).
    - intros x. destruct bs as [|b0 bs']; [congruence|]. pose proof (Forall_inv Nb) as Nb0. destruct b0 as [|t0 b0]; [exfalso; apply Nb0; reflexivity|].
      destruct (inf_fwd _ _ _ 0%nat t0 F) as (w0 & _ & R0); [left; exists (t0 :: b0); split; [reflexivity|now left]|]. destruct R0 as [_ R0]. destruct (R0 x) as (cv & Ecv & _).
      exists cv. split; [exact Ecv|]. split.
      + intros del Hall i c t K k Ec Ht HK. destruct (inf_fwd _ _ _ i t F Ht) as (w & Hw & Rt). destruct (Er i c t w K k Ec (Inc i t Ht) Rt HK) as [_ E]. specialize (E x cv Ecv).
        assert (Hin : In (kin_row_f sub w K k) (layout sub fcs wbs)) by (apply layout_in; [exact (eq_trans HL (eq_sym Lw))|]; exists i, c, w; split; [exact Ec|]; split; [exact Hw|apply krows_in; exists K, k; split; [exact HK|reflexivity]]).
        pose proof (proj1 (Forall_forall _ _) Hall _ Hin) as G. cbv beta in G. unfold holds in G. apply Rabs_le_inv in E. lra.
      + intros del H. apply Forall_forall. intros r Hr. apply layout_in in Hr; [|exact (eq_trans HL (eq_sym Lw))]. destruct Hr as (i & c & w & Ec & Hi & Hr). apply krows_in in Hr as (K & k & HK & ->).
        destruct (inf_bwd _ _ _ _ _ F Hi) as (t & Ht & Rt). destruct (Er i c t w K k Ec (Inc i t Ht) Rt HK) as [_ E]. specialize (E x cv Ecv). specialize (H i c t K k Ec Ht HK).
        unfold holds. apply Rabs_le_inv in E. lra.
  Qed.

  Lemma c88_accelerations_at : / 2 ^ 100 <= B2R T -> let ev := eval_time T in
    forall amax ta, mild amax -> times_ok ta ->
    exists rows, assignAccelerationConstraints_f d amax T ta = Ok rows /\ length rows = (6 * length ta)%nat /\ Forall finite_row rows /\
    forall x cv, com_curve pData (B2R T) x = Ok cv ->
      (forall del, Forall (fun r => holds del r x) rows -> forall tp, In tp ta -> exists v, is_deriv_n 2 (cv_fun cv) (ev (fst tp)) v /\
         forall ax, axis ax -> Rabs (ax v) <= B2R amax + del + accel_err (degree cv) (B2R T) pData x (B2R amax) ax) /\
      (forall del, (forall tp, In tp ta -> exists v, is_deriv_n 2 (cv_fun cv) (ev (fst tp)) v /\
         forall ax, axis ax -> Rabs (ax v) + accel_err (degree cv) (B2R T) pData x (B2R amax) ax <= B2R amax + del) ->
       Forall (fun r => holds del r x) rows).
  Proof.
    intros TL. pose proof (c87_accelerations_at d pData T Hd Hm FT T0 TB Hf Hc TL) as Hs. pose proof (eval_evaluates T (conj FT T0)) as He. intro ev. fold ev in He, Hs. intros amax ta Ha Tok. destruct (Hs _ Tok) as (ws & Ew & F).
    change (Forall2 (fun tp c => acc_ok pData T c (ev (fst tp))) ta ws) in F.
    set (rows := flat_map (fun co => acc_rows_f co (fmul #1 amax)) ws). exists rows.
    assert (Er : forall tp w, In tp ta -> acc_ok pData T w (ev (fst tp)) -> 0 <= ev (fst tp) <= B2R T).
    { intros tp w Hin _. destruct (proj1 (Forall_forall _ _) Tok tp Hin) as [Ft Pt]. exact (proj1 (He (fst tp) Ft Pt)). }
    split; [unfold assignAccelerationConstraints_f; rewrite Ew; reflexivity|]. split; [|split].
    - unfold rows. clear - F. induction F as [|tp w ta ws _ F IH]; [reflexivity|]. cbn [flat_map]. rewrite app_length, IH. cbn [length acc_rows_f]. lia.
    - apply Forall_forall. intros r Hr. apply in_flat_map in Hr as (w & Hw & Hr). destruct (f2_in_r _ _ _ _ F Hw) as (tp & Htp & Rw).
      destruct (acc_near d pData T Hd Hm T0 TB Hf amax w (ev (fst tp)) TL Rw (Er tp w Htp Rw) Ha) as [G _]. exact (proj1 (Forall_forall _ _) G r Hr).
    - intros x cv Ecv. split.
      + intros del Hall tp Htp. destruct (f2_in_l _ _ _ _ F Htp) as (w & Hw & Rw). destruct (acc_near d pData T Hd Hm T0 TB Hf amax w (ev (fst tp)) TL Rw (Er tp w Htp Rw) Ha) as [_ G].
        destruct Rw as [_ Rw]. destruct (Rw x) as (cv' & E' & v & Dv & _). rewrite Ecv in E'. injection E' as <-. exists v. split; [exact Dv|]. destruct (G x cv v Ecv Dv) as [_ G2].
        intros ax Hax. destruct (G2 ax 1 Hax (or_introl eq_refl)) as (r1 & I1 & B1). destruct (G2 ax (-1) Hax (or_intror eq_refl)) as (r2 & I2 & B2).
        assert (J1 : In r1 rows) by (apply in_flat_map; exists w; split; assumption). assert (J2 : In r2 rows) by (apply in_flat_map; exists w; split; assumption).
        pose proof (proj1 (Forall_forall _ _) Hall _ J1) as H1. pose proof (proj1 (Forall_forall _ _) Hall _ J2) as H2. cbv beta in H1, H2. unfold holds in H1, H2. apply Rabs_le_inv in B1, B2. apply Rabs_le. lra.
      + intros del H. apply Forall_forall. intros r Hr. apply in_flat_map in Hr as (w & Hw & Hr). destruct (f2_in_r _ _ _ _ F Hw) as (tp & Htp & Rw).
        destruct (acc_near d pData T Hd Hm T0 TB Hf amax w (ev (fst tp)) TL Rw (Er tp w Htp Rw) Ha) as [_ G]. destruct (H tp Htp) as (v & Dv & Hv). destruct (G x cv v Ecv Dv) as [G1 _].
        destruct (G1 r Hr) as (ax & sg & Hax & Hsg & B). specialize (Hv ax Hax). pose proof (Rle_abs (ax v)). pose proof (Rle_abs (- ax v)) as N. rewrite Rabs_Ropp in N.
        unfold holds. apply Rabs_le_inv in B. destruct Hsg as [-> | ->]; lra.
  Qed.
  Lemma c88_kinematics : exists ev, evaluates T ev /\
    forall sub fcs bs, subtracts sub -> Forall mild_contact fcs -> length fcs = length bs -> bs <> [] ->
      Forall (fun b => b <> [] /\ Forall (fun t => is_finite t = true /\ 0 <= B2R t) b) bs ->
    exists rows, assignKinematicConstraints_f sub d fcs T (tagged_f 0 bs) = Ok rows /\ Forall finite_row rows /\
    forall x, exists cv, com_curve pData (B2R T) x = Ok cv /\
      (forall del, Forall (fun r => holds del r x) rows -> forall i c t K k, nth_error fcs i = Some c -> in_force bs i t -> kin_of c K k ->
         vdot (fv_R K) (cv_fun cv (ev t)) <= B2R k + del + kin_err (degree cv) (B2R T) pData x (fv_R K) (B2R k)) /\
      (forall del, (forall i c t K k, nth_error fcs i = Some c -> in_force bs i t -> kin_of c K k ->
         vdot (fv_R K) (cv_fun cv (ev t)) + kin_err (degree cv) (B2R T) pData x (fv_R K) (B2R k) <= B2R k + del) ->
       Forall (fun r => holds del r x) rows).
  Proof. exists (eval_time T). split; [exact (eval_evaluates T (conj FT T0))|exact c88_kinematics_at]. Qed.
  Lemma c88_accelerations : / 2 ^ 100 <= B2R T -> exists ev, evaluates T ev /\
    forall amax ta, mild amax -> times_ok ta ->
    exists rows, assignAccelerationConstraints_f d amax T ta = Ok rows /\ length rows = (6 * length ta)%nat /\ Forall finite_row rows /\
    forall x cv, com_curve pData (B2R T) x = Ok cv ->
      (forall del, Forall (fun r => holds del r x) rows -> forall tp, In tp ta -> exists v, is_deriv_n 2 (cv_fun cv) (ev (fst tp)) v /\
         forall ax, axis ax -> Rabs (ax v) <= B2R amax + del + accel_err (degree cv) (B2R T) pData x (B2R amax) ax) /\
      (forall del, (forall tp, In tp ta -> exists v, is_deriv_n 2 (cv_fun cv) (ev (fst tp)) v /\
         forall ax, axis ax -> Rabs (ax v) + accel_err (degree cv) (B2R T) pData x (B2R amax) ax <= B2R amax + del) ->
       Forall (fun r => holds del r x) rows).
  Proof. intros TL. exists (eval_time T). split; [exact (eval_evaluates T (conj FT T0))|exact (c88_accelerations_at TL)]. Qed.
End Main.
