(** C98: mixtures of two motions of a problem. *)
From Coq Require Import List Lia Lra.
From Verif Require Import Vec SpecBezier SpecTime ModelData ModelDispatch ModelUtils ModelCont ModelSolver ModelTraj
  SpecCom SpecWp SpecCtr SpecTraj SpecEnd SpecBest SpecMix ProofBezier ProofCurve ProofWaypoints ProofWaypoints2 ProofWaypointsErr ProofCom3 ProofTraj ProofTraj2 ProofTraj3 ProofBest ProofDepends ProofDepends2.
Import ListNotations.
Open Scope R_scope.

Section Mix.
  Variables (p : problem) (Ts : list R).
  Hypothesis WP : well_posed p Ts.
  Variables (x y : vec3) (l : R).
  Variables cvx cvy cvz : bcurve.
  Hypothesis HX : com_curve p (total Ts) x = Ok cvx.
  Hypothesis HY : com_curve p (total Ts) y = Ok cvy.
  Hypothesis HZ : com_curve p (total Ts) (mixed l x y) = Ok cvz.

  (** position and acceleration, as functions of the free point *)
  Lemma mix_parts t : exists a b (s q : vec3), forall z cv, com_curve p (total Ts) z = Ok cv ->
    cv_fun cv t = vadd (vscal a z) s /\ is_deriv_n 2 (cv_fun cv) t (vadd (vscal b z) q).
  Proof.
    pose proof (total_posd p Ts WP) as HT. pose proof (proj1 WP) as Hf.
    unfold com_curve in HX. destruct (computeConstantWaypoints p (total Ts)) as [pi| |] eqn:Epi; cbn [bind] in HX; try discriminate.
    destruct (c02_ok p (total Ts) x pi cvx (t / total Ts) Hf Epi HX) as (co & E1 & _).
    destruct (c03_ok p (total Ts) x pi cvx (t / total Ts) Hf Epi HX) as (ca & E2 & _).
    exists (fst co), (fst ca), (snd co), (snd ca). intros z cv Hz. unfold com_curve in Hz. rewrite Epi in Hz. cbn [bind] in Hz.
    destruct (c02_ok p (total Ts) z pi cv (t / total Ts) Hf Epi Hz) as (co' & E1' & F1). rewrite E1 in E1'. injection E1' as <-.
    destruct (c03_ok p (total Ts) z pi cv (t / total Ts) Hf Epi Hz) as (ca' & E2' & F2). rewrite E2 in E2'. injection E2' as <-.
    replace (t / total Ts * total Ts) with t in * by (field; lra). split; [rewrite <- F1; reflexivity|exact F2].
  Qed.
  Lemma mix_fun t : cv_fun cvz t = mixed l (cv_fun cvx t) (cv_fun cvy t).
  Proof.
    destruct (mix_parts t) as (a & b & s & q & H). rewrite (proj1 (H _ _ HX)), (proj1 (H _ _ HY)), (proj1 (H _ _ HZ)).
    unfold mixed. apply v3_eq; cbn; ring.
  Qed.
  Lemma mix_acc t ax ay : is_deriv_n 2 (cv_fun cvx) t ax -> is_deriv_n 2 (cv_fun cvy) t ay -> is_deriv_n 2 (cv_fun cvz) t (mixed l ax ay).
  Proof.
    intros Hx Hy. destruct (mix_parts t) as (a & b & s & q & H).
    rewrite (is_deriv_n_unique 2 _ _ _ _ _ (fun _ => eq_refl) Hx (proj2 (H _ _ HX))), (is_deriv_n_unique 2 _ _ _ _ _ (fun _ => eq_refl) Hy (proj2 (H _ _ HY))).
    pose proof (proj2 (H _ _ HZ)) as D. replace (mixed l (vadd (vscal b x) q) (vadd (vscal b y) q)) with (vadd (vscal b (mixed l x y)) q); [exact D|].
    unfold mixed. apply v3_eq; cbn; ring.
  Qed.
  (** the wrench is affine: the product of the free point with itself vanishes *)
  Lemma mix_giw m g t ax ay : is_deriv_n 2 (cv_fun cvx) t ax -> is_deriv_n 2 (cv_fun cvy) t ay ->
    giw m g (cv_fun cvz t) (mixed l ax ay) = (mixed l (fst (giw m g (cv_fun cvx t) ax)) (fst (giw m g (cv_fun cvy t) ay)), mixed l (snd (giw m g (cv_fun cvx t) ax)) (snd (giw m g (cv_fun cvy t) ay))).
  Proof.
    intros Hx Hy. destruct (mix_parts t) as (a & b & s & q & H).
    rewrite (is_deriv_n_unique 2 _ _ _ _ _ (fun _ => eq_refl) Hx (proj2 (H _ _ HX))), (is_deriv_n_unique 2 _ _ _ _ _ (fun _ => eq_refl) Hy (proj2 (H _ _ HY))).
    rewrite (proj1 (H _ _ HX)), (proj1 (H _ _ HY)), (proj1 (H _ _ HZ)). unfold giw, mixed. cbn [fst snd].
    destruct x as [x1 x2 x3], y as [y1 y2 y3], s as [s1 s2 s3], q as [q1 q2 q3], g as [g1 g2 g3].
    f_equal; apply v3_eq; cbn; ring.
  Qed.
  Hypothesis HL : 0 <= l <= 1.
  Lemma mix_le u v b : u <= b -> v <= b -> (1 - l) * u + l * v <= b.
  Proof. intros. nra. Qed.
  Lemma mix_abs u v b : Rabs u <= b -> Rabs v <= b -> Rabs ((1 - l) * u + l * v) <= b.
  Proof. unfold Rabs. repeat destruct (Rcase_abs _); intros; nra. Qed.
  Lemma mix_feasible times : plan_feasible p times (cv_fun cvx) -> plan_feasible p times (cv_fun cvy) -> plan_feasible p times (cv_fun cvz).
  Proof.
    intros Fx Fy i c t Hc Ht. destruct (Fx i c t Hc Ht) as ((Kx & ph & ax & Eph & Ax & Cx) & Bx). destruct (Fy i c t Hc Ht) as ((Ky & ph' & ay & Eph' & Ay & Cy) & By).
    rewrite Eph in Eph'. injection Eph' as <-. split; [split|].
    - intros j K k HK Hk. specialize (Kx j K k HK Hk). specialize (Ky j K k HK Hk). rewrite mix_fun.
      replace (vdot K (mixed l (cv_fun cvx t) (cv_fun cvy t))) with ((1 - l) * vdot K (cv_fun cvx t) + l * vdot K (cv_fun cvy t)) by (unfold mixed, vdot; cbn; ring).
      apply mix_le; assumption.
    - exists ph, (mixed l ax ay). split; [exact Eph|]. split; [apply mix_acc; assumption|]. rewrite (mix_giw _ _ t ax ay Ax Ay).
      unfold cone_ok in *. rewrite Forall_forall in *. intros Hh HI. specialize (Cx Hh HI). specialize (Cy Hh HI).
      set (wx := giw (cp_mass ph) (cp_gravity ph) (cv_fun cvx t) ax) in *. set (wy := giw (cp_mass ph) (cp_gravity ph) (cv_fun cvy t) ay) in *.
      replace (dot6 (fst Hh) (mixed l (fst wx) (fst wy), mixed l (snd wx) (snd wy))) with ((1 - l) * dot6 (fst Hh) wx + l * dot6 (fst Hh) wy) by (unfold dot6, mixed, vdot; cbn; ring).
      apply mix_le; assumption.
    - intros KA. destruct (Bx KA) as (ax' & Ax' & (X1 & X2 & X3)). destruct (By KA) as (ay' & Ay' & (Y1 & Y2 & Y3)). exists (mixed l ax' ay'). split; [apply mix_acc; assumption|].
      set (B := k_maxAcceleration (constr p)) in *.
      repeat split; unfold mixed; cbn; apply mix_abs; assumption.
  Qed.
  Lemma mix_norm (u v : vec3) : vnorm2 (mixed l u v) <= (1 - l) * vnorm2 u + l * vnorm2 v.
  Proof.
    assert (E : vnorm2 (mixed l u v) = (1 - l) * vnorm2 u + l * vnorm2 v - l * (1 - l) * vnorm2 (vsub u v)) by (unfold vnorm2, vdot, mixed; cbn; ring).
    assert (0 <= vnorm2 (vsub u v)) by (unfold vnorm2, vdot; nra). rewrite E. assert (0 <= l * (1 - l)) by nra. nra.
  Qed.
  Lemma mix_cost ta sx sy sz : plan_cost p ta x (cv_fun cvx) sx -> plan_cost p ta y (cv_fun cvy) sy -> plan_cost p ta (mixed l x y) (cv_fun cvz) sz ->
    sz <= (1 - l) * sx + l * sy.
  Proof.
    intros [[C ->]|[C (axs & Fx & ->)]] [[C' ->]|[C' (ays & Fy & ->)]] [[C'' ->]|[C'' Fz]]; try (rewrite C in C'; discriminate C'); try (rewrite C in C''; discriminate C'').
    - pose proof (mix_norm (vsub x (mid_of p)) (vsub y (mid_of p))) as N.
      replace (vsub (mixed l x y) (mid_of p)) with (mixed l (vsub x (mid_of p)) (vsub y (mid_of p))) by (unfold mixed; apply v3_eq; cbn; ring). exact N.
    - destruct Fz as (azs & Fz & ->). revert axs ays azs Fx Fy Fz. induction ta as [|tp ta IH]; intros axs ays azs Fx Fy Fz; inversion Fx; inversion Fy; inversion Fz; subst; cbn [map sum_list fold_right]; [lra|].
      specialize (IH _ _ _ H3 H8 H13). unfold sum_list in IH.
      rewrite (is_deriv_n_unique 2 _ _ _ _ _ (fun _ => eq_refl) H11 (mix_acc _ _ _ H1 H6)). pose proof (mix_norm y0 y1). lra.
  Qed.
End Mix.

Lemma c98_mix p Ts x y l cvx cvy cvz : well_posed p Ts -> 0 <= l <= 1 -> com_curve p (total Ts) x = Ok cvx -> com_curve p (total Ts) y = Ok cvy ->
  com_curve p (total Ts) (mixed l x y) = Ok cvz ->
  (forall t, cv_fun cvz t = mixed l (cv_fun cvx t) (cv_fun cvy t)) /\
  (forall times, plan_feasible p times (cv_fun cvx) -> plan_feasible p times (cv_fun cvy) -> plan_feasible p times (cv_fun cvz)) /\
  forall ta sx sy sz, plan_cost p ta x (cv_fun cvx) sx -> plan_cost p ta y (cv_fun cvy) sy -> plan_cost p ta (mixed l x y) (cv_fun cvz) sz ->
    sz <= (1 - l) * sx + l * sy.
Proof.
  intros WP HL HX HY HZ. split; [exact (mix_fun p Ts WP x y l cvx cvy cvz HX HY HZ)|].
  split; [exact (mix_feasible p Ts WP x y l cvx cvy cvz HX HY HZ HL)|exact (mix_cost p Ts WP x y l cvx cvy cvz HX HY HZ HL)].
Qed.

Section Results.
  Variables (scaled wg : bool) (quadprog : qp -> list R -> outcome (Z * list R * R)) (glpk : lp -> outcome (Z * R * list R)).
  Hypothesis QS : qp_sound quadprog.
  Hypothesis LS : lp_sound glpk.
  Lemma c98_results p Ts m n r r' l : plannable p Ts -> proper m -> proper n -> 0 <= l <= 1 ->
    call scaled wg quadprog glpk p Ts m = Ok r -> rc_success r = true -> call scaled wg quadprog glpk p Ts n = Ok r' -> rc_success r' = true ->
    exists x y cv, rc_x r = l3 x /\ rc_x r' = l3 y /\ com_curve p (total Ts) (mixed l x y) = Ok cv /\
      (forall t, cv_fun cv t = mixed l (cv_fun (rc_c r) t) (cv_fun (rc_c r') t)) /\ meets_boundary p (total Ts) (cv_fun cv) /\
      plan_feasible p (fun i t => sampled Ts m i t /\ sampled Ts n i t) (cv_fun cv).
  Proof.
    intros PL PM PN HL E S E' S'. pose proof PL as (WP & _ & _).
    destruct (call_feasible scaled wg quadprog glpk p Ts PL QS LS m r PM E S) as ((_ & (x & Ex & Hx) & _) & Fx).
    destruct (call_feasible scaled wg quadprog glpk p Ts PL QS LS n r' PN E' S') as ((_ & (y & Ey & Hy) & _) & Fy).
    destruct (com_curve_total p (total Ts) (mixed l x y) (proj1 WP) (proj1 (proj2 WP)) (total_posd p Ts WP)) as [cv Hz].
    destruct (c98_mix p Ts x y l _ _ cv WP HL Hx Hy Hz) as (M1 & M2 & _).
    exists x, y, cv. split; [exact Ex|]. split; [exact Ey|]. split; [exact Hz|]. split; [exact M1|]. split; [exact (proj2 (proj2 (boundary_ok p (total Ts) _ cv (proj1 WP) Hz)))|].
    apply M2; intros i c t Hc [H1 H2]; [exact (Fx i c t Hc H1)|exact (Fy i c t Hc H2)].
  Qed.
End Results.

(** two back ends *)
Lemma c99_one scaled wg1 wg2 qp1 qp2 lp1 lp2 : qp_solves qp1 -> qp_sound qp1 -> lp_sound lp1 -> qp_solves qp2 ->
  forall p Ts m ta r, plannable p Ts -> proper m -> cost_times Ts m ta -> cost_decides p Ts ta ->
  call scaled wg1 qp1 lp1 p Ts m = Ok r -> rc_success r = true -> call scaled wg2 qp2 lp2 p Ts m = Ok r.
Proof.
  intros Q1 S1 L1 Q2 p Ts m ta r PL PR CT CD E S.
  destruct (call_feasible scaled wg1 qp1 lp1 p Ts PL S1 L1 m r PR E S) as ((_ & (x & Ex & Hx) & _) & Fx).
  destruct (call_opt scaled wg1 qp1 lp1 Q1 p Ts PL m ta x _ PR CT CD Hx Fx) as (r1 & x1 & H1 & g1 & G1 & E1 & _ & _ & B1 & T1).
  destruct (call_opt scaled wg2 qp2 lp2 Q2 p Ts PL m ta x _ PR CT CD Hx Fx) as (r2 & x2 & H2 & g2 & G2 & E2 & _ & _ & B2 & T2).
  rewrite E in E1. injection E1 as <-. rewrite G1 in G2. injection G2 as <- <-.
  destruct (best_unique scaled wg1 qp1 lp1 p Ts PL m ta x1 _ x2 _ PR CT CD B1 B2) as [<- _]. rewrite T1 in T2. injection T2 as <-. exact E2.
Qed.
Lemma c99_iff scaled wg1 wg2 qp1 qp2 lp1 lp2 : qp_solves qp1 -> qp_sound qp1 -> lp_sound lp1 -> qp_solves qp2 -> qp_sound qp2 -> lp_sound lp2 ->
  forall p Ts m r, plannable p Ts -> costFunction p = DISTANCE_TRAVELED \/ costFunction p = ACCELERATION -> proper m -> rc_success r = true ->
  (call scaled wg1 qp1 lp1 p Ts m = Ok r <-> call scaled wg2 qp2 lp2 p Ts m = Ok r).
Proof.
  intros Q1 S1 L1 Q2 S2 L2 p Ts m r PL HC PR S.
  assert (X : exists ta, cost_times Ts m ta).
  { pose proof PL as (WP & (g & SG) & Hf). destruct m as [dt|n]; cbn [cost_times proper] in *; [|eexists; reflexivity].
    destruct (c15_step p Ts dt g WP PR SG Hf) as (ta & _ & Et & _). exists ta. exact Et. }
  destruct X as [ta CT]. pose proof (c96_decides p Ts m ta PL HC PR CT) as CD. split; intros E.
  - exact (c99_one scaled wg1 wg2 qp1 qp2 lp1 lp2 Q1 S1 L1 Q2 p Ts m ta r PL PR CT CD E S).
  - exact (c99_one scaled wg2 wg1 qp2 qp1 lp2 lp1 Q2 S2 L2 Q1 p Ts m ta r PL PR CT CD E S).
Qed.
