(** Concrete inputs for the theorems of PropertiesEnd2.v: standing still at (0,0,4/5)
    (the problem of ExamplesTraj.v). *)
From Coq Require Import Lia Lra Psatz.
From Verif Require Import Vec SpecBezier SpecTime ModelData ModelWaypoints ModelDispatch ModelUtils ModelRows ModelCom ModelNd ModelCont ModelSolver ModelTraj ModelQp
  SpecCom SpecWp SpecCtr SpecCont SpecSolver SpecTraj SpecEnd SpecEnd2 ProofCurve ProofWaypoints2 ProofTime ProofEmit ProofCom ProofCom2 ProofCom3 ProofNd ProofCont ProofCont2 ProofCont3 ProofCont4 ProofCont5 ProofCont6 ProofCont7 ProofCont10 ProofTraj3 ProofQp3 ProofEnd ProofEnd2
  PropertiesCont PropertiesEnd PropertiesEnd2 ExamplesCom ExamplesTraj ExamplesEnd SpecQp.
Open Scope R_scope.

Lemma st_long : long_phases [1; 1/2].
Proof. repeat constructor; lra. Qed.
Lemma st_ws : exists ws, computeWwaypoints (st_pb DISTANCE_TRAVELED) (total [1; 1/2]) = Ok ws /\ length ws = 4%nat.
Proof. eexists. split; [reflexivity|reflexivity]. Qed.
Lemma st_ctrl_rate ws : computeWwaypoints (st_pb DISTANCE_TRAVELED) (total [1; 1/2]) = Ok ws ->
  wrench_ctrl_rate (st_pb DISTANCE_TRAVELED) (total [1; 1/2]) (V3 0 0 (-981/100)) (length ws) 171.
Proof.
  intros E. apply (C62_rate (st_pb DISTANCE_TRAVELED) (total [1; 1/2]) (V3 0 0 (-981/100)) 10 1 (BCurve [V3 0 0 (4/5); V3 0 0 (4/5); vzero; V3 0 0 (4/5)] (3/2)) ws 171).
  - cbn; tauto.
  - reflexivity.
  - rewrite st_total. cbv [com_curve]. cbn. unfold mk_bezier. destruct (Rle_dec (3/2) 0); [lra|].
    unfold vzero. repeat f_equal; apply v3_eq; cbn; field.
  - repeat (apply Forall_cons; [apply vnorm_bound; [lra|unfold vnorm2, vdot; cbn; lra]|]). apply Forall_nil.
  - apply vnorm_bound; [lra|unfold vnorm2, vdot; cbn; lra].
  - exact E.
  - rewrite st_total. lra.
Qed.
Lemma curve4 p T t : T <> 0 -> curve [p; p; p; p] T t = p.
Proof. intros HT. apply v3_eq; cbv [length pred map curve bez3 bezl bez sumf bern binom nth vx vy vz Nat.add Nat.sub INR pow]; field; exact HT. Qed.
Lemma curve2 p T t : T <> 0 -> curve [p; p] T t = p.
Proof. intros HT. apply v3_eq; cbv [length pred map curve bez3 bezl bez sumf bern binom nth vx vy vz Nat.add Nat.sub INR pow]; field; exact HT. Qed.
Lemma st_ctrl scaled : ctrl_feasible scaled (st_pb DISTANCE_TRAVELED) [1; 1/2] 4 st_cv.
Proof.
  intros i c ph Pc Pa Pw Hc Hph L1 C1 L2 C2 L3 C3. pose proof (st_feasible DISTANCE_TRAVELED (fun _ _ => True) i c 0 Hc I) as ((K & ph' & acc & Hph' & Hacc & CO) & _).
  rewrite Hph in Hph'. injection Hph' as <-. apply st_acc in Hacc. subst acc. rewrite st_pos in K, CO.
  assert (Hlt : phase_start [1; 1/2] i < phase_end [1; 1/2] i) by (destruct i as [|[|i]]; [| |destruct i; discriminate]; unfold phase_start, phase_end; cbn; lra).
  assert (HT : phase_end [1; 1/2] i - phase_start [1; 1/2] i <> 0) by lra.
  rewrite (ctrl_pos_uniq Pc [st_x; st_x; st_x; st_x] _ _ _ Hlt L1 C1) by (intros t; rewrite curve4 by exact HT; apply st_pos).
  rewrite (ctrl_acc_uniq Pa [vzero; vzero] _ _ _ Hlt L2 C2) by (intros t a Ha; rewrite curve2 by exact HT; exact (st_acc t a Ha)).
  set (w := giw (cp_mass ph) (cp_gravity ph) st_x vzero) in *.
  rewrite (ctrl_giw_uniq Pw [w; w; w; w] _ _ _ _ Hlt L3 C3).
  2: { intros t a Ha. rewrite (st_acc t a Ha), st_pos. unfold curve6. cbn [map]. rewrite !curve4 by exact HT. fold w. destruct w; reflexivity. }
  split; [|split].
  - repeat (constructor; [exact K|]). constructor.
  - assert (W : within (acc_bound scaled (st_pb DISTANCE_TRAVELED) [1; 1/2]) vzero).
    { assert (0 <= acc_bound scaled (st_pb DISTANCE_TRAVELED) [1; 1/2]) by (unfold acc_bound; rewrite st_total; destruct scaled; cbn; lra).
      repeat split; cbn; rewrite Rabs_R0; assumption. }
    repeat (constructor; [exact W|]). constructor.
  - repeat (constructor; [exact CO|]). constructor.
Qed.

(** The hypotheses of C62 and C63_best hold, and the plan succeeds: it stands still. *)
Example ex_C62_continuous : forall scaled wg mem glpk, exists pi ws,
  well_posed (st_pb DISTANCE_TRAVELED) [1; 1/2] /\ splittable [1; 1/2] /\ same_gravity (st_pb DISTANCE_TRAVELED) (V3 0 0 (-981/100)) /\
  representation (st_pb DISTANCE_TRAVELED) = DOUBLE_DESCRIPTION /\ In (flag_of (st_pb DISTANCE_TRAVELED)) exact_w_flags /\
  computeConstantWaypoints (st_pb DISTANCE_TRAVELED) (total [1; 1/2]) = Ok pi /\ computeWwaypoints (st_pb DISTANCE_TRAVELED) (total [1; 1/2]) = Ok ws /\
  cost_weight (st_pb DISTANCE_TRAVELED) [1; 1/2] (computeDiscretizedTimeFixed [1; 1/2] 7) 1 /\
  on_scale (st_pb DISTANCE_TRAVELED) 1 171 1 /\ acc_ctrl_rate scaled [1; 1/2] <= 171 /\
  wrench_ctrl_rate (st_pb DISTANCE_TRAVELED) (total [1; 1/2]) (V3 0 0 (-981/100)) (length ws) 171 /\
  exists r, computeCOMTraj scaled wg (solve_quadprog mem) glpk (st_pb DISTANCE_TRAVELED) [1; 1/2] (-1) SOLVER_QUADPROG = Ok r /\
    rc_success r = true /\ rc_x r = l3 st_x /\ rc_c r = st_cv /\ plan_no_zero_point r.
Proof.
  intros scaled wg mem glpk. destruct st_ws as (ws & Ews & Lws). eexists _, ws. split; [apply st_wp|]. split; [apply ProofCont7.long_split, st_long|].
  split; [apply st_same|]. split; [reflexivity|]. split; [cbn; tauto|]. split; [reflexivity|]. split; [exact Ews|]. split; [apply st_weight|].
  split; [apply st_scale|]. split; [unfold acc_ctrl_rate; rewrite st_total; destruct scaled; lra|]. split; [apply st_ctrl_rate, Ews|].
  assert (NZ : forall p, In p (bc_pts st_cv) -> p = st_x) by (intros p [<-|[<-|[<-|[<-|[]]]]]; reflexivity).
  destruct (C63_best scaled wg mem glpk (st_pb DISTANCE_TRAVELED) [1; 1/2] (-1) (V3 0 0 (-981/100)) 1 ws st_x st_cv (st_wp _) st_long ltac:(lra) (st_same _)
    eq_refl ltac:(cbn; tauto) Ews (st_weight _) ltac:(lra) (st_curve _)) as (r & E1 & E2 & E3 & E4).
  - intros p Hp _. exact (NZ p Hp).
  - rewrite Lws. apply st_ctrl.
  - apply st_cheapest.
  - exists r. repeat (split; [assumption|]). intros p Hp _. rewrite E4 in Hp. rewrite E3, (NZ p Hp). reflexivity.
Qed.

(** Starting sideways, with accelerations of at most 3: the middle of the ends is not
    feasible, the hypotheses of C63_optimal hold. *)
Definition sa_c : contact := Contact (Some (CPhase [] 50 (V3 0 0 (-981/100)) [])) [V3 0 (-1) 0] [1/16] [] [].
Definition sa_pb : problem :=
  Problem [sa_c] (V3 0 0 (4/5)) (V3 0 1 0) vzero vzero (V3 0 0 (4/5)) vzero vzero vzero vzero false
    (Constraints F_c1 true 3 0) DISTANCE_TRAVELED DOUBLE_DESCRIPTION.
Lemma sa_wp : well_posed sa_pb [1].
Proof.
  split; [cbn; tauto|]. split; [reflexivity|]. split; [discriminate|].
  split; [repeat constructor; lra|]. split; [reflexivity|].
  repeat constructor; eexists; (split; [reflexivity|]; split; [cbn; lra|]; split; [|cbn; lia]). constructor.
Qed.
Lemma sa_same : same_gravity sa_pb (V3 0 0 (-981/100)).
Proof. intros c ph [<-|[]] H; injection H as <-; reflexivity. Qed.
Definition sa_cv (x : vec3) : bcurve := BCurve [V3 0 0 (4/5); V3 0 (1/3) (4/5); x; V3 0 0 (4/5)] 1.
Lemma sa_curve x : com_curve sa_pb (total [1]) x = Ok (sa_cv x).
Proof.
  rewrite sw_total. cbv [com_curve]. cbn. unfold mk_bezier. destruct (Rle_dec 1 0); [lra|].
  unfold sa_cv. repeat f_equal; apply v3_eq; cbn; field.
Qed.
Lemma sa_scale : on_scale sa_pb 1 171 1.
Proof.
  pose proof eps_tiny. pose proof eps_pos. repeat (split; [lra|]).
  intros c K [<-|[]] HK; cbn in HK. destruct HK as [<-|[]]; apply vnorm_bound; unfold vnorm2, vdot; cbn; lra.
Qed.
Lemma sa_ctrl_rate ws : computeWwaypoints sa_pb (total [1]) = Ok ws -> wrench_ctrl_rate sa_pb (total [1]) (V3 0 0 (-981/100)) (length ws) 171.
Proof.
  intros E. apply (C62_rate sa_pb (total [1]) (V3 0 0 (-981/100)) 10 1 (sa_cv vzero) ws 171);
    [cbn; tauto|reflexivity|apply sa_curve| |apply vnorm_bound; [lra|unfold vnorm2, vdot; cbn; lra]|exact E|rewrite sw_total; lra].
  repeat (apply Forall_cons; [apply vnorm_bound; [lra|unfold vnorm2, vdot; cbn; lra]|]). apply Forall_nil.
Qed.

(** rows parallel to the axes *)
Definition axis_row (r : vec3) : Prop :=
  exists a, (a = 0 \/ 1 <= a * a <= 2000) /\ (r = V3 a 0 0 \/ r = V3 0 a 0 \/ r = V3 0 0 a).
Lemma axis_scaled rows g0 g1 g2 : (forall r : vec3 * R, In r rows -> axis_row (fst r)) ->
  well_scaled (eqp_of (plan_qp [[1;0;0];[0;1;0];[0;0;1]] [g0;g1;g2] rows)).
Proof.
  intros HR. set (q := eqp_of _). pose proof eps_pos as EP. pose proof eps_tiny as ES. assert (EE : eps52 * eps52 < / 1000000) by nra.
  change (e_n q) with 3%nat.
  assert (HH : forall z i, (i < 3)%nat -> hmul q z i = z i).
  { intros z i Hi. unfold hmul, dot. change (e_n q) with 3%nat. cbn [sumf]. unfold q, eqp_of, plan_qp; cbn [e_H qp_H]. unfold mat_of. destruct i as [|[|[|i]]]; [| | |lia]; cbn [nth]; ring. }
  assert (RW : forall i, (i < e_I q)%nat -> exists a (c : nat), (a = 0 \/ 1 <= a * a <= 2000) /\ (c < 3)%nat /\ e_CI q i c = a /\ forall d, (d < 3)%nat -> d <> c -> e_CI q i d = 0).
  { intros i Hi. change (e_I q) with (length (map (@snd vec3 R) rows)) in Hi. rewrite map_length in Hi. destruct (nth_error rows i) as [r|] eqn:E; [|apply nth_error_None in E; lia].
    destruct (HR r (nth_error_In _ _ E)) as (a & Ha & Ea). unfold q, eqp_of, plan_qp; cbn [e_CI qp_CI]. unfold mat_of.
    assert (EN : nth i (map (fun r : vec3 * R => l3 (vopp (fst r))) rows) [] = l3 (vopp (fst r))) by (erewrite nth_error_nth by (apply map_nth_error; exact E); reflexivity).
    rewrite EN. exists (- a). destruct Ea as [Ea|[Ea|Ea]]; rewrite Ea; [exists 0%nat|exists 1%nat|exists 2%nat];
      (split; [destruct Ha as [->|Ha]; [left; ring|right; lra]|]); (split; [lia|]); (split; [reflexivity|]);
      intros [|[|[|d]]] Hd Hn; try lia; try (exfalso; apply Hn; reflexivity); cbn; ring. }
  intros v z Hv (a & b & D1 & _ & D3). change (e_n q) with 3%nat in D1, D3. cbn [e_E q eqp_of qp_ce0 plan_qp length sumf] in D1.
  assert (Hv' : exists i, (i < e_I q)%nat /\ v = e_CI q i) by (destruct Hv as [(i & Hi & _)|Hv]; [cbn in Hi; lia|exact Hv]).
  destruct Hv' as (i0 & Hi0 & ->). destruct (RW i0 Hi0) as (a0 & c0 & Ha0 & Hc0 & V0 & Vd).
  assert (DD3 : forall f g : rvec, dot 3 f g = f 0%nat * g 0%nat + f 1%nat * g 1%nat + f 2%nat * g 2%nat) by (intros; unfold dot; cbn [sumf]; ring).
  assert (DC : forall (u w : rvec) (c : nat), (c < 3)%nat -> (forall d, (d < 3)%nat -> d <> c -> u d = 0) -> dot 3 u w = u c * w c).
  { intros u w c Hc Hu. rewrite DD3. destruct c as [|[|[|c]]]; [| | |lia]; rewrite ?(Hu 0%nat), ?(Hu 1%nat), ?(Hu 2%nat) by lia; ring. }
  assert (Z : forall c : nat, (c < 3)%nat -> z c = 0 \/ z c = e_CI q i0 c).
  { intros c Hc. destruct (Req_dec (z c) 0) as [Zc|Zc]; [left; exact Zc|right]. pose proof (D1 c Hc) as E. rewrite HH in E by exact Hc.
    replace (sumf (e_I q) (fun k => b k * e_CI q k c)) with 0 in E; [lra|].
    symmetry. apply ProofBezier.sumf_zero. intros k Hk. destruct (Req_dec (b k) 0) as [B|B]; [rewrite B; ring|].
    specialize (D3 k Hk B). destruct (RW k Hk) as (ak & ck & _ & Hck & W0 & Wd). destruct (Nat.eq_dec c ck) as [->|N]; [|rewrite Wd by auto; ring].
    rewrite (DC _ _ ck Hck Wd) in D3. apply Rmult_integral in D3. destruct D3 as [P|P]; [rewrite P; ring|contradiction]. }
  assert (Zd : forall d, (d < 3)%nat -> d <> c0 -> z d = 0) by (intros d Hd N; destruct (Z d Hd) as [E|E]; [exact E|rewrite E; auto]).
  destruct (Req_dec (z c0) 0) as [Zc|Zc].
  { left. intros i Hi. destruct (Nat.eq_dec i c0) as [->|N]; auto. }
  right. assert (E1 : z c0 = a0) by (destruct (Z c0 Hc0) as [E|E]; [contradiction|congruence]).
  assert (Ha : 1 <= a0 * a0 <= 2000) by (destruct Ha0 as [A|A]; [exfalso; congruence|exact A]).
  change (e_n q) with 3%nat. rewrite (DC z z c0 Hc0 Zd), (DC _ z c0 Hc0 Vd), E1, V0. split; [lra|]. split; [lra|].
  intros v' w Hv' Hw. assert (Hv2 : exists i, (i < e_I q)%nat /\ v' = e_CI q i) by (destruct Hv' as [(i & Hi & _)|Hv']; [cbn in Hi; lia|exact Hv']).
  destruct Hv2 as (i1 & Hi1 & ->). destruct (RW i1 Hi1) as (a1 & c1 & Ha1 & Hc1 & W0 & Wd).
  rewrite (DC _ w c1 Hc1 Wd). pose proof (Hw c1 Hc1) as Ew. rewrite HH in Ew by exact Hc1. rewrite Ew, W0.
  assert (0 <= a1 * a1 <= 2000) by (destruct Ha1 as [A|A]; [rewrite A; lra|lra]).
  assert (0 <= eps52 * eps52) by nra. assert (eps52 * eps52 * (a1 * a1) <= / 1000000 * 2000) by (apply Rmult_le_compat; lra). lra.
Qed.

Lemma full_aff p cv : nd_min p = nd_min cv -> nd_max p = nd_max cv -> piece aff aff_add aff_scal p cv -> nd_ok aff cv -> nd_pts p = nd_pts cv.
Proof.
  intros Em EM (_ & HL & _ & _ & _ & Hv) [_ Hlt].
  assert (E : forall phi, linear aff aff_add aff_scal phi -> map phi (nd_pts p) = map phi (nd_pts cv)).
  { intros phi Hphi. apply (bezl_uniq (length (nd_pts cv))); rewrite ?map_length; auto. intros s.
    specialize (Hv phi (nd_min cv + s * (nd_max cv - nd_min cv)) Hphi). unfold nd_val in Hv. rewrite Em, EM in Hv.
    replace ((nd_min cv + s * (nd_max cv - nd_min cv) - nd_min cv) / (nd_max cv - nd_min cv)) with s in Hv by (field; lra). exact Hv. }
  revert HL E. generalize (nd_pts p) (nd_pts cv). clear. induction l as [|a l IH]; intros [|b l'] HL E; try discriminate; [reflexivity|].
  assert (A : forall phi, linear aff aff_add aff_scal phi -> phi a = phi b) by (intros phi H; specialize (E phi H); injection E; auto).
  f_equal; [|apply IH; [injection HL; auto|intros phi H; specialize (E phi H); injection E; auto]].
  assert (L : forall f : aff -> R, (forall q q', f (aff_add q q') = f q + f q') -> (forall k q, f (aff_scal k q) = k * f q) -> f a = f b)
    by (intros f H1 H2; apply A; split; assumption).
  destruct a as [[[a1 a2 a3] [a4 a5 a6] [a7 a8 a9]] [a10 a11 a12]]. destruct b as [[[b1 b2 b3] [b4 b5 b6] [b7 b8 b9]] [b10 b11 b12]].
  pose proof (L (fun q => vx (row0 (fst q))) ltac:(intros; reflexivity) ltac:(intros; reflexivity)).
  pose proof (L (fun q => vy (row0 (fst q))) ltac:(intros; reflexivity) ltac:(intros; reflexivity)).
  pose proof (L (fun q => vz (row0 (fst q))) ltac:(intros; reflexivity) ltac:(intros; reflexivity)).
  pose proof (L (fun q => vx (row1 (fst q))) ltac:(intros; reflexivity) ltac:(intros; reflexivity)).
  pose proof (L (fun q => vy (row1 (fst q))) ltac:(intros; reflexivity) ltac:(intros; reflexivity)).
  pose proof (L (fun q => vz (row1 (fst q))) ltac:(intros; reflexivity) ltac:(intros; reflexivity)).
  pose proof (L (fun q => vx (row2 (fst q))) ltac:(intros; reflexivity) ltac:(intros; reflexivity)).
  pose proof (L (fun q => vy (row2 (fst q))) ltac:(intros; reflexivity) ltac:(intros; reflexivity)).
  pose proof (L (fun q => vz (row2 (fst q))) ltac:(intros; reflexivity) ltac:(intros; reflexivity)).
  pose proof (L (fun q => vx (snd q)) ltac:(intros; reflexivity) ltac:(intros; reflexivity)).
  pose proof (L (fun q => vy (snd q)) ltac:(intros; reflexivity) ltac:(intros; reflexivity)).
  pose proof (L (fun q => vz (snd q)) ltac:(intros; reflexivity) ltac:(intros; reflexivity)).
  cbn in *. subst. reflexivity.
Qed.

Definition axis_aff (q : aff) : Prop := exists a, (a = 0 \/ 1 <= a * a <= 2000) /\ fst q = mscal a mid.
Lemma axis_k q r : axis_aff q -> In r (krows_aff sa_c q) -> axis_row (fst r).
Proof.
  intros (a & Ha & E) [<-|[]]. unfold kin_row_aff; cbn [fst]. rewrite E. exists (- a). split; [destruct Ha as [->|Ha]; [left; ring|right; lra]|].
  right; left. apply v3_eq; unfold vmmul; cbn; ring.
Qed.
Lemma axis_a q b r : axis_aff q -> In r (arows_aff b q) -> axis_row (fst r).
Proof.
  intros (a & Ha & E). unfold arows_aff, acc_rows. rewrite E.
  assert (P : forall s, (s = a \/ s = - a) -> s = 0 \/ 1 <= s * s <= 2000) by (intros s [->| ->]; destruct Ha as [->|Ha]; [left; ring|right; lra|left; ring|right; lra]).
  intros [<-|[<-|[<-|[<-|[<-|[<-|[]]]]]]]; cbn [fst]; [exists a|exists a|exists a|exists (- a)|exists (- a)|exists (- a)];
    (split; [apply P; tauto|]); [left|right; left|right; right|left|right; left|right; right]; apply v3_eq; cbn; ring.
Qed.

Lemma sa_nz y : vec_isZero (V3 0 y (4/5)) = false.
Proof.
  unfold vec_isZero, coeff_isZero, isZero_prec. cbn [vz]. destruct (Rle_dec (Rabs (4/5)) _) as [H|H]; [rewrite Rabs_right in H by lra; lra|].
  rewrite Bool.andb_false_r. reflexivity.
Qed.
Lemma sa_rows scaled rows : computeConstraintsContinuous scaled sa_pb [1] = Ok (CO (map (fun r => (l3 (fst r), snd r)) rows) [] [] 3) ->
  length rows = 16%nat /\ forall r, In r rows -> axis_row (fst r).
Proof.
  intros E. assert (HL : long_phases [1]) by (repeat constructor; lra).
  destruct (cont_main scaled sa_pb [1] sa_wp (long_split _ HL)) as (pi & ws & ddc & lc & la & lw & M). cbv zeta in M.
  destruct M as (Epi & Ews & Lpi & Lws & HT & Edd & Llc & Lla & Llw & Plc & Pla & Plw & Lrows & _ & Eout).
  change (useDD_of sa_pb) with true in *. rewrite E in Eout. injection Eout as ER. unfold items_of in ER. cbn [useDD_of] in ER.
  assert (Epi' : pi = [V3 0 0 (4/5); V3 0 (1/3) (4/5); vzero; V3 0 0 (4/5)]).
  { rewrite sw_total in Epi. cbv [computeConstantWaypoints] in Epi. cbn in Epi. injection Epi as <-. repeat f_equal; try (apply v3_eq; cbn; field). }
  pose proof sa_nz as NZ.
  assert (ZZ : vec_isZero vzero = true).
  { unfold vec_isZero, coeff_isZero, isZero_prec. cbn [vx vy vz vzero]. rewrite Rabs_R0. destruct (Rle_dec 0 _); [reflexivity|lra]. }
  assert (Es : map sym_aff pi = [(mzero, V3 0 0 (4/5)); (mzero, V3 0 (1/3) (4/5)); (mid, vzero); (mzero, V3 0 0 (4/5))])
    by (rewrite Epi'; cbn [map]; unfold sym_aff; rewrite !NZ, ZZ; reflexivity).
  assert (Ac : Forall axis_aff (map sym_aff pi)).
  { rewrite Es. assert (Z : forall v, axis_aff (mzero, v)) by (intros v; exists 0; split; [left; reflexivity|apply m3_eq; apply v3_eq; cbn; ring]).
    repeat (apply Forall_cons; [try apply Z|]); [|apply Forall_nil]. exists 1. split; [right; lra|apply m3_eq; apply v3_eq; cbn; ring]. }
  assert (Aa : Forall axis_aff (nd_pts ddc)).
  { rewrite Es, sw_total in Edd. cbn [nd_derivate] in Edd. unfold nd_derivate1 in Edd. cbn [nd_pts nd_min nd_max nd_mult length Nat.sub nd_diffs map] in Edd.
    rewrite nd_make_ok in Edd by (discriminate || lra). cbn [bind nd_pts nd_min nd_max nd_mult length Nat.sub nd_diffs map] in Edd.
    rewrite nd_make_ok in Edd by (discriminate || lra). injection Edd as <-. cbn [nd_pts].
    apply Forall_cons; [|apply Forall_cons; [|apply Forall_nil]]; [exists 6|exists (-12)]; (split; [right; lra|]);
      destruct scaled; apply m3_eq; apply v3_eq; cbn; field. }
  assert (Lpi4 : length pi = 4%nat) by (rewrite Epi'; reflexivity). 
  change (contacts sa_pb) with [sa_c] in Lrows. rewrite Lpi4 in Lrows. cbn in Lrows.
  split; [apply (f_equal (@length _)) in ER; rewrite !map_length in ER; rewrite ER; exact Lrows|].
  destruct lc as [|pc [|? ?]]; try discriminate. destruct la as [|pa [|? ?]]; try discriminate. destruct lw as [|pw [|? ?]]; try discriminate.
  destruct (derivate2_ok scaled (NDC (map sym_aff pi) 0 (total [1]) 1)) as (ddc' & Ed' & Od & md & Md & _);
    [cbn [nd_pts]; rewrite map_length; lia|exact HT|]. rewrite Edd in Ed'. injection Ed' as <-. cbn [nd_min nd_max] in md, Md.
  destruct (exact_piece aff_add aff_scal (NDC (map sym_aff pi) 0 (total [1]) 1) [1] 0 pc HL ltac:(cbn; lia) eq_refl eq_refl (Plc 0%nat pc eq_refl)) as (Q1 & Q2 & Q3).
  destruct (exact_piece aff_add aff_scal ddc [1] 0 pa HL ltac:(cbn; lia) md Md (Pla 0%nat pa eq_refl)) as (R1 & R2 & R3).
  assert (PS : phase_start [1] 0 = 0) by reflexivity. assert (PE : phase_end [1] 0 = total [1]) by (unfold phase_end; cbn; ring).
  apply full_aff in Q1; [|cbn; congruence|cbn [nd_max]; congruence|split; [cbn [nd_pts]; rewrite Epi'; discriminate|exact HT]].
  apply full_aff in R1; [|congruence|congruence|exact Od].
  assert (AX : forall r, In r (crows sa_pb true [pc] [pa] [pw] [sa_c]) -> axis_row (fst r)).
  { intros r Hr. cbn [crows] in Hr. rewrite app_nil_r in Hr. unfold phase_rows in Hr. rewrite !in_app_iff, !in_flat_map in Hr.
    destruct Hr as [(x & Hx & Hr)|[(x & Hx & Hr)|(x & Hx & Hr)]].
    - rewrite Q1 in Hx. rewrite Forall_forall in Ac. exact (axis_k x r (Ac x Hx) Hr).
    - destruct Hr.
    - rewrite R1 in Hx. rewrite Forall_forall in Aa. exact (axis_a x _ r (Aa x Hx) Hr). }
  intros r Hr. apply (in_map (fun r : vec3 * R => (l3 (fst r), snd r))) in Hr. rewrite ER in Hr. apply in_map_iff in Hr. destruct Hr as (r' & Er & Hr').
  replace (fst r) with (fst r') by (unfold padr in Er; cbn in Er; rewrite ?app_nil_r in Er; unfold l3 in Er; injection Er as E1 E2 E3 _; apply v3_eq; congruence).
  apply AX, Hr'.
Qed.

Lemma sa_dd x t acc : is_deriv_n 2 (cv_fun (sa_cv x)) t acc ->
  acc = curve [V3 (6 * vx x) (6 * vy x - 4) (6 * (vz x - 4/5)); V3 (- (12 * vx x)) (2 - 12 * vy x) (- (12 * (vz x - 4/5)))] 1 t.
Proof.
  intros H. pose proof (curve_is_deriv_n 2 (bc_pts (sa_cv x)) 1 t) as Hd.
  rewrite (is_deriv_n_unique 2 _ _ _ _ _ (fun _ => eq_refl) H Hd).
  cbn [bc_pts sa_cv]. apply v3_eq; cbv [hodo_n hodo vdiffs length pred map curve bez3 bezl bez sumf bern binom nth vx vy vz vscal vsub vzero Nat.add Nat.sub INR pow]; field.
Qed.
Lemma sa_bound scaled : acc_bound scaled sa_pb [1] = 3.
Proof. unfold acc_bound. rewrite sw_total. destruct scaled; cbn; lra. Qed.
Lemma sa_ctrl scaled y k : 1/6 <= y <= 5/12 -> ctrl_feasible scaled sa_pb [1] k (sa_cv (V3 0 y (4/5))).
Proof.
  intros Hy i c ph Pc Pa Pw Hc Hph L1 C1 L2 C2 L3 C3. destruct i as [|i]; [|destruct i; discriminate]. injection Hc as <-. injection Hph as <-.
  assert (PS : phase_start [1] 0 = 0) by reflexivity. assert (PE : phase_end [1] 0 = 1) by (unfold phase_end; cbn; ring). rewrite PS, PE in *.
  rewrite (ctrl_pos_uniq Pc (bc_pts (sa_cv (V3 0 y (4/5)))) 0 1 _ ltac:(lra) L1 C1) by (intros t; unfold cv_fun; cbn [bc_pts bc_T sa_cv]; f_equal; ring).
  erewrite (ctrl_acc_uniq Pa _ 0 1 _ ltac:(lra) _ C2).
  2: { intros t a Ha. rewrite (sa_dd _ t a Ha). replace (1 - 0) with 1 by ring. replace (t - 0) with t by ring. reflexivity. }
  split; [|split].
  - assert (K : forall p, -1/16 <= vy p -> kin_ok sa_c p).
    { intros p Hp [|j] K k' HK Hk; [|destruct j; discriminate]. injection HK as <-. injection Hk as <-. unfold vdot; cbn. lra. }
    repeat (apply Forall_cons; [apply K; cbn; lra|]). apply Forall_nil.
  - rewrite sa_bound. apply Forall_cons; [|apply Forall_cons; [|apply Forall_nil]]; repeat split; cbn [vx vy vz]; apply Rabs_le; lra.
  - apply Forall_forall. intros w _. constructor.
  Unshelve. rewrite L2. reflexivity.
Qed.
Lemma sa_mid : is_deriv_n 2 (cv_fun (sa_cv (mid_of sa_pb))) 0 (V3 0 (-4) 0).
Proof.
  destruct (com_acc (sa_cv (mid_of sa_pb)) 0) as [acc H]. replace (V3 0 (-4) 0) with acc; [exact H|]. rewrite (sa_dd _ _ _ H).
  unfold mid_of; cbn [sa_pb c0 c1 vscal vadd vx vy vz]. apply v3_eq; cbv [sa_pb vscal vadd length pred map curve bez3 bezl bez sumf bern binom nth vx vy vz Nat.add Nat.sub INR pow]; field.
Qed.

(** The acceleration of the motion through the middle starts at 4. *)
Example ex_C63_optimal : forall scaled wg mem glpk, exists ws rows H gg r,
  computeWwaypoints sa_pb (total [1]) = Ok ws /\
  is_deriv_n 2 (cv_fun (sa_cv (mid_of sa_pb))) 0 (V3 0 (-4) 0) /\
  genCostFunction sa_pb [1] (total [1]) (computeDiscretizedTimeFixed [1] 7) 3 = Ok (H, gg) /\
  computeCOMTraj scaled wg (solve_quadprog mem) glpk sa_pb [1] (-1) SOLVER_QUADPROG = Ok r /\
  well_scaled (eqp_of (plan_qp H gg rows)) /\
  rc_success r = true /\ exists x, rc_x r = l3 x /\ vnorm2 (vsub x (mid_of sa_pb)) <= 1 / 36.
Proof.
  intros scaled wg mem glpk. assert (exists ws, computeWwaypoints sa_pb (total [1]) = Ok ws) as [ws Ews] by (eexists; reflexivity). exists ws.
  destruct (C63_optimal scaled wg mem glpk sa_pb [1] (-1) (V3 0 0 (-981/100)) 1 171 1 ws sa_wp ltac:(repeat constructor; lra) ltac:(lra) sa_same eq_refl ltac:(cbn; tauto) Ews)
    as (rows & H & gg & r & EA & EC & ER & HO).
  - left. split; reflexivity.
  - apply sa_scale.
  - unfold acc_ctrl_rate. rewrite sw_total. destruct scaled; lra.
  - apply sa_ctrl_rate, Ews.
  - exists rows, H, gg, r. destruct (sa_rows scaled rows EA) as [HLen HRow]. split; [exact Ews|]. split; [apply sa_mid|].
    split; [exact EC|]. split; [exact ER|].
    assert (HW : well_scaled (eqp_of (plan_qp H gg rows))) by (cbn in EC; injection EC as <- <-; apply axis_scaled, HRow). split; [exact HW|].
    destruct (HO HW (V3 0 (1/6) (4/5)) _ (sa_curve _)) as [(S1 & x & s & s' & S2 & S3 & S4 & S5 & S6)|(_ & F & _)].
    + intros p [<-|[<-|[<-|[<-|[]]]]] HZ; rewrite sa_nz in HZ; discriminate.
    + apply sa_ctrl. lra.
    + split; [exact S1|]. exists x. split; [exact S2|]. destruct S4 as [[_ ->]|[E _]]; [|discriminate]. destruct S5 as [[_ ->]|[E _]]; [|discriminate].
      eapply Rle_trans; [exact S6|]. unfold mid_of, vnorm2, vdot; cbn. lra.
    + exfalso. rewrite HLen in F. vm_compute in F. lia.
Qed.
