(** End-effector planning: quarter turns about the vertical axis and reflections. *)
From Coq Require Import List Lia Lra.
From Verif Require Import Vec SpecBezier ModelData ModelUtils ModelWaypointsJerk ModelDispatch ModelCont ModelSolver ModelTraj ModelEff
  SpecCom SpecWp SpecSolver SpecTraj Spec0Step SpecEff SpecEffTurn ProofCurve ProofEff ProofEff2 ProofEff3 ProofEff4 ProofEff5 ProofEff6 ProofEff7 ProofEff11 ProofEff14
  ProofEffBest ProofEffAxis ProofEffAxis2 ProofEffAxis3.
Import ListNotations.
Open Scope R_scope.

Section Turn.
Variable g : vec3 -> vec3.
(** what the transformation preserves *)
Record rigid : Prop := {
  rg_add : forall u v, g (vadd u v) = vadd (g u) (g v);
  rg_scal : forall k u, g (vscal k u) = vscal k (g u);
  rg_dot : forall u v, vdot (g u) (g v) = vdot u v;
  rg_z : forall u, vz (g u) = vz u;
  rg_box : forall u, (le3 (vopp eff_bounds) (g u) /\ le3 (g u) eff_bounds) <-> (le3 (vopp eff_bounds) u /\ le3 u eff_bounds);
  rg_onto : forall v, exists u, g u = v;
  rg_curve : forall P T t, curve (map g P) T t = g (curve P T t) }.
Hypothesis RG : rigid.
Lemma g_zero : g vzero = vzero.
Proof. replace vzero with (vscal 0 vzero) at 1 by (apply v3_eq; cbn; ring). rewrite (rg_scal RG). apply v3_eq; cbn; ring. Qed.
Lemma g_opp u : g (vopp u) = vopp (g u).
Proof. replace (vopp u) with (vscal (-1) u) by (apply v3_eq; cbn; ring). rewrite (rg_scal RG). apply v3_eq; cbn; ring. Qed.
Lemma g_sub u v : g (vsub u v) = vsub (g u) (g v).
Proof. replace (vsub u v) with (vadd u (vopp v)) by (apply v3_eq; cbn; ring). rewrite (rg_add RG), g_opp. apply v3_eq; cbn; ring. Qed.
Lemma g_divs u k : g (vdivs u k) = vdivs (g u) k.
Proof. replace (vdivs u k) with (vscal (/ k) u) by (apply v3_eq; cbn; unfold Rdiv; ring). rewrite (rg_scal RG). apply v3_eq; cbn; unfold Rdiv; ring. Qed.

Definition geq (u v : vec3) : Prop := v = g u.
Lemma geq_zero : geq vzero vzero. Proof. unfold geq. symmetry. apply g_zero. Qed.
Lemma geq_add u v u' v' : geq u v -> geq u' v' -> geq (vadd u u') (vadd v v').
Proof. unfold geq. intros -> ->. symmetry. apply (rg_add RG). Qed.
Lemma geq_sub u v u' v' : geq u v -> geq u' v' -> geq (vsub u u') (vsub v v').
Proof. unfold geq. intros -> ->. symmetry. apply g_sub. Qed.
Lemma geq_scal k u v : geq u v -> geq (vscal k u) (vscal k v).
Proof. unfold geq. intros ->. symmetry. apply (rg_scal RG). Qed.
Lemma geq_divs k u v : geq u v -> geq (vdivs u k) (vdivs v k).
Proof. unfold geq. intros ->. symmetry. apply g_divs. Qed.
Lemma geq_opp u v : geq u v -> geq (vopp u) (vopp v).
Proof. unfold geq. intros ->. symmetry. apply g_opp. Qed.
Ltac gall := repeat first [assumption | apply geq_zero | apply geq_add | apply geq_sub | apply geq_scal | apply geq_divs | apply geq_opp].

Lemma ev_blocks_g : forall bs xs, Forall sblock bs -> ev_blocks bs (map g xs) = g (ev_blocks bs xs).
Proof.
  induction bs as [|b bs IH]; intros xs F; [symmetry; apply g_zero|]. inversion F as [|? ? (k & K) F']; subst.
  destruct xs as [|x xs]; [symmetry; apply g_zero|]. cbn [map ev_blocks]. rewrite !K, IH by assumption. rewrite (rg_add RG), (rg_scal RG). reflexivity.
Qed.
Definition gtwin (w w' : wpn) : Prop := wn_blocks w' = wn_blocks w /\ Forall sblock (wn_blocks w) /\ geq (wn_pt w) (wn_pt w').
Lemma gtwin_ev w w' xs : gtwin w w' -> ev_wpn w' (map g xs) = g (ev_wpn w xs).
Proof. intros (A & B & C). unfold ev_wpn. rewrite A, ev_blocks_g, C by exact B. symmetry. apply (rg_add RG). Qed.
Lemma gtwin_bounded xs : forall ws ws', Forall2 gtwin ws ws' ->
  (Forall (bounded (vopp eff_bounds) eff_bounds (map g xs)) ws' <-> Forall (bounded (vopp eff_bounds) eff_bounds xs) ws).
Proof.
  induction 1 as [|w w' ws ws' Hw F IH]; [split; constructor|].
  assert (D : dependsb w' = dependsb w) by (unfold dependsb, coefficients; rewrite (proj1 Hw); reflexivity).
  assert (B : bounded (vopp eff_bounds) eff_bounds (map g xs) w' <-> bounded (vopp eff_bounds) eff_bounds xs w).
  { unfold bounded. rewrite D, (gtwin_ev w w' xs Hw), (rg_box RG). reflexivity. }
  split; intros A; inversion A; subst; constructor; tauto.
Qed.

Section Two.
Variables (p q : problem) (T : R).
Hypothesis (Hin : In (flag_of p) effector_flags) (TR : transformed g p q) (HT : 0 < T).
Let n := eff_free (flag_of p).
Lemma Hf : flag_of q = flag_of p. Proof. exact (proj1 TR). Qed.
Lemma Hinq : In (flag_of q) effector_flags. Proof. rewrite Hf. exact Hin. Qed.
Lemma Nq : eff_free (flag_of q) = n. Proof. unfold n. rewrite Hf. reflexivity. Qed.

Lemma g_shapes xs : length xs = n -> exists pi pts pi' pts',
  computeConstantWaypoints p T = Ok pi /\ eff_shape p T xs pi pts /\ computeConstantWaypoints q T = Ok pi' /\ eff_shape q T (map g xs) pi' pts' /\
  Forall2 geq pi pi'.
Proof.
  intros Lx. destruct (eff_shape_total p T xs Hin Lx) as (pi & pts & Hc & Hs).
  destruct (eff_shape_total q T (map g xs)) as (pi' & pts' & Hc' & Hs'); [exact Hinq|rewrite map_length, Nq; exact Lx|].
  exists pi, pts, pi', pts'. repeat (split; [assumption|]).
  clear Lx Hs Hs' pts pts' xs. destruct TR as (_ & B1 & B2 & B3 & B4 & B5 & B6 & B7 & B8).
  fold (geq (c0 p) (c0 q)) in B1. fold (geq (dc0 p) (dc0 q)) in B2. fold (geq (ddc0 p) (ddc0 q)) in B3. fold (geq (j0 p) (j0 q)) in B4.
  fold (geq (c1 p) (c1 q)) in B5. fold (geq (dc1 p) (dc1 q)) in B6. fold (geq (ddc1 p) (ddc1 q)) in B7. fold (geq (j1 p) (j1 q)) in B8.
  unfold computeConstantWaypoints in Hc, Hc'. rewrite Hf in Hc'.
  cbn in Hin. destruct Hin as [E|[E|[E|[]]]]; rewrite <- E in Hc, Hc'.
  - change (j0j1_computeConstantWaypoints p T = Ok pi) in Hc. change (j0j1_computeConstantWaypoints q T = Ok pi') in Hc'.
    unfold j0j1_computeConstantWaypoints in Hc, Hc'. injection Hc as <-. injection Hc' as <-. repeat (apply Forall2_cons; [gall|]). apply Forall2_nil.
  - change (x3_computeConstantWaypoints p T = Ok pi) in Hc. change (x3_computeConstantWaypoints q T = Ok pi') in Hc'.
    unfold x3_computeConstantWaypoints in Hc, Hc'. injection Hc as <-. injection Hc' as <-. repeat (apply Forall2_cons; [gall|]). apply Forall2_nil.
  - change (x5_computeConstantWaypoints p T = Ok pi) in Hc. change (x5_computeConstantWaypoints q T = Ok pi') in Hc'.
    unfold x5_computeConstantWaypoints in Hc, Hc'. injection Hc as <-. injection Hc' as <-. repeat (apply Forall2_cons; [gall|]). apply Forall2_nil.
Qed.
Ltac both Hs Hs' F :=
  eff_cases Hs; (inversion Hs' as [? ? ? ? ? ? ? ? ? ? ? E' Hcc' Hp'|? ? ? ? ? ? ? ? ? ? ? ? ? ? ? E' Hcc' Hp'|? ? ? ? ? ? ? ? ? ? ? ? ? ? E' Hcc' Hp'];
    try (exfalso; match goal with E1 : flag_of p = _, E2 : flag_of q = _ |- _ => rewrite Hf, E1 in E2; discriminate E2 end)); subst; clear Hs' Hcc';
  repeat match goal with H : Forall2 _ (_ :: _) (_ :: _) |- _ => inversion H; subst; clear H end.
Ltac gtwins := repeat (apply Forall2_cons; [split; [reflexivity|split; [cbn [wn_blocks]; sball|cbn [wn_pt]; gall]]|]); apply Forall2_nil.

Lemma g_lists xs ys pi pts pi' pts' : eff_shape p T xs pi pts -> eff_shape q T ys pi' pts' -> Forall2 geq pi pi' ->
  exists wa wv wj wa' wv' wj',
  computeAccelerationWaypoints p T pi = Ok wa /\ computeVelocityWaypoints p T pi = Ok wv /\ computeJerkWaypoints p T pi = Ok wj /\
  computeAccelerationWaypoints q T pi' = Ok wa' /\ computeVelocityWaypoints q T pi' = Ok wv' /\ computeJerkWaypoints q T pi' = Ok wj' /\
  Forall2 gtwin wa wa' /\ Forall2 gtwin wv wv' /\ Forall2 gtwin wj wj'.
Proof.
  intros Hs Hs' F. both Hs Hs' F;
  unfold computeAccelerationWaypoints, computeVelocityWaypoints, computeJerkWaypoints; rewrite E, E';
  eexists _, _, _, _, _, _; do 6 (split; [reflexivity|]); (split; [gtwins|split; gtwins]).
Qed.
Lemma g_evals xs ys pi pts pi' pts' s : eff_shape p T xs pi pts -> eff_shape q T ys pi' pts' -> Forall2 geq pi pi' ->
  exists w w', evaluateCurveWaypointAtTime p pi s = Ok w /\ evaluateCurveWaypointAtTime q pi' s = Ok w' /\ gtwin w w'.
Proof.
  intros Hs Hs' F. both Hs Hs' F; unfold evaluateCurveWaypointAtTime; rewrite E, E';
  eexists _, _; do 2 (split; [reflexivity|]); (split; [reflexivity|split; [cbn [wn_blocks fst snd]; sball|cbn [wn_pt fst snd]; gall]]).
Qed.
Lemma g_costs xs ys pi pts pi' pts' : eff_shape p T xs pi pts -> eff_shape q T ys pi' pts' -> Forall2 geq pi pi' ->
  exists H c c', computeVelocityCost p T pi = Ok (H, c) /\ computeVelocityCost q T pi' = Ok (H, c') /\
    Forall (Forall sblock) H /\ Forall2 geq c c'.
Proof.
  intros Hs Hs' F. both Hs Hs' F; unfold computeVelocityCost; rewrite E, E'.
  - change (find_flag _ F_jerk) with (Ok j0j1_computeVelocityCost). cbn [bind]. unfold j0j1_computeVelocityCost.
    cbn [bind get nth_error]. cbv zeta. match goal with |- context [blocks_norm ?B] => set (N := blocks_norm B) in * end. clearbody N.
    eexists _, _, _. do 2 (split; [reflexivity|]). split; [cbn [map]; repeat (apply Forall_cons; [sball|]); apply Forall_nil|cbn [map]; repeat (apply Forall2_cons; [gall|]); apply Forall2_nil].
  - change (find_flag _ F_x3) with (Ok x3_computeVelocityCost). cbn [bind]. unfold x3_computeVelocityCost.
    cbn [bind get nth_error]. cbv zeta. match goal with |- context [blocks_norm ?B] => set (N := blocks_norm B) in * end. clearbody N.
    eexists _, _, _. do 2 (split; [reflexivity|]). split; [cbn [map]; repeat (apply Forall_cons; [sball|]); apply Forall_nil|cbn [map]; repeat (apply Forall2_cons; [gall|]); apply Forall2_nil].
  - change (find_flag _ F_x5) with (Ok x5_computeVelocityCost). cbn [bind]. unfold x5_computeVelocityCost.
    cbn [bind get nth_error]. cbv zeta. match goal with |- context [blocks_norm ?B] => set (N := blocks_norm B) in * end. clearbody N.
    eexists _, _, _. do 2 (split; [reflexivity|]). split; [cbn [map]; repeat (apply Forall_cons; [sball|]); apply Forall_nil|cbn [map]; repeat (apply Forall2_cons; [gall|]); apply Forall2_nil].
Qed.

Lemma sat_g pi M pi' M' xs : computeConstantWaypoints p T = Ok pi -> computeConstantWaypoints q T = Ok pi' ->
  computeEndEffectorConstraints p T pi = Ok M -> computeEndEffectorConstraints q T pi' = Ok M' ->
  length xs = n -> (satX M' (flat (map g xs)) <-> satX M (flat xs)).
Proof.
  intros Ep Eq EM EM' Lx.
  destruct (g_shapes xs Lx) as (pi1 & pts & pi1' & pts' & F1 & Hs & F1' & Hs' & FF).
  rewrite Ep in F1. injection F1 as <-. rewrite Eq in F1'. injection F1' as <-.
  destruct (g_lists xs _ pi pts pi' pts' Hs Hs' FF) as (wa & wv & wj & wa' & wv' & wj' & Ea & Ev & Ej & Ea' & Ev' & Ej' & Ta & Tv & Tj).
  assert (HT0 : T <> 0) by lra.
  destruct (eff_constraints p T xs pi pts HT0 Hs) as (xa & xv & xj & N & Xa & Xv & Xj & Xb & XM & XC).
  rewrite Ea in Xa. injection Xa as <-. rewrite Ev in Xv. injection Xv as <-. rewrite Ej in Xj. injection Xj as <-. rewrite EM in XM. injection XM as <-.
  destruct (eff_constraints q T _ pi' pts' HT0 Hs') as (xa & xv & xj & N & Xa & Xv & Xj & Xb' & XM & XC').
  rewrite Ea' in Xa. injection Xa as <-. rewrite Ev' in Xv. injection Xv as <-. rewrite Ej' in Xj. injection Xj as <-. rewrite EM' in XM. injection XM as <-.
  destruct (c34_exact p wa wv eff_bounds eff_bounds wj eff_bounds Xb) as (N & XN & _ & _ & HX). rewrite XC in XN. injection XN as <-.
  destruct (c34_exact q wa' wv' eff_bounds eff_bounds wj' eff_bounds Xb') as (N & XN & _ & _ & HX'). rewrite XC' in XN. injection XN as <-.
  assert (D : dimVar p = (3 * n)%nat) by (apply (dim_nf p Hin)).
  assert (D' : dimVar q = (3 * n)%nat) by (rewrite <- Nq; apply dim_nf; exact Hinq).
  rewrite HX, HX' by (rewrite ?map_length; lia). rewrite (gtwin_bounded xs wa wa' Ta), (gtwin_bounded xs wv wv' Tv), (gtwin_bounded xs wj wj' Tj).
  destruct TR as (_ & B1 & _ & _ & _ & B5 & _). rewrite B1, B5, !(rg_z RG).
  assert (Z : forall m us, Forall (fun x => m <= vz x) (map g us) <-> Forall (fun x => m <= vz x) us).
  { intros m us. rewrite Forall_map. split; apply Forall_impl; intros u; cbv beta; rewrite (rg_z RG); tauto. }
  rewrite Z. reflexivity.
Qed.

Lemma vel_g H c c' xs : Forall (Forall sblock) H -> Forall2 geq c c' -> Forall (fun bs => length bs = length xs) H ->
  length H = length xs -> length c = length xs ->
  lval (blocks_matx H) (concat (map l3 c')) (flat (map g xs)) = lval (blocks_matx H) (concat (map l3 c)) (flat xs).
Proof.
  intros SB FG FH LH Lc. pose proof (ProofEffAxis2.forall2_len _ _ _ FG) as Lgg.
  unfold lval, quad. rewrite !quad_blocks by (rewrite ?map_length; try assumption; lia). rewrite !rdot_flat by (rewrite ?map_length; lia).
  assert (Q : forall us B, Forall (Forall sblock) B -> fold_right Rplus 0 (map2 (fun bs y => vdot (ev_blocks bs (map g xs)) y) B (map g us)) =
     fold_right Rplus 0 (map2 (fun bs y => vdot (ev_blocks bs xs) y) B us)).
  { clear - RG. intros us B. revert us. induction B as [|b B IH]; intros [|u us] F; try reflexivity. inversion F; subst. cbn [map map2 fold_right].
    rewrite IH, ev_blocks_g, (rg_dot RG) by assumption. reflexivity. }
  rewrite Q by exact SB. f_equal. f_equal. clear - FG RG Lc. revert xs Lc.
  induction FG as [|u v c c' E FG IH]; intros [|x xs] L; try discriminate; [reflexivity|]. cbn [map map2 fold_right]. rewrite IH by (now injection L).
  rewrite E, (rg_dot RG). reflexivity.
Qed.

Lemma dist_same_g pi pi' step pts pts' : (forall k, exists w w', evaluateCurveWaypointAtTime p pi (INR k * step) = Ok w /\
    evaluateCurveWaypointAtTime q pi' (INR k * step) = Ok w' /\ gtwin w w') ->
  forall m i H c c' A b A' b', dist_loop p pi step pts i m H c = Ok (A, b) -> dist_loop q pi' step pts' i m H c' = Ok (A', b') -> A = A'.
Proof.
  intros HK. assert (D : dimVar q = dimVar p) by (unfold dimVar; rewrite Hf; reflexivity).
  induction m as [|m IH]; intros i H c c' A b A' b' E E'; cbn [dist_loop] in E, E'; [congruence|].
  destruct (HK i) as (w & w' & Ew & Ew' & (HB & _)). rewrite Ew in E. rewrite Ew' in E'. cbn [bind] in E, E'. rewrite D in E'.
  unfold get in E, E'. destruct (nth_error pts i) as [pk|]; [|discriminate]. destruct (nth_error pts' i) as [pk'|]; [|discriminate]. cbn [bind] in E, E'.
  rewrite HB in E'. destruct (negb _); [discriminate|].
  assert (ER : wpn_rows w' = wpn_rows w) by (unfold wpn_rows; rewrite HB; reflexivity). rewrite ER in E'.
  exact (IH _ _ _ _ _ _ _ _ E E').
Qed.
Lemma dist_g N pts pts' H c H' c' xs : (3 <= N)%nat -> (N <= length pts)%nat -> (N <= length pts')%nat ->
  (forall k, (k < N)%nat -> geq (nth k pts vzero) (nth k pts' vzero)) ->
  computeDistanceCostFunction N p T pts = Ok (H, c) -> computeDistanceCostFunction N q T pts' = Ok (H', c') -> length xs = n ->
  lval H' c' (flat (map g xs)) = lval H c (flat xs).
Proof.
  intros HN HL HL' HP E E' Lx.
  destruct (g_shapes xs Lx) as (pi & qs & pi' & qs' & Ep & Hs & Eq & Hs' & FF).
  set (step := 1 / (INR N - 1)) in *.
  assert (HK : forall k, exists w w', evaluateCurveWaypointAtTime p pi (INR k * step) = Ok w /\
    evaluateCurveWaypointAtTime q pi' (INR k * step) = Ok w' /\ gtwin w w') by (intros k; exact (g_evals xs _ pi qs pi' qs' _ Hs Hs' FF)).
  pose (W := fun k => okw (evaluateCurveWaypointAtTime p pi (INR k * step))). pose (W' := fun k => okw (evaluateCurveWaypointAtTime q pi' (INR k * step))).
  assert (TW : forall k, gtwin (W k) (W' k)).
  { intros k. destruct (HK k) as (w & w' & Ew & Ew' & Tw). unfold W, W'. rewrite Ew, Ew'. exact Tw. }
  destruct (dist_loop_ok p pi step pts W (fun i => nth i pts vzero) n (dim_nf p Hin) N 0 (matx_zero (3 * n)) (repeat 0 (3 * n))) as (A & b & EA & _ & _ & HA).
  { intros k Hk. destruct (W_ok p T pi N Hin HT Ep k) as (A & B & _). split; [exact A|]. split; [exact B|]. apply nth_error_nth'. lia. }
  { apply square_zero. } { apply repeat_length. }
  destruct (dist_loop_ok q pi' step pts' W' (fun i => nth i pts' vzero) n (eq_trans (dim_nf q Hinq) (f_equal (Nat.mul 3) Nq)) N 0 (matx_zero (3 * n)) (repeat 0 (3 * n))) as (A' & b' & EA' & _ & _ & HA').
  { intros k Hk. destruct (W_ok q T pi' N Hinq HT Eq k) as (A1 & B & _). split; [exact A1|]. split; [rewrite <- Nq; exact B|]. apply nth_error_nth'. lia. }
  { apply square_zero. } { apply repeat_length. }
  pose proof (dist_same_g pi pi' step pts pts' HK _ _ _ _ _ _ _ _ _ EA EA') as EE. subst A'.
  unfold computeDistanceCostFunction in E, E'. destruct (Nat.eqb_spec N 1); [lia|]. rewrite Ep in E. rewrite Eq in E'. cbn [bind] in E, E'.
  rewrite (dim_nf p Hin) in E. rewrite (dim_nf q Hinq), Nq in E'. fold step n in E, E'. rewrite EA in E. rewrite EA' in E'. cbn [bind fst snd] in E, E'.
  destruct (Req_EM_T (matx_norm A) 0) as [|HN0]; [discriminate|]. injection E as <- <-. injection E' as <- <-. rewrite !lval_div. f_equal.
  assert (Z0 : Forall (eq 0) (repeat 0 (3 * n))) by (clear; induction (3 * n)%nat; cbn; constructor; auto).
  unfold lval. destruct (HA xs Lx) as [-> ->]. destruct (HA' (map g xs)) as [-> ->]; [rewrite map_length; exact Lx|].
  rewrite !quad_zero, !(rdot_zero_l (repeat 0 (3 * n))) by exact Z0.
  assert (S1 : wsum (fun k => vnorm2 (ev_blocks (wn_blocks (W' k)) (map g xs))) 0 N = wsum (fun k => vnorm2 (ev_blocks (wn_blocks (W k)) xs)) 0 N).
  { apply wsum_ext. intros k _. destruct (TW k) as (TB & TS & TP). rewrite TB, ev_blocks_g by exact TS. apply (rg_dot RG). }
  assert (S2 : wsum (fun k => vdot (ev_blocks (wn_blocks (W' k)) (map g xs)) (vsub (wn_pt (W' k)) (nth k pts' vzero))) 0 N =
    wsum (fun k => vdot (ev_blocks (wn_blocks (W k)) xs) (vsub (wn_pt (W k)) (nth k pts vzero))) 0 N).
  { apply wsum_ext. intros k Hk. destruct (TW k) as (TB & TS & TP). rewrite TB, ev_blocks_g by exact TS.
    rewrite (HP k) by lia. rewrite TP, <- g_sub. apply (rg_dot RG). }
  rewrite S1, S2. reflexivity.
Qed.

Variables (path path' : R -> outcome vec3) (f f' : R -> vec3) (wd : R).
Hypothesis (Hp : forall s, 0 <= s <= 1 -> path s = Ok (f s)) (Hp' : forall s, 0 <= s <= 1 -> path' s = Ok (f' s)).
Hypothesis (HP : forall s, 0 <= s <= 1 -> f' s = g (f s)) (Hw : 0 <= wd <= 1).
Lemma cost_g pi pi' H c H' c' xs : computeConstantWaypoints p T = Ok pi -> computeConstantWaypoints q T = Ok pi' ->
  computeEndEffectorCost p path T wd pi = Ok (H, c) -> computeEndEffectorCost q path' T wd pi' = Ok (H', c') -> length xs = n ->
  lval H' c' (flat (map g xs)) = lval H c (flat xs).
Proof.
  intros Ep Eq E E' Lx.
  destruct (g_shapes xs Lx) as (pi1 & qs & pi1' & qs' & F1 & Hs & F1' & Hs' & FF).
  rewrite Ep in F1. injection F1 as <-. rewrite Eq in F1'. injection F1' as <-.
  destruct (g_costs xs _ pi qs pi' qs' Hs Hs' FF) as (HV & gv & gv' & EV & EV' & SB & FG).
  assert (SZ : length HV = n /\ Forall (fun bs => length bs = n) HV /\ length gv = n).
  { destruct (velcost_form _ _ _ _ _ HT Hs) as (H1 & g1 & N' & HE' & _ & A & B & C & _). rewrite EV in HE'. injection HE' as <- <-.
    rewrite Lx in *. auto. }
  destruct SZ as (LH & FH & Lg). pose proof (blocks_square n HV LH FH) as SqV. pose proof (ProofEffAxis2.forall2_len _ _ _ FG) as Lgg.
  assert (LgV : forall g0 : list vec3, length g0 = n -> length (concat (map l3 g0)) = (3 * n)%nat).
  { intros g0 L0. rewrite <- L0. clear. induction g0 as [|b l IH]; [reflexivity|]. cbn [map concat]. rewrite app_length, IH. cbn [length l3]. lia. }
  pose proof (vel_g HV gv gv' xs SB FG ltac:(rewrite Lx; exact FH) ltac:(lia) ltac:(lia)) as MV.
  unfold computeEndEffectorCost in E, E'. destruct (Rlt_dec 0 wd) as [Pw|Pw].
  - destruct (c35_path 50 p T path f Hin HT ltac:(lia) Hp) as (Hd & gd & k1 & K1 & Ed & _ & Sd & Ld & _).
    destruct (c35_path 50 q T path' f' Hinq HT ltac:(lia) Hp') as (Hd' & gd' & k1' & K1' & Ed' & _ & Sd' & Ld' & _).
    rewrite Ed in E. rewrite Ed' in E'. cbn [bind] in E, E'. rewrite EV in E. rewrite EV' in E'. cbn [bind fst snd] in E, E'.
    injection E as <- <-. injection E' as <- <-. rewrite Nq in Sd', Ld'.
    rewrite !(lval_add (3 * n)) by (try assumption; apply LgV; lia).
    rewrite (path_ok 50 p T path f ltac:(lia) Hp) in Ed. rewrite (path_ok 50 q T path' f' ltac:(lia) Hp') in Ed'.
    match type of Ed with computeDistanceCostFunction _ _ _ ?P0 = _ => match type of Ed' with computeDistanceCostFunction _ _ _ ?P1 = _ =>
      assert (MD := dist_g 50 P0 P1 Hd gd Hd' gd' xs ltac:(lia)
        ltac:(rewrite map_length, seq_length; lia) ltac:(rewrite map_length, seq_length; lia)) end end.
    assert (MD' := fun X => MD X Ed Ed' Lx). clear MD.
    assert (X : forall k : nat, (k < 50)%nat -> f' (INR k * (1 / (INR 50 - 1))) = g (f (INR k * (1 / (INR 50 - 1))))).
    { intros k Hk. apply HP. apply sample01; lia. }
    assert (Y : forall (h : R -> vec3) k, (k < 50)%nat -> nth k (map (fun i => h (INR i * (1 / (INR 50 - 1)))) (seq 0 50)) vzero = h (INR k * (1 / (INR 50 - 1)))).
    { intros h k Hk. rewrite (nth_indep _ vzero (h (INR 0 * (1 / (INR 50 - 1))))) by (rewrite map_length, seq_length; exact Hk).
      rewrite (map_nth (fun i => h (INR i * (1 / (INR 50 - 1))))), seq_nth by exact Hk. reflexivity. }
    specialize (MD' ltac:(intros k Hk; unfold geq; rewrite !Y by exact Hk; apply X; exact Hk)).
    rewrite MV, MD'. reflexivity.
  - cbn [bind] in E, E'. rewrite EV in E. rewrite EV' in E'. cbn [bind fst snd] in E, E'. injection E as <- <-. injection E' as <- <-.
    rewrite (dim_nf p Hin), (dim_nf q Hinq), Nq. fold n.
    rewrite !(lval_add (3 * n)) by (try assumption; try apply square_zero; try apply repeat_length; apply LgV; lia).
    assert (Z : forall v, lval (matx_zero (3 * n)) (repeat 0 (3 * n)) v = 0).
    { intros v. unfold lval. rewrite quad_zero, rdot_zero_l; [ring|]. clear. induction (3 * n)%nat; cbn; constructor; auto. }
    rewrite !Z, MV. reflexivity.
Qed.

Lemma onto_list : forall ys, exists xs, map g xs = ys.
Proof. induction ys as [|y ys [xs IH]]; [exists []; reflexivity|]. destruct (rg_onto RG y) as (x & <-). exists (x :: xs). cbn. rewrite IH. reflexivity. Qed.
Lemma c108_turn wg quadprog glpk init r wg' quadprog' glpk' init' :
  qp_solves quadprog -> qp_sound quadprog -> qp_solves quadprog' -> (forall k, length (init k) = k) -> (forall k, length (init' k) = k) ->
  solveEndEffector wg quadprog glpk init p path T wd = Ok r -> rc_success r = true ->
  exists r', solveEndEffector wg' quadprog' glpk' init' q path' T wd = Ok r' /\ rc_success r' = true /\
    forall t, cv_fun (rc_c r') t = g (cv_fun (rc_c r) t).
Proof.
  intros QO QS QO' HI HI' E Es.
  destruct (eff_qp_ok p path f T wd Hin HT Hp Hw) as (pi & M & H & c & EQ & _).
  destruct (eff_qp_ok q path' f' T wd Hinq HT Hp' Hw) as (pi' & M' & H' & c' & EQ' & _).
  destruct (eff_success p path f T wd Hin HT Hp Hw pi M H c wg quadprog glpk init r EQ QO QS HI E Es) as (xs & cv & Ax & Cx & ->).
  pose proof EQ as (E1 & E2 & E3). pose proof EQ' as (E1' & E2' & E3'). pose proof Ax as (Lx & Sx & Ox).
  assert (SG : forall us, length us = n -> (satX M' (flat (map g us)) <-> satX M (flat us))) by (intros us Lu; exact (sat_g pi M pi' M' us E1 E1' E2 E2' Lu)).
  assert (CG : forall us, length us = n -> lval H' c' (flat (map g us)) = lval H c (flat us)) by (intros us Lu; exact (cost_g pi pi' H c H' c' us E1 E1' E3 E3' Lu)).
  assert (Lg : length (map g xs) = eff_free (flag_of q)) by (rewrite map_length, Nq; exact Lx).
  assert (Sg : satX M' (flat (map g xs))) by (apply SG; assumption).
  destruct (eff_answer q path' f' T wd Hinq HT Hp' Hw pi' M' H' c' wg' quadprog' glpk' init' (map g xs) EQ' QO' HI' Lg Sg) as (ys & cv' & Ay & Cy & ER).
  eexists. split; [exact ER|]. split; [reflexivity|]. intros t.
  assert (Ag : eff_least q M' H' c' (map g xs)).
  { split; [exact Lg|]. split; [exact Sg|]. intros zs Lz Sz. destruct (onto_list zs) as (us & <-). rewrite map_length, Nq in Lz.
    rewrite !CG by assumption. apply Ox; [exact Lz|]. apply SG; assumption. }
  pose proof (eff_least_unique q path' f' T wd Hinq HT Hp' Hw pi' M' H' c' _ _ EQ' Ag Ay) as EZ.
  apply flat_inj in EZ; [|rewrite Lg; symmetry; exact (proj1 Ay)]. subst ys.
  destruct (g_shapes xs Lx) as (pi1 & pts & pi1' & pts' & F1 & Hs & F1' & Hs' & FF).
  destruct (eff_curve_ok p T xs Hin Lx HT) as (pj & ptj & K2 & K3 & K4). destruct (eff_curve_ok q T (map g xs) Hinq Lg HT) as (pj' & ptj' & K2' & K3' & K4').
  rewrite F1 in K2. injection K2 as <-. rewrite F1' in K2'. injection K2' as <-.
  rewrite Cx in K4. injection K4 as ->. rewrite Cy in K4'. injection K4' as ->. cbn [rc_c eff_result]. unfold cv_fun. cbn [bc_pts bc_T].
  assert (EP : ptj' = map g ptj).
  { assert (FP : Forall2 geq ptj ptj').
    { clear - K3 K3' FF TR. remember (map g xs) as ys eqn:Ey.
      inversion K3 as [? ? ? ? ? ? ? ? ? ? ? Ef ? ?|? ? ? ? ? ? ? ? ? ? ? ? ? ? ? Ef ? ?|? ? ? ? ? ? ? ? ? ? ? ? ? ? Ef ? ?]; subst; clear K3;
      (inversion K3' as [? ? ? ? ? ? ? ? ? ? ? Ef' ? ?|? ? ? ? ? ? ? ? ? ? ? ? ? ? ? Ef' ? ?|? ? ? ? ? ? ? ? ? ? ? ? ? ? Ef' ? ?];
       try (exfalso; rewrite (proj1 TR), Ef in Ef'; discriminate Ef')); subst; clear K3';
      repeat match goal with X : Forall2 _ (_ :: _) (_ :: _) |- _ => inversion X; subst; clear X end;
      repeat (apply Forall2_cons; [first [assumption|reflexivity]|]); apply Forall2_nil. }
    clear - FP. induction FP as [|u v P Q Ev FP IH]; [reflexivity|]. cbn. rewrite Ev, IH. reflexivity. }
  rewrite EP. apply (rg_curve RG).
Qed.
End Two.
End Turn.
