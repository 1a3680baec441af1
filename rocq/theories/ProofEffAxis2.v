(** End-effector planning: the coordinates are planned independently of each other. *)
From Coq Require Import List Lia Lra.
From Verif Require Import Vec SpecBezier ModelData ModelUtils ModelWaypointsJerk ModelDispatch ModelCont ModelSolver ModelTraj ModelEff
  SpecCom SpecWp SpecSolver SpecTraj Spec0Step SpecEff ProofCurve ProofEff ProofEff2 ProofEff3 ProofEff4 ProofEff5 ProofEff6 ProofEff7 ProofEff11 ProofEff14
  ProofEffBest ProofEffAxis.
Import ListNotations.
Open Scope R_scope.

Lemma fold_mix {X} (F G : X -> vec3 -> R) a : forall (B : list X) (C : list X) xs ys, length xs = length ys -> length B = length xs -> length C = length xs ->
  (forall i b c x y, nth_error B i = Some b -> nth_error C i = Some c -> nth_error xs i = Some x -> nth_error ys i = Some y ->
     F b (swap a x y) + G c (swap a y x) = F b x + G c y) ->
  fold_right Rplus 0 (map2 F B (mix a xs ys)) + fold_right Rplus 0 (map2 G C (mix a ys xs)) =
  fold_right Rplus 0 (map2 F B xs) + fold_right Rplus 0 (map2 G C ys).
Proof.
  induction B as [|b B IH]; intros [|c C] [|x xs] [|y ys] L LB LC H; try discriminate; [cbn; ring|].
  cbn [map2 fold_right]. pose proof (H 0%nat b c x y eq_refl eq_refl eq_refl eq_refl) as H0.
  assert (E : fold_right Rplus 0 (map2 F B (mix a xs ys)) + fold_right Rplus 0 (map2 G C (mix a ys xs)) =
    fold_right Rplus 0 (map2 F B xs) + fold_right Rplus 0 (map2 G C ys)).
  { apply IH; try (cbn in *; lia). intros i. apply (H (S i)). }
  lra.
Qed.
Lemma forall2_nth {X Y} (P : X -> Y -> Prop) : forall l m, Forall2 P l m -> forall i x y, nth_error l i = Some x -> nth_error m i = Some y -> P x y.
Proof. induction 1; intros [|i] u v Hu Hv; cbn in *; try discriminate; [congruence|eauto]. Qed.
Lemma forall2_len {X Y} (P : X -> Y -> Prop) l m : Forall2 P l m -> length l = length m.
Proof. induction 1; [reflexivity|cbn; congruence]. Qed.

(** * The velocity cost *)
Lemma vel_mix a H g g' xs ys : Forall (Forall sblock) H -> Forall2 (feq a) g g' -> Forall (fun bs => length bs = length xs) H ->
  length H = length xs -> length g = length xs -> length xs = length ys ->
  lval (blocks_matx H) (concat (map l3 g)) (flat (mix a xs ys)) + lval (blocks_matx H) (concat (map l3 g')) (flat (mix a ys xs)) =
  lval (blocks_matx H) (concat (map l3 g)) (flat xs) + lval (blocks_matx H) (concat (map l3 g')) (flat ys).
Proof.
  intros SB FG FH LH Lg L. pose proof (forall2_len _ _ _ FG) as Lgg.
  assert (L1 : length (mix a xs ys) = length xs) by (apply map2_len; exact L).
  assert (L2 : length (mix a ys xs) = length xs) by (rewrite map2_len; lia).
  assert (FH' : forall n, n = length xs -> Forall (fun bs : list mat3 => length bs = n) H) by (intros n ->; exact FH).
  unfold lval, quad. rewrite !quad_blocks by (try (apply FH'; lia); lia). rewrite !rdot_flat by lia.
  assert (Q : fold_right Rplus 0 (map2 (fun bs y => vdot (ev_blocks bs (mix a xs ys)) y) H (mix a xs ys)) +
              fold_right Rplus 0 (map2 (fun bs y => vdot (ev_blocks bs (mix a ys xs)) y) H (mix a ys xs)) =
              fold_right Rplus 0 (map2 (fun bs y => vdot (ev_blocks bs xs) y) H xs) + fold_right Rplus 0 (map2 (fun bs y => vdot (ev_blocks bs ys) y) H ys)).
  { assert (E : forall zs zs' us B, Forall (fun bs => ev_blocks bs zs = ev_blocks bs zs') B ->
       map2 (fun bs y => vdot (ev_blocks bs zs) y) B us = map2 (fun bs y => vdot (ev_blocks bs zs') y) B us).
    { intros zs zs' us B FB. revert us. induction FB as [|b B Eb FB IHB]; intros [|u us]; try reflexivity. cbn. rewrite Eb, IHB. reflexivity. }
    clear E.
    pose (F1 := fun bs y => vdot (swap a (ev_blocks bs xs) (ev_blocks bs ys)) y). pose (G1 := fun bs y => vdot (swap a (ev_blocks bs ys) (ev_blocks bs xs)) y).
    assert (M : forall (F G : list mat3 -> vec3 -> R) us B, Forall (fun bs => forall y, F bs y = G bs y) B -> map2 F B us = map2 G B us).
    { intros F G us B FB. revert us. induction FB as [|b B Eb FB IHB]; intros [|u us]; try reflexivity. cbn. rewrite Eb, IHB. reflexivity. }
    rewrite (M (fun bs y => vdot (ev_blocks bs (mix a xs ys)) y) F1), (M (fun bs y => vdot (ev_blocks bs (mix a ys xs)) y) G1).
    2, 3: eapply Forall_impl; [|exact SB]; intros bs Hb y; unfold F1, G1; rewrite ev_blocks_mix by (try exact Hb; lia); reflexivity.
    assert (D : forall us vs B, length us = length vs -> length B = length us -> 
       fold_right Rplus 0 (map2 F1 B (mix a us vs)) + fold_right Rplus 0 (map2 G1 B (mix a vs us)) =
       fold_right Rplus 0 (map2 (fun bs y => vdot (ev_blocks bs xs) y) B us) + fold_right Rplus 0 (map2 (fun bs y => vdot (ev_blocks bs ys) y) B vs)).
    { clear. induction us as [|u us IHu]; intros [|v vs] [|b B] Lu LB; try discriminate; [cbn; ring|].
      cbn [map2 fold_right]. assert (LL := IHu vs B ltac:(cbn in *; lia) ltac:(cbn in *; lia)).
      pose proof (swap_dot a (ev_blocks b xs) (ev_blocks b ys) u v) as S. unfold F1 at 1, G1 at 1. lra. }
    apply D; lia. }
  assert (LN : fold_right Rplus 0 (map2 vdot g (mix a xs ys)) + fold_right Rplus 0 (map2 vdot g' (mix a ys xs)) =
    fold_right Rplus 0 (map2 vdot g xs) + fold_right Rplus 0 (map2 vdot g' ys)).
  { apply fold_mix; try lia. intros i b c x y Hb Hc _ _. pose proof (forall2_nth _ _ _ FG i b c Hb Hc) as E.
    pose proof (swap_dot a b c x y) as S. rewrite (swap_feq a b c E), (swap_feq a c b (feq_sym _ _ _ E)) in S. exact S. }
  lra.
Qed.

Lemma lval_add n A a B b k l v : square n A -> square n B -> length a = n -> length b = n ->
  lval (matx_add (matx_scal k A) (matx_scal l B)) (vecx_add (vecx_scal k a) (vecx_scal l b)) v = k * lval A a v + l * lval B b v.
Proof.
  intros SA SB La Lb. unfold lval. rewrite (quad_add n) by (apply square_scal; assumption). rewrite !quad_scal.
  rewrite ProofEff6.rdot_add by (unfold vecx_scal; rewrite !map_length; lia). rewrite !ProofEff6.rdot_scal. ring.
Qed.
Lemma lval_div A b N v : lval (matx_div A N) (vecx_div b N) v = lval A b v / N.
Proof. unfold lval. rewrite quad_div, rdot_div. unfold Rdiv. ring. Qed.

(** * Two problems *)
Section Two.
Variables (a : axis) (p q : problem) (T : R).
Hypothesis (Hin : In (flag_of p) effector_flags) (Hf : flag_of q = flag_of p).
Hypothesis (B1 : feq a (c0 p) (c0 q)) (B2 : feq a (dc0 p) (dc0 q)) (B3 : feq a (ddc0 p) (ddc0 q)) (B4 : feq a (j0 p) (j0 q)).
Hypothesis (B5 : feq a (c1 p) (c1 q)) (B6 : feq a (dc1 p) (dc1 q)) (B7 : feq a (ddc1 p) (ddc1 q)) (B8 : feq a (j1 p) (j1 q)).
Hypothesis HT : 0 < T.
Let n := eff_free (flag_of p).

Lemma sat_mix pi M pi' M' xs ys : computeConstantWaypoints p T = Ok pi -> computeConstantWaypoints q T = Ok pi' ->
  computeEndEffectorConstraints p T pi = Ok M -> computeEndEffectorConstraints q T pi' = Ok M' ->
  length xs = n -> length ys = n -> satX M (flat xs) -> satX M' (flat ys) -> satX M (flat (mix a xs ys)).
Proof.
  intros Ep Eq EM EM' Lx Ly Sx Sy.
  destruct (two_shapes a p q T Hin Hf B1 B2 B3 B4 B5 B6 B7 B8 xs ys Lx Ly) as (pi1 & pts & pi1' & pts' & F1 & Hs & F1' & Hs' & FF).
  rewrite Ep in F1. injection F1 as <-. rewrite Eq in F1'. injection F1' as <-.
  destruct (two_lists a p q T Hf xs ys pi pts pi' pts' Hs Hs' FF) as (wa & wv & wj & wa' & wv' & wj' & Ea & Ev & Ej & Ea' & Ev' & Ej' & Ta & Tv & Tj).
  assert (HT0 : T <> 0) by lra.
  destruct (eff_constraints p T xs pi pts HT0 Hs) as (xa & xv & xj & N & Xa & Xv & Xj & Xb & XM & XC).
  rewrite Ea in Xa. injection Xa as <-. rewrite Ev in Xv. injection Xv as <-. rewrite Ej in Xj. injection Xj as <-. rewrite EM in XM. injection XM as <-.
  destruct (eff_constraints q T ys pi' pts' HT0 Hs') as (xa & xv & xj & N & Xa & Xv & Xj & Xb' & XM & XC').
  rewrite Ea' in Xa. injection Xa as <-. rewrite Ev' in Xv. injection Xv as <-. rewrite Ej' in Xj. injection Xj as <-. rewrite EM' in XM. injection XM as <-.
  destruct (c34_exact p wa wv eff_bounds eff_bounds wj eff_bounds Xb) as (N & XN & _ & _ & HX). rewrite XC in XN. injection XN as <-.
  destruct (c34_exact q wa' wv' eff_bounds eff_bounds wj' eff_bounds Xb') as (N & XN & _ & _ & HX'). rewrite XC' in XN. injection XN as <-.
  assert (D : dimVar p = (3 * n)%nat) by (apply (dim_nf p Hin)).
  assert (D' : dimVar q = (3 * n)%nat) by (unfold n; rewrite <- Hf; apply dim_nf; rewrite Hf; exact Hin).
  assert (L : length xs = length ys) by lia. assert (Lz : length (mix a xs ys) = length xs) by (apply map2_len; exact L).
  apply (HX xs) in Sx; [|lia]. apply (HX' ys) in Sy; [|lia]. apply HX; [lia|].
  destruct Sx as (X1 & X2 & X3 & X4), Sy as (Y1 & Y2 & Y3 & Y4).
  split; [apply (twin_bounded a _ _ xs ys L wa wa' Ta X1 Y1)|]. split; [apply (twin_bounded a _ _ xs ys L wv wv' Tv X2 Y2)|].
  split; [apply (twin_bounded a _ _ xs ys L wj wj' Tj X3 Y3)|].
  assert (Z : forall (m m' : R) us vs, (a = AZ -> m = m') -> length us = length vs -> Forall (fun x => m <= vz x) us -> Forall (fun x => m' <= vz x) vs ->
    Forall (fun x => m <= vz x) (mix a us vs)).
  { clear. intros m m' us vs Hm. revert vs. induction us as [|u us IH]; intros [|v vs] L A B; try discriminate; [constructor|].
    inversion A; inversion B; subst. cbn [map2]. constructor; [|apply IH; auto]. destruct a; cbn; try assumption. rewrite (Hm eq_refl). assumption. }
  apply (Z _ (Rmin (vz (c0 q)) (vz (c1 q)))); try assumption.
  intros Ha. unfold feq in B1, B5. rewrite Ha in B1, B5. cbn in B1, B5. rewrite B1, B5. reflexivity.
Qed.

(** the distance to the path *)
Lemma dist_same pi pi' step pts pts' : (forall k, exists w w', evaluateCurveWaypointAtTime p pi (INR k * step) = Ok w /\
    evaluateCurveWaypointAtTime q pi' (INR k * step) = Ok w' /\ twin a w w') ->
  forall m i H g g' A b A' b', dist_loop p pi step pts i m H g = Ok (A, b) -> dist_loop q pi' step pts' i m H g' = Ok (A', b') -> A = A'.
Proof.
  intros HK. assert (D : dimVar q = dimVar p) by (unfold dimVar; rewrite Hf; reflexivity).
  induction m as [|m IH]; intros i H g g' A b A' b' E E'; cbn [dist_loop] in E, E'; [congruence|].
  destruct (HK i) as (w & w' & Ew & Ew' & (HB & _)). rewrite Ew in E. rewrite Ew' in E'. cbn [bind] in E, E'. rewrite D in E'.
  unfold get in E, E'. destruct (nth_error pts i) as [pk|]; [|discriminate]. destruct (nth_error pts' i) as [pk'|]; [|discriminate]. cbn [bind] in E, E'.
  rewrite <- HB in E'. destruct (negb _); [discriminate|].
  assert (ER : wpn_rows w' = wpn_rows w) by (unfold wpn_rows; rewrite HB; reflexivity). rewrite ER in E'.
  exact (IH _ _ _ _ _ _ _ _ E E').
Qed.
Lemma dist_mix N pts pts' H g H' g' xs ys : (3 <= N)%nat -> (N <= length pts)%nat -> (N <= length pts')%nat ->
  (forall k, (k < N)%nat -> feq a (nth k pts vzero) (nth k pts' vzero)) ->
  computeDistanceCostFunction N p T pts = Ok (H, g) -> computeDistanceCostFunction N q T pts' = Ok (H', g') -> length xs = n -> length ys = n ->
  lval H g (flat (mix a xs ys)) + lval H' g' (flat (mix a ys xs)) = lval H g (flat xs) + lval H' g' (flat ys).
Proof.
  intros HN HL HL' HP E E' Lx Ly.
  destruct (two_shapes a p q T Hin Hf B1 B2 B3 B4 B5 B6 B7 B8 xs ys Lx Ly) as (pi & qs & pi' & qs' & Ep & Hs & Eq & Hs' & FF).
  set (step := 1 / (INR N - 1)) in *.
  assert (HK : forall k, exists w w', evaluateCurveWaypointAtTime p pi (INR k * step) = Ok w /\
    evaluateCurveWaypointAtTime q pi' (INR k * step) = Ok w' /\ twin a w w') by (intros k; exact (two_evals a p q T Hf xs ys pi qs pi' qs' _ Hs Hs' FF)).
  assert (Hinq : In (flag_of q) effector_flags) by (rewrite Hf; exact Hin).
  assert (Nq : eff_free (flag_of q) = n) by (unfold n; rewrite Hf; reflexivity).
  pose (W := fun k => okw (evaluateCurveWaypointAtTime p pi (INR k * step))). pose (W' := fun k => okw (evaluateCurveWaypointAtTime q pi' (INR k * step))).
  assert (TW : forall k, twin a (W k) (W' k)).
  { intros k. destruct (HK k) as (w & w' & Ew & Ew' & Tw). unfold W, W'. rewrite Ew, Ew'. exact Tw. }
  destruct (dist_loop_ok p pi step pts W (fun i => nth i pts vzero) n (dim_nf p Hin) N 0 (matx_zero (3 * n)) (repeat 0 (3 * n))) as (A & b & EA & _ & _ & HA).
  { intros k Hk. destruct (W_ok p T pi N Hin HT Ep k) as (A & B & _). split; [exact A|]. split; [exact B|]. apply nth_error_nth'. lia. }
  { apply square_zero. } { apply repeat_length. }
  destruct (dist_loop_ok q pi' step pts' W' (fun i => nth i pts' vzero) n (eq_trans (dim_nf q Hinq) (f_equal (Nat.mul 3) Nq)) N 0 (matx_zero (3 * n)) (repeat 0 (3 * n))) as (A' & b' & EA' & _ & _ & HA').
  { intros k Hk. destruct (W_ok q T pi' N Hinq HT Eq k) as (A1 & B & _). split; [exact A1|]. split; [rewrite <- Nq; exact B|]. apply nth_error_nth'. lia. }
  { apply square_zero. } { apply repeat_length. }
  pose proof (dist_same pi pi' step pts pts' HK _ _ _ _ _ _ _ _ _ EA EA') as EE. subst A'.
  unfold computeDistanceCostFunction in E, E'. destruct (Nat.eqb_spec N 1); [lia|]. rewrite Ep in E. rewrite Eq in E'. cbn [bind] in E, E'.
  rewrite (dim_nf p Hin) in E. rewrite (dim_nf q Hinq), Nq in E'. fold step n in E, E'. rewrite EA in E. rewrite EA' in E'. cbn [bind fst snd] in E, E'.
  destruct (Req_EM_T (matx_norm A) 0) as [|HN0]; [discriminate|]. injection E as <- <-. injection E' as <- <-. rewrite !lval_div.
  assert (L : length xs = length ys) by lia.
  assert (V : forall vs, length vs = n -> lval A b (flat vs) =
     wsum (fun k => vnorm2 (ev_blocks (wn_blocks (W k)) vs) + 2 * vdot (ev_blocks (wn_blocks (W k)) vs) (vsub (wn_pt (W k)) (nth k pts vzero))) 0 N).
  { intros vs Lv. unfold lval. destruct (HA vs Lv) as [-> ->]. rewrite quad_zero, wsum_lin, rdot_zero_l; [ring|].
    clear. induction (3 * n)%nat; cbn; constructor; auto. }
  assert (V' : forall vs, length vs = n -> lval A b' (flat vs) =
     wsum (fun k => vnorm2 (ev_blocks (wn_blocks (W' k)) vs) + 2 * vdot (ev_blocks (wn_blocks (W' k)) vs) (vsub (wn_pt (W' k)) (nth k pts' vzero))) 0 N).
  { intros vs Lv. unfold lval. destruct (HA' vs Lv) as [-> ->]. rewrite quad_zero, wsum_lin, rdot_zero_l; [ring|].
    clear. induction (3 * n)%nat; cbn; constructor; auto. }
  rewrite (V (mix a xs ys)), (V xs), (V' (mix a ys xs)), (V' ys) by (rewrite ?map2_len; lia).
  match goal with |- ?w1 / ?N0 + ?w2 / ?N0 = ?w3 / ?N0 + ?w4 / ?N0 => enough (SS : w1 + 1 * w2 = w3 + 1 * w4) by (unfold Rdiv; rewrite <- !Rmult_plus_distr_r; f_equal; lra) end.
  rewrite <- !wsum_lin. apply wsum_ext. intros k Hk. pose proof (TW k) as (TB & TS & TP).
  rewrite <- TB. rewrite (ev_blocks_mix a _ xs ys TS L), (ev_blocks_mix a _ ys xs TS (eq_sym L)).
  set (u := ev_blocks (wn_blocks (W k)) xs). set (v := ev_blocks (wn_blocks (W k)) ys).
  set (d := vsub (wn_pt (W k)) (nth k pts vzero)). set (d' := vsub (wn_pt (W' k)) (nth k pts' vzero)).
  assert (Ed : feq a d d') by (apply feq_sub; [exact TP|apply HP; lia]).
  pose proof (swap_dot a u v u v) as S1. pose proof (swap_dot a u v d d') as S2. rewrite (swap_feq a d d' Ed), (swap_feq a d' d (feq_sym _ _ _ Ed)) in S2.
  unfold vnorm2. lra.
Qed.
End Two.
