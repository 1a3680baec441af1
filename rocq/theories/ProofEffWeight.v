(** End-effector planning: the weight of the path. *)
From Coq Require Import List Lia Lra.
From Verif Require Import Vec SpecBezier ModelData ModelUtils ModelWaypointsJerk ModelDispatch ModelCont ModelSolver ModelTraj ModelEff
  SpecCom SpecWp SpecSolver SpecTraj Spec0Step SpecEff ProofCurve ProofEff ProofEff2 ProofEff3 ProofEff4 ProofEff5 ProofEff6 ProofEff7 ProofEff11 ProofEff13 ProofEff14
  ProofEffBest ProofEffAxis ProofEffAxis2 ProofEffAxis3.
Import ListNotations.
Open Scope R_scope.

Lemma Rabs_both a b : Rabs a <= b -> - b <= a <= b.
Proof. unfold Rabs. destruct (Rcase_abs a); lra. Qed.

Section Weight.
Variables (p : problem) (path : R -> outcome vec3) (f : R -> vec3) (T : R).
Hypothesis (Hin : In (flag_of p) effector_flags) (HT : 0 < T) (Hp : forall s, 0 <= s <= 1 -> path s = Ok (f s)).
Let n := eff_free (flag_of p).
Let gap cv := path_gap 50 p T cv (fun i => f (INR i * (1 / (INR 50 - 1)))).

(** The cost is a weighted sum of two functions that do not depend on the weight. *)
Lemma parts : exists pi HV gv Hd gd k K, computeConstantWaypoints p T = Ok pi /\ computeVelocityCost p T pi = Ok (HV, gv) /\ 0 < k /\
  (forall xs cv, length xs = n -> eff_curve p T xs = Ok cv -> k * lval Hd gd (flat xs) + K = gap cv) /\
  forall wd H c, 0 <= wd <= 1 -> computeEndEffectorCost p path T wd pi = Ok (H, c) ->
    forall xs, lval H c (flat xs) = (1 - wd) * lval (blocks_matx HV) (concat (map l3 gv)) (flat xs) + wd * lval Hd gd (flat xs).
Proof.
  destruct (c35_path 50 p T path f Hin HT ltac:(lia) Hp) as (Hd & gd & k & K & Ed & Pk & Sd & Ld & G).
  destruct (eff_shape_total p T _ Hin (repeat_length vzero _)) as (pi & pts0 & Hc & Hs).
  destruct (velcost_form _ _ _ _ _ HT Hs) as (HV & gv & N & HE & _ & LH & FH & Lg & _). rewrite repeat_length in LH, FH, Lg. fold n in LH, FH, Lg, Sd, Ld.
  exists pi, HV, gv, Hd, gd, k, K. split; [exact Hc|]. split; [exact HE|]. split; [exact Pk|]. split; [exact G|].
  intros wd H c Hw E xs. unfold computeEndEffectorCost in E.
  assert (LgV : length (concat (map l3 gv)) = (3 * n)%nat).
  { rewrite <- Lg. clear. induction gv as [|b l IH]; [reflexivity|]. cbn [map concat]. rewrite app_length, IH. cbn [length l3]. lia. }
  pose proof (blocks_square n HV LH FH) as SqV.
  destruct (Rlt_dec 0 wd) as [Pw|Pw].
  - rewrite Ed in E. cbn [bind] in E. rewrite HE in E. cbn [bind fst snd] in E. injection E as <- <-.
    rewrite (lval_add (3 * n)) by assumption. reflexivity.
  - cbn [bind] in E. rewrite HE in E. cbn [bind fst snd] in E. injection E as <- <-. rewrite (dim_nf p Hin). fold n.
    rewrite (lval_add (3 * n)) by (try assumption; try apply square_zero; apply repeat_length).
    assert (Z : wd = 0) by lra. rewrite Z. ring.
Qed.

Lemma c110_found w w' wg quadprog glpk init r wg' quadprog' glpk' init' : 0 <= w <= 1 -> 0 <= w' <= 1 ->
  qp_solves quadprog -> qp_sound quadprog -> qp_solves quadprog' -> (forall k, length (init k) = k) -> (forall k, length (init' k) = k) ->
  solveEndEffector wg quadprog glpk init p path T w = Ok r -> rc_success r = true ->
  exists r', solveEndEffector wg' quadprog' glpk' init' p path T w' = Ok r' /\ rc_success r' = true.
Proof.
  intros Hw Hw' QO QS QO' HI HI' E S.
  destruct (eff_qp_ok p path f T w Hin HT Hp Hw) as (pi & M & H & c & EQ & _). destruct (eff_qp_ok p path f T w' Hin HT Hp Hw') as (pi' & M' & H' & c' & EQ' & _).
  destruct (eff_success p path f T w Hin HT Hp Hw pi M H c wg quadprog glpk init r EQ QO QS HI E S) as (xs & cv & (Lx & Sx & _) & _).
  pose proof EQ as (E1 & E2 & _). pose proof EQ' as (E1' & E2' & _). rewrite E1 in E1'. injection E1' as <-. rewrite E2 in E2'. injection E2' as <-.
  destruct (eff_answer p path f T w' Hin HT Hp Hw' pi M H' c' wg' quadprog' glpk' init' xs EQ' QO' HI' Lx Sx) as (ys & cv' & _ & _ & ER).
  eexists. split; [exact ER|reflexivity].
Qed.

Lemma trade w w' wg quadprog glpk init r wg' quadprog' glpk' init' r' : 0 <= w -> w < w' -> w' <= 1 ->
  qp_solves quadprog -> qp_sound quadprog -> qp_solves quadprog' -> qp_sound quadprog' -> (forall k, length (init k) = k) -> (forall k, length (init' k) = k) ->
  solveEndEffector wg quadprog glpk init p path T w = Ok r -> rc_success r = true ->
  solveEndEffector wg' quadprog' glpk' init' p path T w' = Ok r' -> rc_success r' = true ->
  gap (rc_c r') <= gap (rc_c r) /\
  exists pi HV gv xs xs', computeConstantWaypoints p T = Ok pi /\ computeVelocityCost p T pi = Ok (HV, gv) /\ length xs = n /\ length xs' = n /\
    eff_curve p T xs = Ok (rc_c r) /\ eff_curve p T xs' = Ok (rc_c r') /\
    lval (blocks_matx HV) (concat (map l3 gv)) (flat xs) <= lval (blocks_matx HV) (concat (map l3 gv)) (flat xs').
Proof.
  intros W0 WW W1 QO QS QO' QS' HI HI' E S E' S'. assert (Hw : 0 <= w <= 1) by lra. assert (Hw' : 0 <= w' <= 1) by lra.
  destruct (eff_qp_ok p path f T w Hin HT Hp Hw) as (pi & M & H & c & EQ & _). destruct (eff_qp_ok p path f T w' Hin HT Hp Hw') as (pi' & M' & H' & c' & EQ' & _).
  destruct (eff_success p path f T w Hin HT Hp Hw pi M H c wg quadprog glpk init r EQ QO QS HI E S) as (xs & cv & (Lx & Sx & Ox) & Cx & ->).
  destruct (eff_success p path f T w' Hin HT Hp Hw' pi' M' H' c' wg' quadprog' glpk' init' r' EQ' QO' QS' HI' E' S') as (ys & cv' & (Ly & Sy & Oy) & Cy & ->).
  pose proof EQ as (E1 & E2 & E3). pose proof EQ' as (E1' & E2' & E3'). rewrite E1 in E1'. injection E1' as <-. rewrite E2 in E2'. injection E2' as <-.
  destruct parts as (pj & HV & gv & Hd & gd & k & K & F1 & F2 & Pk & G & HW). rewrite E1 in F1. injection F1 as <-.
  specialize (Ox ys Ly Sy). specialize (Oy xs Lx Sx). rewrite !(HW w H c Hw E3) in Ox. rewrite !(HW w' H' c' Hw' E3') in Oy.
  pose proof (G xs cv Lx Cx) as Gx. pose proof (G ys cv' Ly Cy) as Gy. cbn [rc_c eff_result].
  set (V1 := lval (blocks_matx HV) (concat (map l3 gv)) (flat xs)) in *. set (V2 := lval (blocks_matx HV) (concat (map l3 gv)) (flat ys)) in *.
  set (D1 := lval Hd gd (flat xs)) in *. set (D2 := lval Hd gd (flat ys)) in *.
  assert (BA : V1 - V2 <= D1 - D2) by nra.
  assert (A0 : V1 - V2 <= 0) by nra. assert (B0 : 0 <= D1 - D2) by nra.
  split; [rewrite <- Gx, <- Gy; nra|].
  exists pi, HV, gv, xs, ys. repeat (split; [assumption|]). fold V1 V2. lra.
Qed.
Lemma c110_speed w w' wg quadprog glpk init r wg' quadprog' glpk' init' r' B i j : 0 <= w -> w < w' -> w' <= 1 ->
  qp_solves quadprog -> qp_sound quadprog -> qp_solves quadprog' -> qp_sound quadprog' -> (forall k, length (init k) = k) -> (forall k, length (init' k) = k) ->
  solveEndEffector wg quadprog glpk init p path T w = Ok r -> rc_success r = true ->
  solveEndEffector wg' quadprog' glpk' init' p path T w' = Ok r' -> rc_success r' = true ->
  Forall (within B) (bc_pts (rc_c r)) -> Forall (within B) (bc_pts (rc_c r')) -> speed_integral (rc_c r) T i -> speed_integral (rc_c r') T j ->
  i <= j + 6 * velocity_eps (flag_of p) * (B * B) / ((2 * eff_degree (flag_of p) - 1) * T).
Proof.
  intros W0 WW W1 QO QS QO' QS' HI HI' E S E' S' FB FB' Hi Hj.
  destruct (trade w w' wg quadprog glpk init r wg' quadprog' glpk' init' r' W0 WW W1 QO QS QO' QS' HI HI' E S E' S') as (_ & pi & HV & gv & xs & ys & E1 & E2 & Lx & Ly & Cx & Cy & LE).
  assert (Dg : 0 < 2 * eff_degree (flag_of p) - 1) by (unfold eff_degree; destruct (Z.eqb _ _); [|destruct (Z.eqb _ _)]; lra).
  destruct (c36_velocity p T Hin HT) as (pi' & H1 & g1 & N & K & F1 & F2 & HN & _ & HV'). rewrite E1 in F1. injection F1 as <-. rewrite E2 in F2. injection F2 as <- <-.
  destruct (HV' xs B Lx) as (c1' & C1 & A1). rewrite Cx in C1. injection C1 as <-. destruct (A1 FB) as (i' & Hi' & A).
  destruct (HV' ys B Ly) as (c2' & C2 & A2). rewrite Cy in C2. injection C2 as <-. destruct (A2 FB') as (j' & Hj' & A').
  assert (i' = i) as -> by (exact (speed_integral_unique _ _ _ _ Hi' Hi)). assert (j' = j) as -> by (exact (speed_integral_unique _ _ _ _ Hj' Hj)).
  unfold lval in LE. apply Rabs_both in A. apply Rabs_both in A'.
  set (n2 := 2 * eff_degree (flag_of p) - 1) in *. set (e := velocity_eps (flag_of p)) in *.
  assert (Q : n2 * i <= n2 * j + 6 * e * (B * B) / T).
  { replace (6 * e * (B * B) / T) with (3 * e * (B * B) / T + 3 * e * (B * B) / T) by (field; lra). nra. }
  apply (Rmult_le_reg_l n2); [exact Dg|]. replace (n2 * (j + 6 * e * (B * B) / (n2 * T))) with (n2 * j + 6 * e * (B * B) / T) by (field; lra). exact Q.
Qed.
End Weight.
