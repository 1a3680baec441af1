(** End-effector planning: the coordinates are planned independently of each other (end). *)
From Coq Require Import List Lia Lra.
From Verif Require Import Vec SpecBezier ModelData ModelUtils ModelWaypointsJerk ModelDispatch ModelCont ModelSolver ModelTraj ModelEff
  SpecCom SpecWp SpecSolver SpecTraj Spec0Step SpecEff ProofCurve ProofEff ProofEff2 ProofEff3 ProofEff4 ProofEff5 ProofEff6 ProofEff7 ProofEff11 ProofEff14
  ProofEffBest ProofEffAxis ProofEffAxis2.
Import ListNotations.
Open Scope R_scope.

Lemma flat_inj : forall xs ys, length xs = length ys -> flat xs = flat ys -> xs = ys.
Proof.
  unfold flat. induction xs as [|[a b c] xs IH]; intros [|[a' b' c'] ys] L E; try discriminate; [reflexivity|].
  cbn in E. injection E as -> -> -> E. f_equal. apply IH; [now injection L|exact E].
Qed.
Lemma mix_feq a : forall xs ys, length xs = length ys -> mix a xs ys = xs -> Forall2 (feq a) xs ys.
Proof.
  induction xs as [|x xs IH]; intros [|y ys] L E; try discriminate; [constructor|]. cbn [map2] in E. injection E as E1 E2.
  constructor; [|apply IH; [now injection L|exact E2]]. unfold feq. rewrite <- E1 at 1. apply along_swap.
Qed.
Lemma feq_curve a : forall P Q, Forall2 (feq a) P Q -> forall T t, feq a (curve P T t) (curve Q T t).
Proof.
  intros P Q F T t. assert (E : map (along a) P = map (along a) Q) by (induction F as [|x y P Q Hx F IH]; [reflexivity|cbn; rewrite Hx, IH; reflexivity]).
  unfold feq, curve, bez3. destruct a; cbn [along vx vy vz]; (change (map vx) with (map (along AX)) || change (map vy) with (map (along AY)) || change (map vz) with (map (along AZ))); rewrite E; reflexivity.
Qed.

Section Two.
Variables (a : axis) (p q : problem) (path path' : R -> outcome vec3) (f f' : R -> vec3) (T wd : R).
Hypothesis (Hin : In (flag_of p) effector_flags) (Hf : flag_of q = flag_of p).
Hypothesis (B1 : feq a (c0 p) (c0 q)) (B2 : feq a (dc0 p) (dc0 q)) (B3 : feq a (ddc0 p) (ddc0 q)) (B4 : feq a (j0 p) (j0 q)).
Hypothesis (B5 : feq a (c1 p) (c1 q)) (B6 : feq a (dc1 p) (dc1 q)) (B7 : feq a (ddc1 p) (ddc1 q)) (B8 : feq a (j1 p) (j1 q)).
Hypothesis HT : 0 < T.
Hypothesis (Hp : forall s, 0 <= s <= 1 -> path s = Ok (f s)) (Hp' : forall s, 0 <= s <= 1 -> path' s = Ok (f' s)).
Hypothesis (HP : forall s, 0 <= s <= 1 -> feq a (f s) (f' s)) (Hw : 0 <= wd <= 1).
Let n := eff_free (flag_of p).

Lemma cost_mix pi pi' H g H' g' xs ys : computeConstantWaypoints p T = Ok pi -> computeConstantWaypoints q T = Ok pi' ->
  computeEndEffectorCost p path T wd pi = Ok (H, g) -> computeEndEffectorCost q path' T wd pi' = Ok (H', g') -> length xs = n -> length ys = n ->
  lval H g (flat (mix a xs ys)) + lval H' g' (flat (mix a ys xs)) = lval H g (flat xs) + lval H' g' (flat ys).
Proof.
  intros Ep Eq E E' Lx Ly. assert (Hinq : In (flag_of q) effector_flags) by (rewrite Hf; exact Hin).
  assert (Nq : eff_free (flag_of q) = n) by (unfold n; rewrite Hf; reflexivity).
  destruct (two_shapes a p q T Hin Hf B1 B2 B3 B4 B5 B6 B7 B8 xs ys Lx Ly) as (pi1 & qs & pi1' & qs' & F1 & Hs & F1' & Hs' & FF).
  rewrite Ep in F1. injection F1 as <-. rewrite Eq in F1'. injection F1' as <-.
  destruct (two_costs a p q T Hf xs ys pi qs pi' qs' Hs Hs' FF) as (HV & gv & gv' & EV & EV' & SB & FG).
  assert (SZ : length HV = n /\ Forall (fun bs => length bs = n) HV /\ length gv = n).
  { destruct (velcost_form _ _ _ _ _ HT Hs) as (H1 & g1 & N' & HE' & _ & A & B & C & _). rewrite EV in HE'. injection HE' as <- <-.
    rewrite Lx in *. auto. }
  destruct SZ as (LH & FH & Lg). pose proof (blocks_square n HV LH FH) as SqV. pose proof (forall2_len _ _ _ FG) as Lgg.
  assert (LgV : forall g0 : list vec3, length g0 = n -> length (concat (map l3 g0)) = (3 * n)%nat).
  { intros g0 L0. rewrite <- L0. clear. induction g0 as [|b l IH]; [reflexivity|]. cbn [map concat]. rewrite app_length, IH. cbn [length l3]. lia. }
  pose proof (vel_mix a HV gv gv' xs ys SB FG ltac:(rewrite Lx; exact FH) ltac:(lia) ltac:(lia) ltac:(lia)) as MV.
  unfold computeEndEffectorCost in E, E'. destruct (Rlt_dec 0 wd) as [Pw|Pw].
  - destruct (c35_path 50 p T path f Hin HT ltac:(lia) Hp) as (Hd & gd & k1 & K1 & Ed & _ & Sd & Ld & _).
    destruct (c35_path 50 q T path' f' Hinq HT ltac:(lia) Hp') as (Hd' & gd' & k1' & K1' & Ed' & _ & Sd' & Ld' & _).
    rewrite Ed in E. rewrite Ed' in E'. cbn [bind] in E, E'. rewrite EV in E. rewrite EV' in E'. cbn [bind fst snd] in E, E'.
    injection E as <- <-. injection E' as <- <-. rewrite Nq in Sd', Ld'.
    rewrite !(lval_add (3 * n)) by (try assumption; apply LgV; lia).
    rewrite (path_ok 50 p T path f ltac:(lia) Hp) in Ed. rewrite (path_ok 50 q T path' f' ltac:(lia) Hp') in Ed'.
    match type of Ed with computeDistanceCostFunction _ _ _ ?P0 = _ => match type of Ed' with computeDistanceCostFunction _ _ _ ?P1 = _ =>
      assert (MD := dist_mix a p q T Hin Hf B1 B2 B3 B4 B5 B6 B7 B8 HT 50 P0 P1 Hd gd Hd' gd' xs ys ltac:(lia)
        ltac:(rewrite map_length, seq_length; lia) ltac:(rewrite map_length, seq_length; lia)) end end.
    assert (MD' := fun X => MD X Ed Ed' Lx Ly). clear MD.
    assert (X : forall k : nat, (k < 50)%nat -> feq a (f (INR k * (1 / (INR 50 - 1)))) (f' (INR k * (1 / (INR 50 - 1))))).
    { intros k Hk. apply HP. apply sample01; lia. }
    assert (Y : forall (h : R -> vec3) k, (k < 50)%nat -> nth k (map (fun i => h (INR i * (1 / (INR 50 - 1)))) (seq 0 50)) vzero = h (INR k * (1 / (INR 50 - 1)))).
    { intros h k Hk. rewrite (nth_indep _ vzero (h (INR 0 * (1 / (INR 50 - 1))))) by (rewrite map_length, seq_length; exact Hk).
      rewrite (map_nth (fun i => h (INR i * (1 / (INR 50 - 1))))), seq_nth by exact Hk. reflexivity. }
    specialize (MD' ltac:(intros k Hk; rewrite !Y by exact Hk; apply X; exact Hk)).
    set (u1 := lval Hd gd (flat (mix a xs ys))) in *. set (u2 := lval Hd' gd' (flat (mix a ys xs))) in *.
    set (u3 := lval Hd gd (flat xs)) in *. set (u4 := lval Hd' gd' (flat ys)) in *.
    set (m1 := lval (blocks_matx HV) (concat (map l3 gv)) (flat (mix a xs ys))) in *. set (m2 := lval (blocks_matx HV) (concat (map l3 gv')) (flat (mix a ys xs))) in *.
    set (m3 := lval (blocks_matx HV) (concat (map l3 gv)) (flat xs)) in *. set (m4 := lval (blocks_matx HV) (concat (map l3 gv')) (flat ys)) in *.
    clearbody u1 u2 u3 u4 m1 m2 m3 m4.
    transitivity ((1 - wd) * (m1 + m2) + wd * (u1 + u2)); [ring|]. rewrite MV, MD'. ring.
  - cbn [bind] in E, E'. rewrite EV in E. rewrite EV' in E'. cbn [bind fst snd] in E, E'. injection E as <- <-. injection E' as <- <-.
    rewrite (dim_nf p Hin), (dim_nf q Hinq), Nq. fold n.
    rewrite !(lval_add (3 * n)) by (try assumption; try apply square_zero; try apply repeat_length; apply LgV; lia).
    assert (Z : forall v, lval (matx_zero (3 * n)) (repeat 0 (3 * n)) v = 0).
    { intros v. unfold lval. rewrite quad_zero, rdot_zero_l; [ring|]. clear. induction (3 * n)%nat; cbn; constructor; auto. }
    rewrite !Z.
    match goal with |- ?x1 + _ + (?x2 + _) = ?x3 + _ + (?x4 + _) => enough (SS : x1 + x2 = x3 + x4) by lra end.
    rewrite <- !Rmult_plus_distr_l. f_equal. exact MV.
Qed.
End Two.

Lemma c107_axis a p q path path' (f f' : R -> vec3) T wd :
  In (flag_of p) effector_flags -> flag_of q = flag_of p ->
  feq a (c0 p) (c0 q) -> feq a (dc0 p) (dc0 q) -> feq a (ddc0 p) (ddc0 q) -> feq a (j0 p) (j0 q) ->
  feq a (c1 p) (c1 q) -> feq a (dc1 p) (dc1 q) -> feq a (ddc1 p) (ddc1 q) -> feq a (j1 p) (j1 q) -> 0 < T ->
  (forall s, 0 <= s <= 1 -> path s = Ok (f s)) -> (forall s, 0 <= s <= 1 -> path' s = Ok (f' s)) ->
  (forall s, 0 <= s <= 1 -> feq a (f s) (f' s)) -> 0 <= wd <= 1 ->
  forall wg quadprog glpk init r wg' quadprog' glpk' init' r',
  qp_solves quadprog -> qp_sound quadprog -> qp_solves quadprog' -> qp_sound quadprog' ->
  (forall k, length (init k) = k) -> (forall k, length (init' k) = k) ->
  solveEndEffector wg quadprog glpk init p path T wd = Ok r -> rc_success r = true ->
  solveEndEffector wg' quadprog' glpk' init' q path' T wd = Ok r' -> rc_success r' = true ->
  forall t, feq a (cv_fun (rc_c r) t) (cv_fun (rc_c r') t).
Proof.
  intros Hin Hf B1 B2 B3 B4 B5 B6 B7 B8 HT Hp Hp' HP Hw wg quadprog glpk init r wg' quadprog' glpk' init' r' QO QS QO' QS' HI HI' E Es E' Es' t.
  assert (Hinq : In (flag_of q) effector_flags) by (rewrite Hf; exact Hin).
  destruct (eff_qp_ok p path f T wd Hin HT Hp Hw) as (pi & M & H & g & EQ & _).
  destruct (eff_qp_ok q path' f' T wd Hinq HT Hp' Hw) as (pi' & M' & H' & g' & EQ' & _).
  destruct (eff_success p path f T wd Hin HT Hp Hw pi M H g wg quadprog glpk init r EQ QO QS HI E Es) as (xs & cv & Ax & Cx & ->).
  destruct (eff_success q path' f' T wd Hinq HT Hp' Hw pi' M' H' g' wg' quadprog' glpk' init' r' EQ' QO' QS' HI' E' Es') as (ys & cv' & Ay & Cy & ->).
  pose proof EQ as (E1 & E2 & E3). pose proof EQ' as (E1' & E2' & E3').
  pose proof Ax as (Lx & Sx & Ox). pose proof Ay as (Ly & Sy & Oy). rewrite Hf in Ly, Oy. assert (L : length xs = length ys) by congruence.
  assert (Lz : length (mix a xs ys) = eff_free (flag_of p)) by (rewrite map2_len by exact L; exact Lx).
  assert (Lz' : length (mix a ys xs) = eff_free (flag_of p)) by (rewrite map2_len by (symmetry; exact L); exact Ly).
  assert (Sz : satX M (flat (mix a xs ys))) by exact (sat_mix a p q T Hin Hf B1 B2 B3 B4 B5 B6 B7 B8 HT pi M pi' M' xs ys E1 E1' E2 E2' Lx Ly Sx Sy).
  assert (Sz' : satX M' (flat (mix a ys xs))).
  { refine (sat_mix a q p T Hinq (eq_sym Hf) _ _ _ _ _ _ _ _ HT pi' M' pi M ys xs E1' E1 E2' E2 _ _ Sy Sx); try (apply feq_sym; assumption); rewrite Hf; assumption. }
  pose proof (cost_mix a p q path path' f f' T wd Hin Hf B1 B2 B3 B4 B5 B6 B7 B8 HT Hp Hp' HP pi pi' H g H' g' xs ys E1 E1' E3 E3' Lx Ly) as MX.
  pose proof (Ox _ Lz Sz) as O1. pose proof (Oy _ Lz' Sz') as O2.
  assert (Az : eff_least p M H g (mix a xs ys)).
  { split; [exact Lz|]. split; [exact Sz|]. intros zs Lzs Szs. specialize (Ox zs Lzs Szs). lra. }
  pose proof (eff_least_unique p path f T wd Hin HT Hp Hw pi M H g _ _ EQ Az Ax) as EZ.
  apply flat_inj in EZ; [|congruence]. pose proof (mix_feq a xs ys L EZ) as FX.
  destruct (two_shapes a p q T Hin Hf B1 B2 B3 B4 B5 B6 B7 B8 xs ys Lx Ly) as (pi1 & pts & pi1' & pts' & F1 & Hs & F1' & Hs' & FF).
  assert (K1 := eff_curve_ok p T xs Hin Lx HT). destruct K1 as (pj & ptj & K2 & K3 & K4).
  assert (K1' := eff_curve_ok q T ys Hinq ltac:(rewrite Hf; exact Ly) HT). destruct K1' as (pj' & ptj' & K2' & K3' & K4').
  rewrite F1 in K2. injection K2 as <-. rewrite F1' in K2'. injection K2' as <-.
  rewrite Cx in K4. injection K4 as ->. rewrite Cy in K4'. injection K4' as ->. cbn [rc_c eff_result]. unfold cv_fun. cbn [bc_pts bc_T].
  apply feq_curve. clear - K3 K3' FF FX Hf.
  inversion K3 as [? ? ? ? ? ? ? ? ? ? ? Ef ? ?|? ? ? ? ? ? ? ? ? ? ? ? ? ? ? Ef ? ?|? ? ? ? ? ? ? ? ? ? ? ? ? ? Ef ? ?]; subst; clear K3;
  (inversion K3' as [? ? ? ? ? ? ? ? ? ? ? Ef' ? ?|? ? ? ? ? ? ? ? ? ? ? ? ? ? ? Ef' ? ?|? ? ? ? ? ? ? ? ? ? ? ? ? ? Ef' ? ?];
   try (exfalso; rewrite Hf, Ef in Ef'; discriminate Ef')); subst; clear K3';
  repeat match goal with X : Forall2 _ (_ :: _) (_ :: _) |- _ => inversion X; subst; clear X end;
  repeat (apply Forall2_cons; [assumption|]); apply Forall2_nil.
Qed.
