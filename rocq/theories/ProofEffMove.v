(** End-effector planning with one free point, guided by the path only: translations. *)
From Coq Require Import List Lia Lra.
From Verif Require Import Vec SpecBezier ModelData ModelUtils ModelWaypointsJerk ModelDispatch ModelCont ModelSolver ModelTraj ModelEff
  SpecCom SpecWp SpecSolver SpecTraj Spec0Step SpecEff SpecEffMove ProofCurve ProofWaypoints ProofMove ProofEff ProofEff2 ProofEff3 ProofEff4 ProofEff5 ProofEff6 ProofEff7 ProofEff11 ProofEff14
  ProofEffBest ProofEffAxis ProofEffAxis2 ProofEffAxis3.
Import ListNotations.
Open Scope R_scope.

Lemma curve_shift v P T t : P <> [] -> curve (map (fun u => vadd u v) P) T t = vadd (curve P T t) v.
Proof.
  intros NE. unfold curve, bez3. rewrite !map_map. apply v3_eq; unfold vadd; cbn [vx vy vz].
  - rewrite (bezl_lin3 P _ 1 0 0 (vx v) _ NE); [ring|intros p; ring].
  - rewrite (bezl_lin3 P _ 0 1 0 (vy v) _ NE); [ring|intros p; ring].
  - rewrite (bezl_lin3 P _ 0 0 1 (vz v) _ NE); [ring|intros p; ring].
Qed.

Section Move.
Variables (v : vec3) (p q : problem) (T : R).
Hypothesis (Ef : flag_of p = F_jerk) (MV : moved_by v p q) (HT : 0 < T).
Let g (u : vec3) : vec3 := vadd u v.
Lemma efq : flag_of q = F_jerk. Proof. rewrite (proj1 MV). exact Ef. Qed.
Lemma inp : In (flag_of p) effector_flags. Proof. rewrite Ef. cbn; tauto. Qed.
Lemma inq : In (flag_of q) effector_flags. Proof. rewrite efq. cbn; tauto. Qed.
Lemma np : eff_free (flag_of p) = 1%nat. Proof. rewrite Ef. reflexivity. Qed.
Lemma nq : eff_free (flag_of q) = 1%nat. Proof. rewrite efq. reflexivity. Qed.

Lemma m_shapes x : exists pi pts pi', computeConstantWaypoints p T = Ok pi /\ eff_shape p T [x] pi pts /\
  computeConstantWaypoints q T = Ok pi' /\ eff_shape q T [g x] pi' (map g pts) /\ length pts = 9%nat.
Proof.
  destruct (eff_shape_total p T [x] inp (eq_sym np)) as (pi & pts & Hc & Hs). destruct (eff_shape_total q T [g x] inq (eq_sym nq)) as (pi' & pts' & Hc' & Hs').
  exists pi, pts, pi'. split; [exact Hc|]. split; [exact Hs|]. split; [exact Hc'|].
  pose proof efq as Ef'. destruct MV as (_ & B1 & B2 & B3 & B4 & B5 & B6 & B7 & B8).
  assert (EE : pts' = map g pts /\ length pts = 9%nat).
  { inversion Hs as [? ? ? ? ? ? ? ? ? ? ? E Hcc Hp|? ? ? ? ? ? ? ? ? ? ? ? ? ? ? E Hcc Hp|? ? ? ? ? ? ? ? ? ? ? ? ? ? E Hcc Hp];
      try (exfalso; rewrite Ef in E; discriminate E); subst;
    inversion Hs' as [? ? ? ? ? ? ? ? ? ? ? E' Hcc' Hp'|? ? ? ? ? ? ? ? ? ? ? ? ? ? ? E' Hcc' Hp'|? ? ? ? ? ? ? ? ? ? ? ? ? ? E' Hcc' Hp']; subst.
    split; [|reflexivity]. clear Hs Hs' Hc Hc'. unfold j0j1_computeConstantWaypoints in Hcc, Hcc'. rewrite B1, B2, B3, B4, B5, B6, B7, B8 in Hcc'.
    injection Hcc; intros; subst. injection Hcc'; intros; subst. clear. unfold g. cbn [map].
    repeat (apply f_equal2; [try reflexivity; apply v3_eq; unfold vadd, vsub, vscal, vdivs, vopp; cbn [vx vy vz]; field|]). reflexivity. }
  destruct EE as (-> & L). split; [exact Hs'|exact L].
Qed.

Lemma diffs_shift : forall P, vdiffs (map g P) = vdiffs P.
Proof.
  induction P as [|a [|b P] IH]; try reflexivity. change (vsub (g b) (g a) :: vdiffs (map g (b :: P)) = vsub b a :: vdiffs (b :: P)). rewrite IH.
  f_equal. unfold g. apply v3_eq; cbn; ring.
Qed.
Lemma hodo_shift P : hodo T (map g P) = hodo T P.
Proof. unfold hodo. rewrite diffs_shift, map_length. reflexivity. Qed.

Definition mtwin (x : vec3) (w w' : wpn) : Prop := wn_blocks w' = wn_blocks w /\ ev_wpn w' [g x] = ev_wpn w [x].
Lemma mtwins x : forall ws ws', map wn_blocks ws' = map wn_blocks ws -> at_free [g x] ws' = at_free [x] ws -> Forall2 (mtwin x) ws ws'.
Proof.
  induction ws as [|w ws IH]; intros [|w' ws'] B A; try discriminate; [constructor|]. cbn [map at_free] in B, A. unfold at_free in A. cbn [map] in A.
  pose proof (f_equal (hd []) B) as B1. pose proof (f_equal (@tl _) B) as B2. pose proof (f_equal (hd vzero) A) as A1. pose proof (f_equal (@tl _) A) as A2.
  constructor; [split; [exact B1|exact A1]|]. apply IH; [exact B2|exact A2].
Qed.
Lemma mtwin_bounded x : forall ws ws', Forall2 (mtwin x) ws ws' ->
  (Forall (bounded (vopp eff_bounds) eff_bounds [g x]) ws' <-> Forall (bounded (vopp eff_bounds) eff_bounds [x]) ws).
Proof.
  induction 1 as [|w w' ws ws' (Hb & He) F IH]; [split; constructor|].
  assert (B : bounded (vopp eff_bounds) eff_bounds [g x] w' <-> bounded (vopp eff_bounds) eff_bounds [x] w).
  { unfold bounded, dependsb, coefficients. rewrite Hb, He. reflexivity. }
  split; intros A; inversion A; subst; constructor; tauto.
Qed.

Lemma m_sat pi M pi' M' x : computeConstantWaypoints p T = Ok pi -> computeConstantWaypoints q T = Ok pi' ->
  computeEndEffectorConstraints p T pi = Ok M -> computeEndEffectorConstraints q T pi' = Ok M' ->
  (satX M' (flat [g x]) <-> satX M (flat [x])).
Proof.
  intros Ep Eq EM EM'. assert (HT0 : T <> 0) by lra.
  destruct (m_shapes x) as (pi1 & pts & pi1' & F1 & Hs & F1' & Hs' & Lp). rewrite Ep in F1. injection F1 as <-. rewrite Eq in F1'. injection F1' as <-.
  destruct (eff_constraints p T [x] pi pts HT0 Hs) as (wa & wv & wj & N & Ea & Ev & Ej & Xb & XM & XC). rewrite EM in XM. injection XM as <-.
  destruct (eff_constraints q T [g x] pi' _ HT0 Hs') as (wa' & wv' & wj' & N & Ea' & Ev' & Ej' & Xb' & XM & XC'). rewrite EM' in XM. injection XM as <-.
  assert (TW : Forall2 (mtwin x) wa wa' /\ Forall2 (mtwin x) wv wv' /\ Forall2 (mtwin x) wj wj').
  { destruct (vel_points p T _ _ _ HT0 Hs) as (w & Y & Pv). rewrite Ev in Y. injection Y as <-.
    destruct (jerk_points p T _ _ _ HT0 Hs) as (w & Y & Pj). rewrite Ej in Y. injection Y as <-.
    destruct (acc_points p T _ _ _ HT0 Hs) as (w & Y & Pa). rewrite Ea in Y. injection Y as <-.
    destruct (vel_points q T _ _ _ HT0 Hs') as (w & Y & Pv'). rewrite Ev' in Y. injection Y as <-.
    destruct (jerk_points q T _ _ _ HT0 Hs') as (w & Y & Pj'). rewrite Ej' in Y. injection Y as <-.
    destruct (acc_points q T _ _ _ HT0 Hs') as (w & Y & Pa'). rewrite Ea' in Y. injection Y as <-.
    assert (HN : forall k, hodo_n (S k) T (map g pts) = hodo_n (S k) T pts).
    { intros k. cbn [hodo_n]. rewrite ?hodo_shift. first [reflexivity|induction k as [|k IHk]; [apply hodo_shift|cbn [hodo_n]; rewrite IHk; reflexivity]]. }
    assert (BL : map wn_blocks wa' = map wn_blocks wa /\ map wn_blocks wv' = map wn_blocks wv /\ map wn_blocks wj' = map wn_blocks wj).
    { pose proof efq as Ef'. clear - Ef Ef' Hs Hs' Ea Ev Ej Ea' Ev' Ej'.
      inversion Hs as [? ? ? ? ? ? ? ? ? ? ? E Hcc Hp|? ? ? ? ? ? ? ? ? ? ? ? ? ? ? E Hcc Hp|? ? ? ? ? ? ? ? ? ? ? ? ? ? E Hcc Hp];
        try (exfalso; rewrite Ef in E; discriminate E); subst.
      unfold computeAccelerationWaypoints, computeVelocityWaypoints, computeJerkWaypoints in *. rewrite Ef in Ea, Ev, Ej. rewrite Ef' in Ea', Ev', Ej'.
      unfold j0j1_computeConstantWaypoints in Hcc. clear Hcc Hs.
      inversion Hs' as [? ? ? ? ? ? ? ? ? ? ? E' Hcc' Hp'|? ? ? ? ? ? ? ? ? ? ? ? ? ? ? E' Hcc' Hp'|? ? ? ? ? ? ? ? ? ? ? ? ? ? E' Hcc' Hp']; subst. clear Hcc' Hs'.
      apply (f_equal (fun o => match o with Ok w => map wn_blocks w | _ => [] end)) in Ea, Ev, Ej, Ea', Ev', Ej'.
      cbv beta iota in Ea, Ev, Ej, Ea', Ev', Ej'.
      rewrite <- Ea, <- Ev, <- Ej, <- Ea', <- Ev', <- Ej'. split; [|split]; reflexivity. }
    destruct BL as (BA & BV & BJ).
    split; [|split]; apply mtwins; try assumption.
    - rewrite Pa, Pa', HN. rewrite Ef, efq. unfold acc_errs. simpl Z.eqb. cbv iota. f_equal. f_equal.
      assert (NS : forall i, (i < 9)%nat -> nth i (map g pts) vzero = g (nth i pts vzero)).
      { intros i Hi. rewrite (nth_indep _ vzero (g vzero)) by (rewrite map_length, Lp; exact Hi). apply map_nth. }
      rewrite !NS by lia. unfold g. apply v3_eq; cbn; ring.
    - rewrite Pv, Pv', HN. reflexivity.
    - rewrite Pj, Pj', HN. reflexivity. }
  destruct TW as (Ta & Tv & Tj).
  destruct (c34_exact p wa wv eff_bounds eff_bounds wj eff_bounds Xb) as (N & XN & _ & _ & HX). rewrite XC in XN. injection XN as <-.
  destruct (c34_exact q wa' wv' eff_bounds eff_bounds wj' eff_bounds Xb') as (N & XN & _ & _ & HX'). rewrite XC' in XN. injection XN as <-.
  assert (D : dimVar p = 3%nat) by (rewrite (dim_nf p inp), np; reflexivity). assert (D' : dimVar q = 3%nat) by (rewrite (dim_nf q inq), nq; reflexivity).
  rewrite HX, HX' by (rewrite ?D, ?D'; reflexivity). rewrite (mtwin_bounded x wa wa' Ta), (mtwin_bounded x wv wv' Tv), (mtwin_bounded x wj wj' Tj).
  assert (Z : Forall (fun u => Rmin (vz (c0 q)) (vz (c1 q)) <= vz u) [g x] <-> Forall (fun u => Rmin (vz (c0 p)) (vz (c1 p)) <= vz u) [x]).
  { destruct MV as (_ & B1 & _ & _ & _ & B5 & _). rewrite B1, B5. unfold g. cbn [vadd vz].
    assert (RM : Rmin (vz (c0 p) + vz v) (vz (c1 p) + vz v) = Rmin (vz (c0 p)) (vz (c1 p)) + vz v) by (unfold Rmin; do 2 destruct (Rle_dec _ _); lra).
    rewrite RM. split; intros A; inversion A; subst; (apply Forall_cons; [cbn [vadd vz] in *; lra|apply Forall_nil]). }
  rewrite Z. reflexivity.
Qed.

Variables (path path' : R -> outcome vec3) (f : R -> vec3).
Hypothesis (Hp : forall s, 0 <= s <= 1 -> path s = Ok (f s)) (Hp' : forall s, 0 <= s <= 1 -> path' s = Ok (g (f s))).

Lemma m_curve x : exists cv cv', eff_curve p T [x] = Ok cv /\ eff_curve q T [g x] = Ok cv' /\ forall t, cv_fun cv' t = g (cv_fun cv t).
Proof.
  destruct (m_shapes x) as (pi & pts & pi' & F1 & Hs & F1' & Hs' & Lp).
  destruct (eff_curve_ok p T [x] inp (eq_sym np) HT) as (pj & ptj & K2 & K3 & K4). destruct (eff_curve_ok q T [g x] inq (eq_sym nq) HT) as (pj' & ptj' & K2' & K3' & K4').
  rewrite F1 in K2. injection K2 as <-. rewrite F1' in K2'. injection K2' as <-.
  assert (U : forall pb xs pi0 a b, flag_of pb = F_jerk -> eff_shape pb T xs pi0 a -> eff_shape pb T xs pi0 b -> a = b).
  { clear. intros pb xs pi0 a b E A B. inversion A; subst; try (exfalso; congruence); inversion B; subst; try (exfalso; congruence);
    match goal with X : _ :: _ = _ :: _ |- _ => injection X; intros; subst; reflexivity end. }
  assert (ptj = pts) as -> by (apply (U p [x] pi); [exact Ef|exact K3|exact Hs]).
  assert (ptj' = map g pts) as -> by (apply (U q [g x] pi'); [exact efq|exact K3'|exact Hs']).
  eexists _, _. split; [exact K4|]. split; [exact K4'|]. intros t. unfold cv_fun. cbn [bc_pts bc_T]. apply curve_shift. destruct pts; discriminate.
Qed.

Lemma m_gap cv cv' : (forall t, cv_fun cv' t = g (cv_fun cv t)) ->
  path_gap 50 q T cv' (fun i => g (f (INR i * (1 / (INR 50 - 1))))) = path_gap 50 p T cv (fun i => f (INR i * (1 / (INR 50 - 1)))).
Proof.
  intros HC. unfold path_gap. f_equal. apply map_ext. intros i. cbv zeta. rewrite HC. unfold eval_shift. rewrite Ef, efq. simpl Z.eqb. cbv iota.
  destruct MV as (_ & B1 & _ & _ & _ & B5 & _). rewrite B1, B5. f_equal. unfold g. apply v3_eq; cbn [vadd vsub vscal vx vy vz]; ring.
Qed.

Lemma m_costs pi pi' H c H' c' : computeConstantWaypoints p T = Ok pi -> computeConstantWaypoints q T = Ok pi' ->
  computeEndEffectorCost p path T 1 pi = Ok (H, c) -> computeEndEffectorCost q path' T 1 pi' = Ok (H', c') ->
  exists k K k' K', 0 < k /\ 0 < k' /\ forall x, k * lval H c (flat [x]) + K = k' * lval H' c' (flat [g x]) + K'.
Proof.
  intros Ep Eq E E'.
  destruct (c35_path 50 p T path f inp HT ltac:(lia) Hp) as (Hd & gd & k & K & Ed & Pk & Sd & Ld & G).
  destruct (c35_path 50 q T path' (fun s => g (f s)) inq HT ltac:(lia) Hp') as (Hd' & gd' & k' & K' & Ed' & Pk' & Sd' & Ld' & G').
  exists k, K, k', K'. split; [exact Pk|]. split; [exact Pk'|]. intros x.
  destruct (m_curve x) as (cv & cv' & Cv & Cv' & HC). specialize (G [x] cv (eq_sym np) Cv). specialize (G' [g x] cv' (eq_sym nq) Cv').
  assert (L : forall pb pth pj Hq cq Hr gr y, In (flag_of pb) effector_flags -> eff_free (flag_of pb) = 1%nat -> computeConstantWaypoints pb T = Ok pj ->
    computeDistanceCostFunction_path 50 pb T pth = Ok (Hr, gr) -> square 3 Hr -> length gr = 3%nat ->
    computeEndEffectorCost pb pth T 1 pj = Ok (Hq, cq) -> lval Hq cq (flat [y]) = lval Hr gr (flat [y])).
  { clear - HT. intros pb pth pj Hq cq Hr gr y Hin Hn Ej Er Sr Lr Eq. unfold computeEndEffectorCost in Eq. destruct (Rlt_dec 0 1) as [_|N]; [|lra].
    rewrite Er in Eq. cbn [bind] in Eq.
    destruct (eff_shape_total pb T [y] Hin (eq_sym Hn)) as (pj' & pts & Ej' & Hs). rewrite Ej in Ej'. injection Ej' as <-.
    destruct (velcost_form _ _ _ _ _ HT Hs) as (H1 & g1 & N' & HE' & _ & A & B & C & _). rewrite HE' in Eq. cbn [bind fst snd] in Eq. injection Eq as <- <-.
    cbn [length] in A, B, C.
    assert (LgV : length (concat (map l3 g1)) = 3%nat) by (destruct g1 as [|? [|? ?]]; try discriminate; reflexivity).
    rewrite (lval_add 3) by (try assumption; apply (blocks_square 1); assumption). ring. }
  rewrite (L p path pi H c Hd gd x inp np Ep Ed ltac:(rewrite np in Sd; exact Sd) ltac:(rewrite np in Ld; exact Ld) E).
  rewrite (L q path' pi' H' c' Hd' gd' (g x) inq nq Eq Ed' ltac:(rewrite nq in Sd'; exact Sd') ltac:(rewrite nq in Ld'; exact Ld') E').
  unfold lval. rewrite G, G'. symmetry. apply m_gap. exact HC.
Qed.

Lemma one_list (xs : list vec3) : length xs = 1%nat -> exists x, xs = [x].
Proof. destruct xs as [|x [|? ?]]; try discriminate. exists x. reflexivity. Qed.
Lemma c109_one wg quadprog glpk init r wg' quadprog' glpk' init' :
  qp_solves quadprog -> qp_sound quadprog -> qp_solves quadprog' -> (forall k, length (init k) = k) -> (forall k, length (init' k) = k) ->
  solveEndEffector wg quadprog glpk init p path T 1 = Ok r -> rc_success r = true ->
  exists r', solveEndEffector wg' quadprog' glpk' init' q path' T 1 = Ok r' /\ rc_success r' = true /\
    forall t, cv_fun (rc_c r') t = vadd (cv_fun (rc_c r) t) v.
Proof.
  intros QO QS QO' HI HI' E Es. assert (Hw : 0 <= 1 <= 1) by lra.
  destruct (eff_qp_ok p path f T 1 inp HT Hp Hw) as (pi & M & H & c & EQ & _).
  destruct (eff_qp_ok q path' (fun s => g (f s)) T 1 inq HT Hp' Hw) as (pi' & M' & H' & c' & EQ' & _).
  destruct (eff_success p path f T 1 inp HT Hp Hw pi M H c wg quadprog glpk init r EQ QO QS HI E Es) as (xs & cv & Ax & Cx & ->).
  pose proof EQ as (E1 & E2 & E3). pose proof EQ' as (E1' & E2' & E3'). pose proof Ax as (Lx & Sx & Ox).
  rewrite np in Lx, Ox. destruct (one_list xs Lx) as (x & ->).
  destruct (m_costs pi pi' H c H' c' E1 E1' E3 E3') as (k & K & k' & K' & Pk & Pk' & CG).
  assert (Sg : satX M' (flat [g x])) by (apply (m_sat pi M pi' M' x E1 E1' E2 E2'); exact Sx).
  destruct (eff_answer q path' (fun s => g (f s)) T 1 inq HT Hp' Hw pi' M' H' c' wg' quadprog' glpk' init' [g x] EQ' QO' HI' (eq_sym nq) Sg) as (ys & cv' & Ay & Cy & ER).
  eexists. split; [exact ER|]. split; [reflexivity|]. intros t.
  assert (Ag : eff_least q M' H' c' [g x]).
  { split; [exact (eq_sym nq)|]. split; [exact Sg|]. intros zs Lz Sz. rewrite nq in Lz. destruct (one_list zs Lz) as (z & ->).
    pose (u := vsub z v). assert (Z : z = g u) by (unfold u, g; apply v3_eq; cbn; ring). rewrite Z in *.
    pose proof (Ox [u] eq_refl (proj1 (m_sat pi M pi' M' u E1 E1' E2 E2') Sz)) as O. pose proof (CG x) as C1. pose proof (CG u) as C2.
    apply (Rmult_le_reg_l k' _ _ Pk'). apply (Rmult_le_compat_l k) in O; [|lra]. lra. }
  pose proof (eff_least_unique q path' (fun s => g (f s)) T 1 inq HT Hp' Hw pi' M' H' c' _ _ EQ' Ag Ay) as EZ.
  apply flat_inj in EZ; [|rewrite (proj1 Ay), nq; reflexivity]. subst ys.
  destruct (m_curve x) as (cw & cw' & Cw & Cw' & HC). rewrite Cx in Cw. injection Cw as <-. rewrite Cy in Cw'. injection Cw' as <-.
  cbn [rc_c eff_result]. apply HC.
Qed.
End Move.
