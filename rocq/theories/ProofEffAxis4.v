(** End-effector planning: plans of single coordinates put together. *)
From Coq Require Import List Lia Lra.
From Verif Require Import Vec SpecBezier ModelData ModelUtils ModelWaypointsJerk ModelDispatch ModelCont ModelSolver ModelTraj ModelEff
  SpecCom SpecWp SpecSolver SpecTraj Spec0Step SpecEff SpecEffAxis ProofCurve ProofEff ProofEff2 ProofEff3 ProofEff4 ProofEff5 ProofEff6 ProofEff7 ProofEff11 ProofEff14
  ProofEffBest ProofEffAxis ProofEffAxis2 ProofEffAxis3.
Import ListNotations.
Open Scope R_scope.

Lemma c107 (ax : vec3 -> R) p q path path' (f f' : R -> vec3) T wd : In ax [vx; vy; vz] ->
  In (flag_of p) effector_flags -> flag_of q = flag_of p ->
  ax (c0 p) = ax (c0 q) -> ax (dc0 p) = ax (dc0 q) -> ax (ddc0 p) = ax (ddc0 q) -> ax (j0 p) = ax (j0 q) ->
  ax (c1 p) = ax (c1 q) -> ax (dc1 p) = ax (dc1 q) -> ax (ddc1 p) = ax (ddc1 q) -> ax (j1 p) = ax (j1 q) ->
  0 < T -> 0 <= wd <= 1 ->
  (forall s, 0 <= s <= 1 -> path s = Ok (f s)) -> (forall s, 0 <= s <= 1 -> path' s = Ok (f' s)) ->
  (forall s, 0 <= s <= 1 -> ax (f s) = ax (f' s)) ->
  forall wg quadprog glpk init r wg' quadprog' glpk' init' r',
  qp_solves quadprog -> qp_sound quadprog -> qp_solves quadprog' -> qp_sound quadprog' ->
  (forall k, length (init k) = k) -> (forall k, length (init' k) = k) ->
  solveEndEffector wg quadprog glpk init p path T wd = Ok r -> rc_success r = true ->
  solveEndEffector wg' quadprog' glpk' init' q path' T wd = Ok r' -> rc_success r' = true ->
  forall t, ax (cv_fun (rc_c r) t) = ax (cv_fun (rc_c r') t).
Proof.
  intros HA Hin Hf B1 B2 B3 B4 B5 B6 B7 B8 HT Hw Hp Hp' HP wg quadprog glpk init r wg' quadprog' glpk' init' r' QO QS QO' QS' HI HI' E S E' S' t.
  destruct HA as [A|[A|[A|[]]]]; subst ax.
  - exact (c107_axis AX p q path path' f f' T wd Hin Hf B1 B2 B3 B4 B5 B6 B7 B8 HT Hp Hp' HP Hw wg quadprog glpk init r wg' quadprog' glpk' init' r' QO QS QO' QS' HI HI' E S E' S' t).
  - exact (c107_axis AY p q path path' f f' T wd Hin Hf B1 B2 B3 B4 B5 B6 B7 B8 HT Hp Hp' HP Hw wg quadprog glpk init r wg' quadprog' glpk' init' r' QO QS QO' QS' HI HI' E S E' S' t).
  - exact (c107_axis AZ p q path path' f f' T wd Hin Hf B1 B2 B3 B4 B5 B6 B7 B8 HT Hp Hp' HP Hw wg quadprog glpk init r wg' quadprog' glpk' init' r' QO QS QO' QS' HI HI' E S E' S' t).
Qed.

Lemma ev_blocks_feq a : forall bs vs xs, Forall sblock bs -> Forall2 (feq a) vs xs -> feq a (ev_blocks bs vs) (ev_blocks bs xs).
Proof.
  induction bs as [|b bs IH]; intros vs xs F V; [apply feq_refl|]. inversion F as [|? ? (k & K) F']; subst.
  destruct V as [|v x vs xs Hv V]; [apply feq_refl|]. cbn [ev_blocks]. rewrite !K. apply feq_add; [apply feq_scal; exact Hv|apply IH; assumption].
Qed.
Definition inside (a : axis) (lo up : vec3) (vs : list vec3) (w : wpn) : Prop :=
  dependsb w = true -> along a lo <= along a (ev_wpn w vs) <= along a up.
Lemma twin_inside a lo up vs xs : Forall2 (feq a) vs xs -> forall ws ws', Forall2 (twin a) ws ws' ->
  Forall (bounded lo up xs) ws' -> Forall (inside a lo up vs) ws.
Proof.
  intros V. induction 1 as [|w w' ws ws' Hw F IH]; intros B; [constructor|]. inversion B as [|? ? Bw B']; subst. constructor; [|auto].
  intros D. destruct Hw as (TB & TS & TP). assert (D' : dependsb w' = true) by (rewrite <- D; unfold dependsb, coefficients; rewrite TB; reflexivity).
  destruct (Bw D') as [L U]. assert (E : feq a (ev_wpn w vs) (ev_wpn w' xs)).
  { unfold ev_wpn. rewrite <- TB. apply feq_add; [|exact TP]. apply ev_blocks_feq; assumption. }
  unfold feq in E. rewrite E. unfold le3 in L, U. destruct a; cbn [along]; tauto.
Qed.
Lemma inside_bounded lo up vs : forall ws, Forall (inside AX lo up vs) ws -> Forall (inside AY lo up vs) ws -> Forall (inside AZ lo up vs) ws ->
  Forall (bounded lo up vs) ws.
Proof.
  intros ws. rewrite !Forall_forall. intros X Y Z w Hw D. specialize (X w Hw D). specialize (Y w Hw D). specialize (Z w Hw D).
  cbn [along] in X, Y, Z. unfold le3. tauto.
Qed.

(** the problems [m] and [p] agree along [a] *)
Definition agree (a : axis) (m p : problem) : Prop :=
  flag_of p = flag_of m /\ feq a (c0 m) (c0 p) /\ feq a (dc0 m) (dc0 p) /\ feq a (ddc0 m) (ddc0 p) /\ feq a (j0 m) (j0 p) /\
  feq a (c1 m) (c1 p) /\ feq a (dc1 m) (dc1 p) /\ feq a (ddc1 m) (ddc1 p) /\ feq a (j1 m) (j1 p).
Lemma sat_one a m p T pi M vs xs wa wv wj pm : In (flag_of m) effector_flags -> agree a m p -> 0 < T ->
  computeConstantWaypoints m T = Ok pm ->
  computeAccelerationWaypoints m T pm = Ok wa -> computeVelocityWaypoints m T pm = Ok wv -> computeJerkWaypoints m T pm = Ok wj ->
  computeConstantWaypoints p T = Ok pi -> computeEndEffectorConstraints p T pi = Ok M ->
  length xs = eff_free (flag_of m) -> length vs = eff_free (flag_of m) -> Forall2 (feq a) vs xs -> satX M (flat xs) ->
  Forall (inside a (vopp eff_bounds) eff_bounds vs) wa /\ Forall (inside a (vopp eff_bounds) eff_bounds vs) wv /\
  Forall (inside a (vopp eff_bounds) eff_bounds vs) wj /\ Forall (fun x => Rmin (vz (c0 p)) (vz (c1 p)) <= vz x) xs.
Proof.
  intros Hin (Hf & B1 & B2 & B3 & B4 & B5 & B6 & B7 & B8) HT Em Ea Ev Ej Ep EM Lx Lv V Sx.
  destruct (two_shapes a m p T Hin Hf B1 B2 B3 B4 B5 B6 B7 B8 vs xs Lv Lx) as (pi1 & pts & pi1' & pts' & F1 & Hs & F1' & Hs' & FF).
  rewrite Em in F1. injection F1 as <-. rewrite Ep in F1'. injection F1' as <-.
  destruct (two_lists a m p T Hf vs xs pm pts pi pts' Hs Hs' FF) as (ya & yv & yj & wa' & wv' & wj' & Ya & Yv & Yj & Ea' & Ev' & Ej' & Ta & Tv & Tj).
  rewrite Ea in Ya. injection Ya as <-. rewrite Ev in Yv. injection Yv as <-. rewrite Ej in Yj. injection Yj as <-.
  assert (HT0 : T <> 0) by lra.
  destruct (eff_constraints p T xs pi pts' HT0 Hs') as (xa & xv & xj & N & Xa & Xv & Xj & Xb & XM & XC).
  rewrite Ea' in Xa. injection Xa as <-. rewrite Ev' in Xv. injection Xv as <-. rewrite Ej' in Xj. injection Xj as <-. rewrite EM in XM. injection XM as <-.
  destruct (c34_exact p wa' wv' eff_bounds eff_bounds wj' eff_bounds Xb) as (N & XN & _ & _ & HX). rewrite XC in XN. injection XN as <-.
  assert (D : dimVar p = (3 * eff_free (flag_of m))%nat) by (rewrite <- Hf; apply dim_nf; rewrite Hf; exact Hin).
  apply (HX xs) in Sx; [|lia]. destruct Sx as (X1 & X2 & X3 & X4).
  split; [exact (twin_inside a _ _ vs xs V wa wa' Ta X1)|]. split; [exact (twin_inside a _ _ vs xs V wv wv' Tv X2)|].
  split; [exact (twin_inside a _ _ vs xs V wj wj' Tj X3)|exact X4].
Qed.

Fixpoint comb (xs ys zs : list vec3) : list vec3 :=
  match xs, ys, zs with x :: xs', y :: ys', z :: zs' => V3 (vx x) (vy y) (vz z) :: comb xs' ys' zs' | _, _, _ => [] end.
Lemma comb_len : forall xs ys zs, length xs = length ys -> length ys = length zs -> length (comb xs ys zs) = length xs /\
  Forall2 (feq AX) (comb xs ys zs) xs /\ Forall2 (feq AY) (comb xs ys zs) ys /\ Forall2 (feq AZ) (comb xs ys zs) zs.
Proof.
  induction xs as [|x xs IH]; intros [|y ys] [|z zs] L L'; try discriminate; [cbn; auto|].
  destruct (IH ys zs) as (A & B & C & D); [now injection L|now injection L'|]. cbn [comb length]. repeat split; try constructor; try assumption; try reflexivity. congruence.
Qed.
Lemma combined_agree m p q o : combined m p q o -> flag_of p = flag_of m -> flag_of q = flag_of m -> flag_of o = flag_of m ->
  agree AX m p /\ agree AY m q /\ agree AZ m o.
Proof. unfold combined, combines, agree, feq, along. tauto. Qed.

Lemma c107_combine m p q o path pathp pathq patho (f fp fq fo : R -> vec3) T wd :
  In (flag_of m) effector_flags -> flag_of p = flag_of m -> flag_of q = flag_of m -> flag_of o = flag_of m -> combined m p q o ->
  0 < T -> 0 <= wd <= 1 ->
  (forall s, 0 <= s <= 1 -> path s = Ok (f s) /\ pathp s = Ok (fp s) /\ pathq s = Ok (fq s) /\ patho s = Ok (fo s) /\ combines (f s) (fp s) (fq s) (fo s)) ->
  forall wg quadprog glpk init rp rq ro, qp_solves quadprog -> qp_sound quadprog -> (forall k, length (init k) = k) ->
  solveEndEffector wg quadprog glpk init p pathp T wd = Ok rp -> rc_success rp = true ->
  solveEndEffector wg quadprog glpk init q pathq T wd = Ok rq -> rc_success rq = true ->
  solveEndEffector wg quadprog glpk init o patho T wd = Ok ro -> rc_success ro = true ->
  exists r, solveEndEffector wg quadprog glpk init m path T wd = Ok r /\ rc_success r = true /\
    forall t, combines (cv_fun (rc_c r) t) (cv_fun (rc_c rp) t) (cv_fun (rc_c rq) t) (cv_fun (rc_c ro) t).
Proof.
  intros Hin Fp Fq Fo CB HT Hw HP wg quadprog glpk init rp rq ro QO QS HI Ep Sp Eq Sq Eo So.
  destruct (combined_agree m p q o CB Fp Fq Fo) as (Gp & Gq & Go).
  assert (Ip : In (flag_of p) effector_flags) by (rewrite Fp; exact Hin). assert (Iq : In (flag_of q) effector_flags) by (rewrite Fq; exact Hin).
  assert (Io : In (flag_of o) effector_flags) by (rewrite Fo; exact Hin).
  assert (Hm : forall s, 0 <= s <= 1 -> path s = Ok (f s)) by (intros s Hs; apply (HP s Hs)).
  assert (Hp : forall s, 0 <= s <= 1 -> pathp s = Ok (fp s)) by (intros s Hs; apply (HP s Hs)).
  assert (Hq : forall s, 0 <= s <= 1 -> pathq s = Ok (fq s)) by (intros s Hs; apply (HP s Hs)).
  assert (Ho : forall s, 0 <= s <= 1 -> patho s = Ok (fo s)) by (intros s Hs; apply (HP s Hs)).
  destruct (eff_qp_ok m path f T wd Hin HT Hm Hw) as (pm & Mm & Hm1 & gm & EQm & _). pose proof EQm as (Em & EMm & _).
  destruct (c29_plan wg quadprog glpk init p pathp T wd rp QS HI Ip HT Ep Sp) as (xs & pp & Mp & Lx & _ & _ & _ & _ & E1p & E2p & Sx).
  destruct (c29_plan wg quadprog glpk init q pathq T wd rq QS HI Iq HT Eq Sq) as (ys & pq & Mq & Ly & _ & _ & _ & _ & E1q & E2q & Sy).
  destruct (c29_plan wg quadprog glpk init o patho T wd ro QS HI Io HT Eo So) as (zs & po & Mo & Lz & _ & _ & _ & _ & E1o & E2o & Sz).
  rewrite Fp in Lx. rewrite Fq in Ly. rewrite Fo in Lz.
  destruct (comb_len xs ys zs) as (Lv & Vx & Vy & Vz); try congruence. set (vs := comb xs ys zs) in *. rewrite Lx in Lv.
  destruct (eff_shape_total m T vs Hin Lv) as (pm' & pts & Em' & Hs). rewrite Em in Em'. injection Em' as <-.
  assert (HT0 : T <> 0) by lra.
  destruct (eff_constraints m T vs pm pts HT0 Hs) as (wa & wv & wj & N & Xa & Xv & Xj & Xb & XM & XC). rewrite EMm in XM. injection XM as <-.
  destruct (c34_exact m wa wv eff_bounds eff_bounds wj eff_bounds Xb) as (N & XN & _ & _ & HX). rewrite XC in XN. injection XN as <-.
  destruct (sat_one AX m p T pp Mp vs xs wa wv wj pm Hin Gp HT Em Xa Xv Xj E1p E2p Lx Lv Vx Sx) as (P1 & P2 & P3 & _).
  destruct (sat_one AY m q T pq Mq vs ys wa wv wj pm Hin Gq HT Em Xa Xv Xj E1q E2q Ly Lv Vy Sy) as (Q1 & Q2 & Q3 & _).
  destruct (sat_one AZ m o T po Mo vs zs wa wv wj pm Hin Go HT Em Xa Xv Xj E1o E2o Lz Lv Vz Sz) as (O1 & O2 & O3 & O4).
  assert (SV : satX Mm (flat vs)).
  { apply HX; [rewrite (dim_nf m Hin); lia|]. do 3 (split; [apply inside_bounded; assumption|]).
    destruct Go as (_ & Z0 & _ & _ & _ & Z1 & _). unfold feq in Z0, Z1. cbn [along] in Z0, Z1. rewrite Z0, Z1.
    clear - O4 Vz. revert O4. generalize (Rmin (vz (c0 o)) (vz (c1 o))). intros k O4. clearbody vs.
    induction Vz as [|v z vs zs E V IH]; [constructor|]. inversion O4; subst. unfold feq in E. cbn [along] in E. constructor; [rewrite E; assumption|auto]. }
  destruct (eff_answer m path f T wd Hin HT Hm Hw pm Mm Hm1 gm wg quadprog glpk init vs EQm QO HI Lv SV) as (us & cv & _ & _ & ER).
  eexists. split; [exact ER|]. split; [reflexivity|]. intros t.
  destruct Gp as (_ & A1 & A2 & A3 & A4 & A5 & A6 & A7 & A8). destruct Gq as (_ & C1 & C2 & C3 & C4 & C5 & C6 & C7 & C8). destruct Go as (_ & D1 & D2 & D3 & D4 & D5 & D6 & D7 & D8).
  split; [|split].
  - exact (c107_axis AX m p path pathp f fp T wd Hin Fp A1 A2 A3 A4 A5 A6 A7 A8 HT Hm Hp (fun s Hs => proj1 (proj2 (proj2 (proj2 (proj2 (HP s Hs)))))) Hw
      wg quadprog glpk init _ wg quadprog glpk init rp QO QS QO QS HI HI ER eq_refl Ep Sp t).
  - exact (c107_axis AY m q path pathq f fq T wd Hin Fq C1 C2 C3 C4 C5 C6 C7 C8 HT Hm Hq (fun s Hs => proj1 (proj2 (proj2 (proj2 (proj2 (proj2 (HP s Hs))))))) Hw
      wg quadprog glpk init _ wg quadprog glpk init rq QO QS QO QS HI HI ER eq_refl Eq Sq t).
  - exact (c107_axis AZ m o path patho f fo T wd Hin Fo D1 D2 D3 D4 D5 D6 D7 D8 HT Hm Ho (fun s Hs => proj2 (proj2 (proj2 (proj2 (proj2 (proj2 (HP s Hs))))))) Hw
      wg quadprog glpk init _ wg quadprog glpk init ro QO QS QO QS HI HI ER eq_refl Eo So t).
Qed.
