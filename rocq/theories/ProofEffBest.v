(** End-effector plans: the best choice of the free points is unique, whatever the back end. *)
From Coq Require Import List Lia Lra.
From Verif Require Import Vec SpecBezier ModelData ModelDispatch ModelCont ModelSolver ModelTraj ModelEff
  SpecCom SpecWp SpecSolver SpecTraj Spec0Step SpecEff ProofTraj2 Proof0Step2 ProofEff ProofEff2 ProofEff3 ProofEff5 ProofEff6 ProofEff7 ProofEff13 ProofEff14 ProofSolves.
Import ListNotations.
Open Scope R_scope.

(** * Strictly convex functions of lists *)
Definition lval (H : list (list R)) (g : list R) (x : list R) : R := quad H x + 2 * rdot g x.
Definition lmid (x y : list R) : list R := lscal (1 / 2) (ladd x y).
Lemma lmid_len x y : length x = length y -> length (lmid x y) = length x.
Proof. intros L. unfold lmid. rewrite lscal_len. apply ladd_len. exact L. Qed.
Lemma lval_mid H g x y : length x = length y ->
  lval H g (lmid x y) = 1 / 2 * lval H g x + 1 / 2 * lval H g y - 1 / 4 * quad H (lsub x y).
Proof.
  intros L. unfold lval, lmid. rewrite ProofSolves.rdot_scal, ProofSolves.rdot_add by exact L.
  rewrite <- !sym_quad. destruct (sym_bilinear (length x) H) as [S B].
  assert (Ls : length (lscal (-1) y) = length x) by (rewrite lscal_len; lia).
  assert (La : length (ladd x y) = length x) by (apply ladd_len; exact L).
  assert (E1 : sym H (lscal (1 / 2) (ladd x y)) (lscal (1 / 2) (ladd x y)) = 1 / 4 * (sym H x x + 2 * sym H x y + sym H y y)).
  { rewrite (proj2 (B (lscal (1 / 2) (ladd x y)) ltac:(rewrite lscal_len; exact La))) by exact La.
    rewrite S by (rewrite ?lscal_len; lia). rewrite (proj2 (B (ladd x y) La)) by exact La.
    rewrite (proj1 (B (ladd x y) La)) by lia. rewrite (S (ladd x y) x), (S (ladd x y) y) by lia.
    rewrite (proj1 (B x eq_refl)), (proj1 (B y ltac:(lia))) by lia. rewrite (S y x) by lia. field. }
  assert (E2 : sym H (lsub x y) (lsub x y) = sym H x x - 2 * sym H x y + sym H y y).
  { unfold lsub. assert (Ld : length (ladd x (lscal (-1) y)) = length x) by (apply ladd_len; lia).
    rewrite (proj1 (B _ Ld)) by lia. rewrite (proj2 (B _ Ld)) by lia. rewrite (S _ x), (S _ y) by lia.
    rewrite (proj1 (B x eq_refl)), (proj1 (B y ltac:(lia))) by lia.
    rewrite (proj2 (B x eq_refl)), (proj2 (B y ltac:(lia))) by lia. rewrite (S y x) by lia. ring. }
  rewrite E1, E2. field.
Qed.
Lemma lsub_zero : forall x y, length x = length y -> lsub x y = repeat 0 (length x) -> x = y.
Proof.
  unfold lsub. induction x as [|a x IH]; intros [|b y] L E; try discriminate; [reflexivity|].
  cbn in E. injection E as E1 E2. f_equal; [lra|]. apply IH; [cbn in L; lia|exact E2].
Qed.
Lemma satX_mid M x y : length x = length y -> satX M x -> satX M y -> satX M (lmid x y).
Proof.
  unfold satX. rewrite !Forall_forall. intros L Hx Hy r Hr. specialize (Hx r Hr). specialize (Hy r Hr).
  unfold lmid. rewrite ProofSolves.rdot_scal, ProofSolves.rdot_add by exact L. lra.
Qed.
Definition llist_dec (x y : list R) : {x = y} + {x <> y} := list_eq_dec Req_EM_T x y.
Lemma lval_unique H g n x y (X : list R -> Prop) :
  (forall v, length v = n -> v <> repeat 0 n -> 0 < quad H v) -> length x = n -> length y = n ->
  X (lmid x y) -> (forall z, length z = n -> X z -> lval H g x <= lval H g z) -> lval H g y <= lval H g x -> x = y.
Proof.
  intros PD Lx Ly HX Hx Hy. destruct (llist_dec x y) as [E|NE]; [exact E|exfalso].
  assert (L : length x = length y) by lia.
  specialize (Hx (lmid x y)). rewrite lmid_len in Hx by exact L. specialize (Hx Lx HX). rewrite lval_mid in Hx by exact L.
  assert (0 < quad H (lsub x y)).
  { apply PD; [rewrite lsub_len; [exact Lx|exact L]|]. intros Z. apply NE. apply lsub_zero; [exact L|]. rewrite Z, Lx. reflexivity. }
  lra.
Qed.

(** * The answer of the end-effector planner *)
Section Ans.
Variables (pData : problem) (path : R -> outcome vec3) (p : R -> vec3) (T wd : R).
Hypothesis (Hin : In (flag_of pData) effector_flags) (HT : 0 < T) (Hp : forall s, 0 <= s <= 1 -> path s = Ok (p s)) (Hw : 0 <= wd <= 1).
Let n := eff_free (flag_of pData).

(** the matrices of the problem *)
Definition eff_qp (pi : list vec3) (M : list (list R * R)) (H : list (list R)) (g : list R) : Prop :=
  computeConstantWaypoints pData T = Ok pi /\ computeEndEffectorConstraints pData T pi = Ok M /\
  computeEndEffectorCost pData path T wd pi = Ok (H, g).
Definition eff_least (M : list (list R * R)) (H : list (list R)) (g : list R) (xs : list vec3) : Prop :=
  length xs = n /\ satX M (flat xs) /\ forall ys, length ys = n -> satX M (flat ys) -> lval H g (flat xs) <= lval H g (flat ys).

Lemma eff_qp_ok : exists pi M H g, eff_qp pi M H g /\ Forall (fun r => length (fst r) = (3 * n)%nat) M /\
  (forall v, length v = (3 * n)%nat -> v <> repeat 0 (3 * n) -> 0 < quad H v).
Proof.
  destruct (eff_cost pData T path p Hin HT Hp) as (pi & a & b & Hc & _ & _ & HW).
  destruct (eff_constraints_total pData T Hin HT) as (pi1 & M & Hc1 & HM & HL). rewrite Hc in Hc1. injection Hc1 as <-.
  destruct (HW wd Hw) as (H & g & K & HE & PD & _). exists pi, M, H, g.
  split; [split; [exact Hc|split; assumption]|]. rewrite (dim_nf pData Hin) in HL. split; [exact HL|].
  intros v Lv Hne. destruct (unflat n v Lv) as (vs & Lvs & ->). apply PD; [exact Lvs|].
  intros Z. apply Hne. rewrite Z, flat_zero, Lvs. reflexivity.
Qed.
Lemma eff_least_unique pi M H g xs ys : eff_qp pi M H g -> eff_least M H g xs -> eff_least M H g ys -> flat xs = flat ys.
Proof.
  intros (E1 & E2 & E3) (Lx & Sx & Mx) (Ly & Sy & My).
  destruct eff_qp_ok as (pi' & M' & H' & g' & (F1 & F2 & F3) & HL & PD).
  rewrite E1 in F1. injection F1 as <-. rewrite E2 in F2. injection F2 as <-. rewrite E3 in F3. injection F3 as <- <-.
  apply (lval_unique H g (3 * n) (flat xs) (flat ys) (satX M) PD).
  - rewrite flat_len, Lx. reflexivity.
  - rewrite flat_len, Ly. reflexivity.
  - apply satX_mid; [rewrite !flat_len; congruence|exact Sx|exact Sy].
  - intros z Lz Sz. destruct (unflat n z Lz) as (zs & Lzs & ->). apply Mx; assumption.
  - apply My; assumption.
Qed.
Definition eff_result (xs : list vec3) (cv : bcurve) : resultCOM :=
  ResultCOM true (rc_cost default_result) (flat xs) cv (rc_dL default_result) (rc_dc1 default_result) (rc_ddc1 default_result).
Lemma eff_answer pi M H g wg quadprog glpk init ys : eff_qp pi M H g -> qp_solves quadprog -> (forall k, length (init k) = k) ->
  length ys = n -> satX M (flat ys) ->
  exists xs cv, eff_least M H g xs /\ eff_curve pData T xs = Ok cv /\
    solveEndEffector wg quadprog glpk init pData path T wd = Ok (eff_result xs cv).
Proof.
  intros (E1 & E2 & E3) QO HI Ly Hy.
  destruct eff_qp_ok as (pi' & M' & H' & g' & (F1 & F2 & F3) & HL & PD).
  rewrite E1 in F1. injection F1 as <-. rewrite E2 in F2. injection F2 as <-. rewrite E3 in F3. injection F3 as <- <-.
  assert (DV : dimVar pData = (3 * n)%nat) by (apply (dim_nf pData Hin)).
  destruct (solve_optX wg quadprog glpk M H g (init (dimVar pData)) (flat ys) QO) as (x' & ES & Lx' & Sx & Ox).
  { rewrite HI, DV. exact HL. } { rewrite HI, DV. exact PD. } { rewrite HI, DV, flat_len, Ly. reflexivity. } { exact Hy. }
  rewrite HI in Lx', Ox. rewrite DV in Lx', Ox. destruct (unflat _ x' Lx') as (xs & Lxs & ->).
  destruct (eff_boundary pData T xs Hin Lxs HT) as (cv & Ecv & _). exists xs, cv.
  split; [split; [exact Lxs|split; [exact Sx|]]|].
  { intros zs Lz Sz. specialize (Ox (flat zs)). rewrite flat_len, Lz in Ox. specialize (Ox eq_refl Sz). unfold lval. lra. }
  split; [exact Ecv|].
  unfold solveEndEffector. rewrite E1. cbn [bind]. rewrite E2. cbn [bind]. rewrite E3. cbn [bind fst snd]. rewrite HI in ES. rewrite ES. cbn [bind rd_success rd_x].
  unfold eff_curve in Ecv. rewrite Ecv. reflexivity.
Qed.
(** a successful result is that of the least point *)
Lemma eff_success pi M H g wg quadprog glpk init r : eff_qp pi M H g -> qp_solves quadprog -> qp_sound quadprog -> (forall k, length (init k) = k) ->
  solveEndEffector wg quadprog glpk init pData path T wd = Ok r -> rc_success r = true ->
  exists xs cv, eff_least M H g xs /\ eff_curve pData T xs = Ok cv /\ r = eff_result xs cv.
Proof.
  intros EQ QO QS HI E Hs. pose proof EQ as (E1 & E2 & E3).
  destruct (c29_plan wg quadprog glpk init pData path T wd r QS HI Hin HT E Hs) as (ys & pi' & M' & Ly & _ & _ & _ & _ & F1 & F2 & Sy).
  rewrite E1 in F1. injection F1 as <-. rewrite E2 in F2. injection F2 as <-.
  destruct (eff_answer pi M H g wg quadprog glpk init ys EQ QO HI Ly Sy) as (xs & cv & A & B & C).
  exists xs, cv. split; [exact A|]. split; [exact B|]. rewrite E in C. injection C as ->. reflexivity.
Qed.
Lemma c105_back_ends wg quadprog glpk init r wg' quadprog' glpk' init' :
  qp_solves quadprog -> qp_sound quadprog -> qp_solves quadprog' -> (forall k, length (init k) = k) -> (forall k, length (init' k) = k) ->
  solveEndEffector wg quadprog glpk init pData path T wd = Ok r -> rc_success r = true ->
  solveEndEffector wg' quadprog' glpk' init' pData path T wd = Ok r.
Proof.
  intros QO QS QO' HI HI' E Hs. destruct eff_qp_ok as (pi & M & H & g & EQ & _).
  destruct (eff_success pi M H g wg quadprog glpk init r EQ QO QS HI E Hs) as (xs & cv & A & B & ->).
  destruct (eff_answer pi M H g wg' quadprog' glpk' init' xs EQ QO' HI' (proj1 A) (proj1 (proj2 A))) as (xs' & cv' & A' & B' & C).
  rewrite C. pose proof (eff_least_unique pi M H g xs xs' EQ A A') as EF. unfold eff_result. rewrite EF.
  unfold eff_curve in B, B'. rewrite EF, B' in B. injection B as ->. reflexivity.
Qed.
End Ans.

(** * The path *)
Lemma mapM_ext {A B} (f g : A -> outcome B) l : (forall a, In a l -> f a = g a) -> mapM f l = mapM g l.
Proof.
  induction l as [|a l IH]; intros H; [reflexivity|]. cbn [mapM]. rewrite (H a (or_introl eq_refl)), IH; [reflexivity|].
  intros b Hb. apply H. right. exact Hb.
Qed.
Lemma c105_path pData path path' T wd wg quadprog glpk init :
  (0 < wd -> forall k, (k < 50)%nat -> path (INR k * (1 / (INR 50 - 1))) = path' (INR k * (1 / (INR 50 - 1)))) ->
  solveEndEffector wg quadprog glpk init pData path T wd = solveEndEffector wg quadprog glpk init pData path' T wd.
Proof.
  intros Hk. unfold solveEndEffector. destruct (computeConstantWaypoints pData T) as [pi| |]; [|reflexivity|reflexivity]. cbn [bind].
  destruct (computeEndEffectorConstraints pData T pi) as [M| |]; [|reflexivity|reflexivity]. cbn [bind].
  replace (computeEndEffectorCost pData path T wd pi) with (computeEndEffectorCost pData path' T wd pi); [reflexivity|].
  unfold computeEndEffectorCost. destruct (Rlt_dec 0 wd) as [Pw|]; [|reflexivity].
  unfold computeDistanceCostFunction_path. change (Nat.eqb 50 1) with false. cbv iota zeta.
  rewrite (mapM_ext (fun i => path (INR i * (1 / (INR 50 - 1)))) (fun i => path' (INR i * (1 / (INR 50 - 1))))); [reflexivity|].
  intros k Hi. apply in_seq in Hi. apply (Hk Pw). lia.
Qed.
