(** The acceleration cost depends on the free point. *)
From Coq Require Import List Lia Lra.
From Verif Require Import Vec SpecBezier SpecTime ModelData ModelDispatch ModelUtils ModelCont ModelTraj
  SpecCom SpecCtr SpecTraj SpecEnd SpecBest ProofBezier ProofCurve ProofTime ProofWaypoints ProofWaypoints2 ProofTraj ProofTraj2 ProofTraj3.
Import ListNotations.
Open Scope R_scope.

Definition fcoef (fl : Z) (s : R) : R :=
  if Z.eqb fl F_c1 then 6 - 18 * s else if Z.eqb fl F_capture then 6 - 12 * s else if Z.eqb fl F_dc1_c1 then 12 - 72 * s + 72 * s * s
  else if Z.eqb fl F_acc then 6 * s else if Z.eqb fl F_acc_c1 then 24 * s - 48 * s * s
  else if Z.eqb fl F_acc_dc1_c1 then 60 * s - 240 * s * s + 200 * s * s * s else 120 * (s * (1 - s) * (5 * s * s - 5 * s + 1)).

Lemma acc_diff p T x y cvx cvy t : In (flag_of p) com_flags -> com_curve p T x = Ok cvx -> com_curve p T y = Ok cvy -> 
  vsub (curve (hodo_n 2 T (bc_pts cvx)) T t) (curve (hodo_n 2 T (bc_pts cvy)) T t) = vscal (fcoef (flag_of p) (t / T) / (T * T)) (vsub x y).
Proof.
  intros Hin Hx Hy. destruct (com_curve_inv p T x cvx Hin Hx) as (pi & pts & Sx & Cx & HT & -> & _).
  destruct (com_curve_inv p T y cvy Hin Hy) as (pi' & pts' & Sy & Cy & _ & -> & _). rewrite Cx in Cy. injection Cy as <-. clear Cx.
  assert (NT : T <> 0) by lra. cbn [bc_pts].
  destruct Sx as [pi E _ a b c d Ep|pi E _ a b c d Ep|pi E _ a b c d e Ep|pi E _ a b c d Ep|pi E _ a b c d e Ep|pi E _ a b c d e f Ep|pi E _ a b c d e f h Ep];
  destruct Sy as [pi E' _ a' b' c' d' Ep'|pi E' _ a' b' c' d' Ep'|pi E' _ a' b' c' d' e' Ep'|pi E' _ a' b' c' d' Ep'|pi E' _ a' b' c' d' e' Ep'|pi E' _ a' b' c' d' e' f' Ep'|pi E' _ a' b' c' d' e' f' h' Ep'];
  (rewrite E in E'; try discriminate E'); rewrite E; rewrite Ep in Ep'; injection Ep' as; subst;
  apply v3_eq; cbv [fcoef Z.eqb Pos.eqb F_c1 F_capture F_dc1_c1 F_acc F_acc_c1 F_acc_dc1_c1 F_acc_all fl_or Z.lor Pos.lor INIT_POS INIT_VEL INIT_ACC END_POS END_VEL END_ACC
     hodo_n hodo vdiffs length pred map curve bez3 bezl bez sumf bern binom nth vx vy vz vadd vscal vsub vzero Nat.add Nat.sub INR pow]; field; exact NT.
Qed.

Lemma depends_iff p Ts ta : well_posed p Ts -> (acc_depends p Ts ta <-> exists tp, In tp ta /\ fcoef (flag_of p) (fst tp / total Ts) <> 0).
Proof.
  intros WP. pose proof (total_posd p Ts WP) as HT. assert (NT : total Ts * total Ts <> 0) by nra.
  split.
  - intros (tp & x & y & cvx & cvy & ax & ay & HI & Hx & Hy & Dx & Dy & NE). exists tp. split; [exact HI|]. intros Z. apply NE.
    destruct (com_curve_inv p _ x cvx (proj1 WP) Hx) as (_ & pts & _ & _ & _ & Ex & _). destruct (com_curve_inv p _ y cvy (proj1 WP) Hy) as (_ & pts' & _ & _ & _ & Ey & _).
    pose proof (acc_diff p (total Ts) x y cvx cvy (fst tp) (proj1 WP) Hx Hy) as D. subst cvx cvy. cbn [bc_pts] in D. unfold cv_fun in Dx, Dy; cbn [bc_pts bc_T] in Dx, Dy.
    rewrite (is_deriv_n_unique 2 _ _ _ _ _ (fun _ => eq_refl) Dx (curve_is_deriv_n 2 pts (total Ts) (fst tp))).
    rewrite (is_deriv_n_unique 2 _ _ _ _ _ (fun _ => eq_refl) Dy (curve_is_deriv_n 2 pts' (total Ts) (fst tp))).
    rewrite Z in D. unfold Rdiv in D. rewrite Rmult_0_l in D.
    pose proof (f_equal vx D) as D1. pose proof (f_equal vy D) as D2. pose proof (f_equal vz D) as D3. unfold vsub, vscal in D1, D2, D3; cbn [vx vy vz] in D1, D2, D3.
    apply v3_eq; lra.
  - intros (tp & HI & NZ).
    destruct (com_curve_total p (total Ts) vzero (proj1 WP) (proj1 (proj2 WP)) HT) as [cvx Hx]. destruct (com_curve_total p (total Ts) (V3 1 0 0) (proj1 WP) (proj1 (proj2 WP)) HT) as [cvy Hy].
    destruct (com_curve_inv p _ _ cvx (proj1 WP) Hx) as (_ & pts & _ & _ & _ & Ex & _). destruct (com_curve_inv p _ _ cvy (proj1 WP) Hy) as (_ & pts' & _ & _ & _ & Ey & _).
    pose proof (acc_diff p (total Ts) _ _ cvx cvy (fst tp) (proj1 WP) Hx Hy) as D.
    exists tp, vzero, (V3 1 0 0), cvx, cvy, (curve (hodo_n 2 (total Ts) (bc_pts cvx)) (total Ts) (fst tp)), (curve (hodo_n 2 (total Ts) (bc_pts cvy)) (total Ts) (fst tp)).
    split; [exact HI|]. split; [exact Hx|]. split; [exact Hy|]. subst cvx cvy. split; [apply curve_is_deriv_n|]. split; [apply curve_is_deriv_n|].
    intros E. cbn [bc_pts] in *. rewrite E in D. apply (f_equal vx) in D. unfold vsub, vscal, vzero in D; cbn [vx vy vz] in D.
    apply NZ. apply (Rmult_eq_reg_r (/ (total Ts * total Ts))); [unfold Rdiv in D; lra|apply Rinv_neq_0_compat; exact NT].
Qed.

Lemma tagged_in bs : forall i k b t, nth_error bs k = Some b -> In t b -> exists z, In (t, z) (tagged_from i bs).
Proof.
  induction bs as [|b0 bs IH]; intros i [|k] b t H HI; try discriminate.
  - injection H as ->. exists i. cbn [tagged_from]. apply in_or_app. left. apply in_map_iff. exists t. split; [reflexivity|exact HI].
  - destruct (IH (i + 1)%Z k b t H HI) as [z Hz]. exists z. cbn [tagged_from]. apply in_or_app. right. exact Hz.
Qed.
Lemma last_in Ts m ta : Ts <> [] -> Forall (Rlt 0) Ts -> proper m -> cost_times Ts m ta -> exists z, In (total Ts, z) ta.
Proof.
  intros NE P PR CT. destruct m as [dt|q]; cbn [proper cost_times] in *.
  - destruct (c11_ok Ts dt PR P) as (bs & E & L & H & _). rewrite E in CT. injection CT as <-.
    assert (LT : (0 < length Ts)%nat) by (destruct Ts; [congruence|cbn; lia]).
    destruct (nth_error bs (length Ts - 1)) as [b|] eqn:Eb; [|apply nth_error_None in Eb; lia].
    destruct (H _ b Eb) as (n & _ & ->). apply (tagged_in bs 0%Z _ _ _ Eb). unfold step_samples. apply in_or_app. right. left.
    unfold phase_end. rewrite firstn_all2 by lia. reflexivity.
  - subst ta. rewrite (fixed_eq Ts q PR NE). destruct (fixed_blocks_last q PR Ts 0 0 NE) as [l ->]. eexists. right. apply in_or_app. right. left.
    rewrite Rplus_0_l. reflexivity.
Qed.

Lemma c96_six p Ts m ta : well_posed p Ts -> flag_of p <> F_acc_all -> proper m -> cost_times Ts m ta -> acc_depends p Ts ta.
Proof.
  intros WP NF PR CT. pose proof (total_posd p Ts WP) as HT. apply (depends_iff p Ts ta WP).
  destruct (last_in Ts m ta (proj1 (proj2 (proj2 WP))) (proj1 (proj2 (proj2 (proj2 WP)))) PR CT) as [z Hz].
  exists (total Ts, z). split; [exact Hz|]. cbn [fst]. replace (total Ts / total Ts) with 1 by (field; lra).
  destruct WP as (Hin & _). unfold com_flags in Hin. cbn [In] in Hin.
  destruct Hin as [E|[E|[E|[E|[E|[E|[E|[]]]]]]]]; [| | | | | |exfalso; apply NF; symmetry; exact E]; rewrite <- E; cbv [fcoef Z.eqb Pos.eqb F_c1 F_capture F_dc1_c1 F_acc F_acc_c1 F_acc_dc1_c1 F_acc_all fl_or Z.lor Pos.lor INIT_POS INIT_VEL INIT_ACC END_POS END_VEL END_ACC];
    lra.
Qed.
Lemma c96_seventh p Ts ta : well_posed p Ts -> flag_of p = F_acc_all ->
  (acc_depends p Ts ta <-> exists tp, In tp ta /\ let s := fst tp / total Ts in s * (1 - s) * (5 * s * s - 5 * s + 1) <> 0).
Proof.
  intros WP EF. rewrite (depends_iff p Ts ta WP), EF. change (fcoef F_acc_all) with (fun s => 120 * (s * (1 - s) * (5 * s * s - 5 * s + 1))).
  split; intros (tp & HI & H); exists tp; (split; [exact HI|]); cbv zeta in *.
  - intros Z. apply H. rewrite Z. ring.
  - lra.
Qed.
