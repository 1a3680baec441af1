(** All the samples. *)
From Flocq Require Import Core BinarySingleNaN.
From Coq Require Import List Lia Lra.
From Verif Require Import Vec SpecBezier ModelData ModelWaypoints ModelDispatch SpecCom Double ModelDouble ModelPtsDouble ModelCoefDouble SpecDouble SpecDouble2 SpecPtsDouble SpecCoefDouble
  ProofDouble ProofDouble6 ProofDouble7 ProofPtsDouble8 ProofPtsDouble9 ProofCoefDouble4.
Import ListNotations.
Open Scope R_scope.

Lemma mapM_total {A B} (f : A -> outcome B) (R : A -> B -> Prop) l : (forall a, In a l -> exists b, f a = Ok b /\ R a b) ->
  exists bs, mapM f l = Ok bs /\ Forall2 R l bs.
Proof.
  induction l as [|a l IH]; intros H; [exists []; split; [reflexivity|constructor]|].
  destruct (H a (or_introl eq_refl)) as (b & E & Rb). destruct IH as (bs & Eb & Fb); [intros; apply H; now right|].
  exists (b :: bs). cbn [mapM]. rewrite E. cbn [bind]. rewrite Eb. split; [reflexivity|constructor; assumption].
Qed.
Lemma unit_range (T t : f64) : is_finite T = true -> is_finite t = true -> 0 < B2R T -> 0 <= B2R t -> is_finite (unit_time T t) = true /\ 0 <= B2R (unit_time T t) <= 1.
Proof.
  intros FT Ft PT Pt. destruct (unit_time_ok T t FT Ft PT Pt) as [F A]. split; [exact F|]. unfold bern_accepts in A. apply andb_prop in A as [A B].
  apply fle_val in A; [|reflexivity|exact F]. apply fle_val in B; [|exact F|reflexivity]. rewrite f0_val in A. rewrite f1_val in B. lra.
Qed.

Section Main.
  Variables (d : fdata) (pData : problem) (T : f64).
  Hypotheses (Hd : denotes d pData) (Hm : mild_data d) (FT : is_finite T = true) (T0 : 0 < B2R T) (TB : B2R T <= 2 ^ 200).
  Hypotheses (Hf : In (flag_of pData) com_flags) (Hc : flag_of pData = F_capture -> dc1 pData = vzero).

  Lemma c87_positions_at : forall ta, times_ok ta -> exists cs, computeDiscretizedWaypoints_f d T ta = Ok cs /\
    Forall2 (fun tp c => finite_coefs c /\ forall x, exists cv, com_curve pData (B2R T) x = Ok cv /\
      apart (fun ax => pos_err (degree cv) (B2R T) (extent (B2R T) pData x ax)) (at_free c x) (cv_fun cv (eval_time T (fst tp)))) ta cs.
  Proof.
    intros ta Ht. destruct (main_points d pData T Hd Hm FT T0 TB Hf Hc) as (pf & pi & E1 & _ & L & Fp & B & G).
    unfold computeDiscretizedWaypoints_f. rewrite E1. cbn [bind]. rewrite <- (proj1 Hd).
    destruct (mapM_total (fun tp : f64 * Z => evaluateCurveAtTime_f (flag_of pData) pf (unit_time T (fst tp)))
      (fun tp c => finite_coefs c /\ forall x, exists cv, com_curve pData (B2R T) x = Ok cv /\
      apart (fun ax => pos_err (degree cv) (B2R T) (extent (B2R T) pData x ax)) (at_free c x) (cv_fun cv (eval_time T (fst tp)))) ta) as (cs & E & F).
    - intros tp Hin. destruct (proj1 (Forall_forall _ _) Ht tp Hin) as [Ft Pt]. destruct (unit_range T (fst tp) FT Ft T0 Pt) as [Fu Ru].
      destruct (sample_pos d pData T Hd Hm T0 TB Hf (unit_time T (fst tp)) Fu Ru pf L Fp B G) as (c & Ec & Fc & Hx). exists c. split; [exact Ec|]. split; [exact Fc|].
      intros x. destruct (c86_com d pData T Hd Hm FT T0 TB x Hf Hc) as (_ & cv & _ & Ev & _). exists cv. split; [exact Ev|exact (Hx x cv Ev)].
    - exists cs. split; [exact E|exact F].
  Qed.
  Lemma c87_accelerations_at : / 2 ^ 100 <= B2R T -> forall ta, times_ok ta -> exists cs, computeDiscretizedAccelerationWaypoints_f d T ta = Ok cs /\
    Forall2 (fun tp c => finite_coefs c /\ forall x, exists cv, com_curve pData (B2R T) x = Ok cv /\ exists v, is_deriv_n 2 (cv_fun cv) (eval_time T (fst tp)) v /\
      apart (fun ax => acc_err (degree cv) (B2R T) (extent (B2R T) pData x ax)) (at_free c x) v) ta cs.
  Proof.
    intros TL ta Ht. destruct (main_points d pData T Hd Hm FT T0 TB Hf Hc) as (pf & pi & E1 & _ & L & Fp & B & G).
    unfold computeDiscretizedAccelerationWaypoints_f. rewrite E1. cbn [bind]. rewrite <- (proj1 Hd).
    destruct (mapM_total (fun tp : f64 * Z => evaluateAccelerationCurveAtTime_f (flag_of pData) pf T (unit_time T (fst tp)))
      (fun tp c => finite_coefs c /\ forall x, exists cv, com_curve pData (B2R T) x = Ok cv /\ exists v, is_deriv_n 2 (cv_fun cv) (eval_time T (fst tp)) v /\
      apart (fun ax => acc_err (degree cv) (B2R T) (extent (B2R T) pData x ax)) (at_free c x) v) ta) as (cs & E & F).
    - intros tp Hin. destruct (proj1 (Forall_forall _ _) Ht tp Hin) as [Ft Pt]. destruct (unit_range T (fst tp) FT Ft T0 Pt) as [Fu Ru].
      destruct (sample_acc d pData T Hd Hm FT T0 TB Hf (unit_time T (fst tp)) Fu Ru pf L Fp B G TL) as (c & Ec & Fc & Hx). exists c. split; [exact Ec|]. split; [exact Fc|].
      intros x. destruct (c86_com d pData T Hd Hm FT T0 TB x Hf Hc) as (_ & cv & _ & Ev & _). exists cv. split; [exact Ev|exact (Hx x cv Ev)].
    - exists cs. split; [exact E|exact F].
  Qed.
  Lemma c87_positions : exists ev, evaluates T ev /\ forall ta, times_ok ta -> exists cs, computeDiscretizedWaypoints_f d T ta = Ok cs /\
    Forall2 (fun tp c => finite_coefs c /\ forall x, exists cv, com_curve pData (B2R T) x = Ok cv /\
      apart (fun ax => pos_err (degree cv) (B2R T) (extent (B2R T) pData x ax)) (at_free c x) (cv_fun cv (ev (fst tp)))) ta cs.
  Proof. exists (eval_time T). split; [apply eval_evaluates; split; assumption|exact c87_positions_at]. Qed.
  Lemma c87_accelerations : / 2 ^ 100 <= B2R T -> exists ev, evaluates T ev /\ forall ta, times_ok ta -> exists cs, computeDiscretizedAccelerationWaypoints_f d T ta = Ok cs /\
    Forall2 (fun tp c => finite_coefs c /\ forall x, exists cv, com_curve pData (B2R T) x = Ok cv /\ exists v, is_deriv_n 2 (cv_fun cv) (ev (fst tp)) v /\
      apart (fun ax => acc_err (degree cv) (B2R T) (extent (B2R T) pData x ax)) (at_free c x) v) ta cs.
  Proof. intros TL. exists (eval_time T). split; [apply eval_evaluates; split; assumption|exact (c87_accelerations_at TL)]. Qed.
End Main.
