(** C47 with a time step. *)
From Verif Require Import Vec SpecBezier SpecTime ModelData ModelDispatch ModelUtils ModelRows ModelCom ModelCont
  SpecCom SpecWp SpecCtr SpecCont ProofCom3 ProofCont9.
Open Scope R_scope.

Lemma c47_step pData Ts dt g : well_posed pData Ts -> 0 < dt -> same_gravity pData g -> In (flag_of pData) exact_w_flags ->
  exists ta rows1 rows0, computeDiscretizedTime Ts dt = Ok ta /\
  computeConstraintsOneStep (with_acc_flag pData true) Ts (total Ts) ta = Ok rows1 /\
  computeConstraintsOneStep (with_acc_flag pData false) Ts (total Ts) ta = Ok rows0 /\
  forall x cv, com_curve pData (total Ts) x = Ok cv ->
    (sat rows0 x <-> forall i c t, nth_error (contacts pData) i = Some c -> sampled_step Ts dt i t -> contact_ok pData 0 c (cv_fun cv) t) /\
    (sat rows1 x <-> sat rows0 x /\ forall i c t, nth_error (contacts pData) i = Some c -> sampled_step Ts dt i t ->
       accel_within (k_maxAcceleration (constr pData)) (cv_fun cv) t).
Proof.
  intros WP Hd SG HF.
  destruct (c15_step (with_acc_flag pData true) Ts dt g WP Hd SG HF) as (ta & r1 & ET & E1 & H1).
  destruct (c15_step (with_acc_flag pData false) Ts dt g WP Hd SG HF) as (ta' & r0 & ET' & E0 & H0).
  rewrite ET in ET'. injection ET' as <-.
  exists ta, r1, r0. split; [exact ET|]. split; [exact E1|]. split; [exact E0|]. intros x cv Hcv.
  assert (C1 : com_curve (with_acc_flag pData true) (total Ts) x = Ok cv) by (rewrite with_acc_curve; exact Hcv).
  assert (C0 : com_curve (with_acc_flag pData false) (total Ts) x = Ok cv) by (rewrite with_acc_curve; exact Hcv).
  rewrite (H1 x cv C1), (H0 x cv C0). split.
  - split; intros H i c t Hc Ht.
    + apply (H i c t Hc Ht).
    + split; [apply (H i c t Hc Ht)|]. intros X. discriminate X.
  - split.
    + intros H. split; intros i c t Hc Ht; destruct (H i c t Hc Ht) as [A B].
      * split; [exact A|]. intros X. discriminate X.
      * exact (B eq_refl).
    + intros [A B] i c t Hc Ht. split; [apply (A i c t Hc Ht)|]. intros _. apply (B i c t Hc Ht).
Qed.
