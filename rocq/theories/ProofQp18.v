(** QP solver: problems with equalities on the scale of the thresholds. *)
From Coq Require Import Lia Lra Psatz.
From Verif Require Import Vec SpecBezier ModelData ModelSolver ModelQp SpecEnd3
  ProofBezier ProofQp ProofQp2 ProofQp3 ProofQp4 ProofQp5 ProofQp6 ProofQp7 ProofQp13 ProofQp14 ProofQp16 ProofQp17 SpecQp SpecQp2.
Import ListNotations.
Open Scope R_scope.

Lemma esolve_ends q mem lam : symmetric q -> weighted q lam -> eqs_apart q ->
  exists k s st, (k <= max_steps q)%nat /\ execution q mem k = Ok (Done s st) /\
    (s = st_OPTIMAL \/ s = st_MAX_ITER \/ s = st_UNBOUNDED) /\
    (s <> st_UNBOUNDED -> eqs_hold q (q_x st)) /\
    (s = st_OPTIMAL -> violation q (q_x st) <= accuracy (e_n q) (e_I q) (trace (e_n q) (e_H q)) lam).
Proof.
  intros Sy C AP. destruct (esolve q mem lam Sy C AP) as (L & k & s & st & HL & Hk & E & P). exists k, s, st.
  split; [exact Hk|]. split; [exact E|]. pose proof (tolerance_nonneg q L HL) as TN. pose proof eps_pos. destruct C as (C1 & C2 & _).
  pose proof (tolerance_accuracy q L lam HL ltac:(lra) C2) as TA.
  inversion P as [st' HE HV|st' HE|st']; subst; (split; [tauto|]); (split; [intros HN|]); try assumption; try (intros HO; discriminate).
  - intros _. destruct HV; lra.
  - now contradiction HN.
Qed.
(** C72 *)
Lemma c72_answers q mem lam : symmetric q -> weighted q lam -> eqs_apart q ->
  exists status st, returns q mem status st /\ (status = st_OPTIMAL \/ status = st_MAX_ITER \/ status = st_UNBOUNDED) /\
    (status <> st_UNBOUNDED -> eqs_hold q (q_x st)) /\
    (status = st_OPTIMAL -> violation q (q_x st) <= accuracy (e_n q) (e_I q) (trace (e_n q) (e_H q)) lam).
Proof.
  intros Sy C AP. destruct (esolve_ends q mem lam Sy C AP) as (k & s & st & _ & E & P). exists s, st. split; [exists k; exact E|exact P].
Qed.
Lemma c72_safe q mem lam : symmetric q -> weighted q lam -> eqs_apart q -> ~ undefined q mem.
Proof. intros Sy C AP. destruct (c72_answers q mem lam Sy C AP) as (s & st & HR & _). exact (returns_defined q mem s st HR). Qed.
Lemma solve_quadprog_eok mem p init lam : symmetric (eqp_of p) -> weighted (eqp_of p) lam -> eqs_apart (eqp_of p) ->
  exists s st, solve_quadprog mem p init = Ok (s, list_of (length (qp_g p)) (q_x st), q_f st) /\
    (s <> st_UNBOUNDED -> eqs_hold (eqp_of p) (q_x st)) /\
    (s = st_OPTIMAL -> violation (eqp_of p) (q_x st) <= accuracy (e_n (eqp_of p)) (e_I (eqp_of p)) (trace (e_n (eqp_of p)) (e_H (eqp_of p))) lam).
Proof.
  intros Sy C AP. destruct (esolve_ends (eqp_of p) mem lam Sy C AP) as (k & s & st & Hk & E & _ & P).
  exists s, st. split; [|exact P].
  assert (EM : execution (eqp_of p) mem (max_steps (eqp_of p)) = Ok (Done s st)).
  { unfold execution in *. replace (max_steps (eqp_of p)) with (k + (max_steps (eqp_of p) - k))%nat by lia. rewrite steps_add, E. apply steps_done. }
  unfold solve_quadprog. rewrite EM. reflexivity.
Qed.

(** ** [conditioned] bounds the weights *)
Lemma conditioned_weighted q lam : symmetric q -> conditioned q lam -> weighted q lam.
Proof.
  intros Sy C. pose proof C as (C1 & C2 & C3). split; [exact C1|]. split; [exact C2|]. intros v w Hv Hw. exact (row_weight q lam v w C Hv Hw).
Qed.

(** ** Rows of equalities that are far from dependent *)
Lemma spread_apart q s Lam : (forall z, dot (e_n q) (hmul q z) (hmul q z) <= Lam * Lam * dot (e_n q) z z) ->
  eqs_spread q s -> eps52 * (Lam * Lam) < s * s -> eqs_apart q.
Proof.
  intros HB HS HE k z a Hk Hz _. pose proof eps_pos as EP. set (n := e_n q) in *.
  set (c := fun j => if Nat.ltb j k then - a j else if Nat.eqb j k then 1 else 0).
  assert (EC : forall i, sumf (e_E q) (fun j => c j * e_CE q j i) = e_CE q k i - sumf k (fun j => a j * e_CE q j i)).
  { intros i. assert (G : forall m, (k < m)%nat -> sumf m (fun j => c j * e_CE q j i) = e_CE q k i - sumf k (fun j => a j * e_CE q j i)).
    { induction m as [|m IH]; intros Hm; [lia|]. cbn [sumf]. destruct (Nat.eq_dec k m) as [<-|].
      - rewrite (sumf_ext k _ (fun j => -1 * (a j * e_CE q j i))).
        + rewrite sumf_scal. unfold c. rewrite Nat.ltb_irrefl, Nat.eqb_refl. ring.
        + intros j Hj. unfold c. destruct (Nat.ltb_spec j k); [ring|lia].
      - rewrite IH by lia. unfold c at 1. destruct (Nat.ltb_spec m k); [lia|]. destruct (Nat.eqb_spec m k); [lia|]. ring. }
    apply G, Hk. }
  pose proof (HS c) as B. pose proof (HB z) as U.
  rewrite (dot_ext n _ (fun i => sumf (e_E q) (fun j => c j * e_CE q j i)) _ (fun i => sumf (e_E q) (fun j => c j * e_CE q j i))) in U
    by (intros i Hi; rewrite EC; apply Hz, Hi).
  fold n in B.
  assert (C1 : 1 <= sumf (e_E q) (fun j => c j * c j)).
  { assert (G : forall m, (k < m)%nat -> 1 <= sumf m (fun j => c j * c j)).
    { induction m as [|m IH]; intros Hm; [lia|]. cbn [sumf]. destruct (Nat.eq_dec k m) as [<-|].
      - pose proof (sumf_sq_nonneg k c) as P. assert (CK : c k = 1) by (unfold c; rewrite Nat.ltb_irrefl, Nat.eqb_refl; reflexivity). rewrite CK. lra.
      - specialize (IH ltac:(lia)). pose proof (Rle_0_sqr (c m)) as Q. unfold Rsqr in Q. lra. }
    apply G, Hk. }
  assert (S1 : s * s <= s * s * sumf (e_E q) (fun j => c j * c j)).
  { rewrite <- (Rmult_1_r (s * s)) at 1. apply Rmult_le_compat_l; [nra|exact C1]. }
  apply Rnot_le_lt. intros HN. assert (Lam * Lam * dot n z z <= Lam * Lam * eps52) by (apply Rmult_le_compat_l; [nra|exact HN]). lra.
Qed.
Lemma c72_spread q mem lam Lam s : symmetric q -> weighted q lam ->
  (forall z, dot (e_n q) (hmul q z) (hmul q z) <= Lam * Lam * dot (e_n q) z z) -> eqs_spread q s -> eps52 * (Lam * Lam) < s * s ->
  exists status st, returns q mem status st /\ (status = st_OPTIMAL \/ status = st_MAX_ITER \/ status = st_UNBOUNDED) /\
    (status <> st_UNBOUNDED -> eqs_hold q (q_x st)) /\
    (status = st_OPTIMAL -> violation q (q_x st) <= accuracy (e_n q) (e_I q) (trace (e_n q) (e_H q)) lam).
Proof. intros Sy C HB HS HE. exact (c72_answers q mem lam Sy C (spread_apart q s Lam HB HS HE)). Qed.
