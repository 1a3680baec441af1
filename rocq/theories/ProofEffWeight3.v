(** A negative weight of the path counts as none. *)
From Coq Require Import List Lia Lra Reals.
From Verif Require Import Vec SpecBezier ModelData ModelDispatch ModelUtils ModelRows ModelCont ModelSolver ModelTraj ModelEff
  SpecCom SpecWp SpecSolver SpecTraj Spec0Step SpecEff ProofTraj2 Proof0Step2 ProofEff ProofEff2 ProofEff5 ProofEff6 ProofEff7 ProofEff14 ProofSolves ProofEff3 ProofEffBest.
Import ListNotations.
Open Scope R_scope.

Lemma vec_scale a b : forall (s : list R) n, vecx_add (vecx_scal a s) (vecx_scal b (repeat 0 n)) =
  vecx_scal a (vecx_add (vecx_scal 1 s) (vecx_scal 0 (repeat 0 n))).
Proof.
  induction s as [|x s IH]; intros [|n]; cbn; try reflexivity.
  f_equal; [ring|]. apply (IH n).
Qed.
Lemma mat_scale a b n : forall (S : list (list R)) k, matx_add (matx_scal a S) (matx_scal b (repeat (repeat 0 n) k)) =
  matx_scal a (matx_add (matx_scal 1 S) (matx_scal 0 (repeat (repeat 0 n) k))).
Proof.
  induction S as [|r S IH]; intros [|k]; cbn; try reflexivity. f_equal; [apply vec_scale|apply IH].
Qed.

Lemma cost_scale pData path T w pi H g : w <= 0 -> computeEndEffectorCost pData path T 0 pi = Ok (H, g) ->
  computeEndEffectorCost pData path T w pi = Ok (matx_scal (1 - w) H, vecx_scal (1 - w) g).
Proof.
  intros Hw E. unfold computeEndEffectorCost in *. cbv zeta in *. destruct (Rlt_dec 0 0) as [L|_]; [lra|]. destruct (Rlt_dec 0 w) as [L|_]; [lra|].
  cbn [bind] in *. destruct (computeVelocityCost pData T pi) as [sm| |]; cbn [bind fst snd] in *; try discriminate E.
  injection E as <- <-. replace (1 - 0) with 1 by ring. unfold matx_zero. rewrite <- (mat_scale _ w), <- (vec_scale _ w). reflexivity.
Qed.

Lemma c110_negative p path T w wg quadprog glpk init r wg' quadprog' glpk' init' :
  In (flag_of p) effector_flags -> 0 < T -> w <= 0 ->
  qp_solves quadprog -> qp_sound quadprog -> qp_solves quadprog' -> (forall k, length (init k) = k) -> (forall k, length (init' k) = k) ->
  solveEndEffector wg quadprog glpk init p path T 0 = Ok r -> rc_success r = true ->
  solveEndEffector wg' quadprog' glpk' init' p path T w = Ok r.
Proof.
  intros Hin HT Hw QO QS QO' HI HI' E Hs. set (z := fun _ : R => Ok vzero : outcome vec3).
  rewrite (c105_path p path z T 0) in E by (intros L; lra). rewrite (c105_path p path z T w) by (intros L; lra).
  assert (Hz : forall s, 0 <= s <= 1 -> z s = Ok ((fun _ => vzero) s)) by reflexivity.
  assert (H0 : 0 <= 0 <= 1) by lra.
  destruct (eff_qp_ok p z (fun _ => vzero) T 0 Hin HT Hz H0) as (pi & M & H & g & EQ & HL & PD).
  destruct (eff_success p z (fun _ => vzero) T 0 Hin HT Hz H0 pi M H g wg quadprog glpk init r EQ QO QS HI E Hs) as (xs & cv & A & B & ->).
  pose proof EQ as (E1 & E2 & E3). pose proof (cost_scale p z T w pi H g Hw E3) as E4.
  assert (DV : dimVar p = (3 * eff_free (flag_of p))%nat) by (apply (dim_nf p Hin)).
  destruct A as (Lx & Sx & Mx).
  destruct (solve_optX wg' quadprog' glpk' M (matx_scal (1 - w) H) (vecx_scal (1 - w) g) (init' (dimVar p)) (flat xs) QO') as (x' & ES & Lx' & Sx' & Ox).
  { rewrite HI', DV. exact HL. }
  { rewrite HI', DV. intros v Lv Hv. rewrite quad_scal. apply Rmult_lt_0_compat; [lra|]. apply PD; assumption. }
  { rewrite HI', DV, flat_len, Lx. reflexivity. } { exact Sx. }
  rewrite HI' in Lx', Ox. rewrite DV in Lx', Ox. destruct (unflat _ x' Lx') as (ys & Lys & ->).
  assert (A' : eff_least p M H g ys).
  { split; [exact Lys|]. split; [exact Sx'|]. intros zs Lz Sz. specialize (Ox (flat zs)). rewrite flat_len, Lz in Ox. specialize (Ox eq_refl Sz).
    rewrite !quad_scal, !ProofEff6.rdot_scal in Ox. unfold lval. assert (1 <= 1 - w) by lra. nra. }
  pose proof (eff_least_unique p z (fun _ => vzero) T 0 Hin HT Hz H0 pi M H g xs ys EQ (conj Lx (conj Sx Mx)) A') as EF.
  unfold solveEndEffector. rewrite E1. cbn [bind]. rewrite E2. cbn [bind]. rewrite E4. cbn [bind fst snd]. rewrite HI' in ES. rewrite ES. cbn [bind rd_success rd_x].
  unfold eff_curve in B. rewrite <- EF, B. reflexivity.
Qed.
