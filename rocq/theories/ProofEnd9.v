(** The zero-step capture problem solved with the bundled QP solver (C64, C65). *)
From Coq Require Import Lia Lra Psatz.
From Verif Require Import Vec SpecBezier ModelData ModelDispatch ModelUtils ModelRows ModelCom ModelNd ModelCont ModelSolver ModelTraj Model0Step ModelQp
  SpecCom SpecWp SpecCtr SpecSolver SpecTraj Spec0Step SpecEnd SpecEnd3 ProofBezier ProofCurve ProofWaypoints ProofWaypoints2 ProofNd ProofCom ProofCont
  ProofCont3 ProofTraj2 Proof0Step Proof0Step2 ProofQp3 ProofEnd ProofQp16 SpecQp.
Import ListNotations.
Open Scope R_scope.

(** * How steep the rows are *)
Definition steep (useAng : bool) (m : R) (g : vec3) (B : R) (wu : wp6 * wp6) : Prop :=
  forall h x xL, (useAng = false -> xL = vzero) ->
    dot6 h (z_pt m g x xL wu) - dot6 h (z_pt m g vzero vzero wu) <= norm6 h * (B * norm6 (x, xL)).
Lemma steep_form useAng m g wu a v b A C : 0 <= m ->
  (forall h x xL, dot6 h (z_pt m g x xL wu) - dot6 h (z_pt m g vzero vzero wu)
     = dot6 h (vscal (m * a) x, vadd (vscal m (vcross v x)) (vscal b xL))) ->
  Rabs a + vnorm v <= A -> (useAng = true -> Rabs b <= C) -> (useAng = false -> C = 0) -> steep useAng m g (m * A + C) wu.
Proof.
  intros Hm HF HA HB HC h x xL HX. rewrite HF. eapply Rle_trans; [apply cs6|]. apply Rmult_le_compat_l; [apply norm6_ge|].
  eapply Rle_trans; [apply norm6_split|]. pose proof (vnorm_triang (vscal m (vcross v x)) (vscal b xL)) as T1.
  rewrite !vnorm_scal in *. rewrite Rabs_mult, (Rabs_pos_eq m Hm) in *. pose proof (vnorm_cross v x) as T2.
  pose proof (norm6_fst (x, xL)) as N1. pose proof (norm6_snd (x, xL)) as N2. cbn [fst snd] in N1, N2. set (N := norm6 (x, xL)) in *.
  pose proof (vnorm_ge x). pose proof (vnorm_ge xL). pose proof (vnorm_ge v). pose proof (Rabs_pos a). pose proof (Rabs_pos b).
  assert (P1 : m * Rabs a * vnorm x + m * vnorm (vcross v x) <= m * A * N).
  { assert (vnorm (vcross v x) <= vnorm v * vnorm x) by exact T2. assert ((Rabs a + vnorm v) * vnorm x <= A * N) by (apply Rmult_le_compat; lra).
    replace (m * Rabs a * vnorm x + m * vnorm (vcross v x)) with (m * (Rabs a * vnorm x + vnorm (vcross v x))) by ring. rewrite Rmult_assoc.
    apply Rmult_le_compat_l; lra. }
  assert (P2 : Rabs b * vnorm xL <= C * N).
  { destruct useAng; [apply Rmult_le_compat; auto; lra|]. rewrite (HX eq_refl), vnorm_zero, (HC eq_refl). lra. }
  lra.
Qed.
Definition lin_form (m : R) (g : vec3) (wu : wp6 * wp6) (a : R) (v : vec3) (b : R) : Prop :=
  forall h x xL, dot6 h (z_pt m g x xL wu) - dot6 h (z_pt m g vzero vzero wu) = dot6 h (vscal (m * a) x, vadd (vscal m (vcross v x)) (vscal b xL)).
Lemma form_split m g w u a v b :
  (forall x, v6sub (ev_w6 w vzero) (ev_w6 w x) = (vscal a x, vcross v x)) ->
  (forall x, v6sub (ev_w6 u vzero) (ev_w6 u x) = (vzero, vscal b x)) -> lin_form m g (w, u) a v b.
Proof.
  intros Hw Hu h x xL. specialize (Hw x). specialize (Hu xL). unfold z_pt; cbn [fst snd].
  destruct (ev_w6 w x) as [[a1 a2 a3] [a4 a5 a6]], (ev_w6 w vzero) as [[b1 b2 b3] [b4 b5 b6]], (ev_w6 u xL) as [[d1 d2 d3] [d4 d5 d6]], (ev_w6 u vzero) as [[e1 e2 e3] [e4 e5 e6]].
  destruct (vcross v x) as [x1 x2 x3]. destruct x as [y1 y2 y3], xL as [z1 z2 z3], g as [g1 g2 g3], h as [[h1 h2 h3] [h4 h5 h6]].
  unfold v6sub, vsub, vscal, vzero in Hw, Hu; cbn [fst snd vx vy vz] in Hw, Hu. injection Hw as W1 W2 W3 W4 W5 W6. injection Hu as U1 U2 U3 U4 U5 U6.
  unfold dot6, v6sub, v6_scal, vsub, vadd, vscal, vdot, vzero; cbn [fst snd vx vy vz].
  rewrite <- W4, <- W5, <- W6, <- U4, <- U5, <- U6. rewrite !Rmult_assoc, <- W1, <- W2, <- W3.
  replace d1 with e1 by lra. replace d2 with e2 by lra. replace d3 with e3 by lra. ring.
Qed.
Ltac wform := intros [x1 x2 x3]; unfold z_w0, z_w1, z_w2, z_w3, z_w4, z_u0, z_u1, z_u2, z_u3, z_u4, w6_zero, mx3, ev_w6, v6sub;
  cbn [fst snd w_top w_bot w_head w_tail]; f_equal; apply v3_eq; zunf; field.
Lemma w0_form p0 p1 g al x : v6sub (ev_w6 (z_w0 p0 p1 g al) vzero) (ev_w6 (z_w0 p0 p1 g al) x) = (vscal (- (6 * al)) x, vcross (vscal (- (6 * al)) p0) x).
Proof. revert x. destruct p0, p1, g. wform. Qed.
Lemma w1_form p0 p1 g al x : v6sub (ev_w6 (z_w1 p0 p1 g al) vzero) (ev_w6 (z_w1 p0 p1 g al) x) = (vscal (- (3 * al)) x, vcross (vadd (vscal (3 / 2 * al) p0) (vscal (- (9 / 2 * al)) p1)) x).
Proof. revert x. destruct p0, p1, g. wform. Qed.
Lemma w2_form p0 p1 g al x : v6sub (ev_w6 (z_w2 p0 p1 g al) vzero) (ev_w6 (z_w2 p0 p1 g al) x) = (vscal (0) x, vcross (vadd (vadd (vscal (3 * al) p0) (vscal (- (3 * al)) p1)) (vscal (- (1 / 2)) g)) x).
Proof. revert x. destruct p0, p1, g. wform. Qed.
Lemma w3_form p0 p1 g al x : v6sub (ev_w6 (z_w3 p0 p1 g al) vzero) (ev_w6 (z_w3 p0 p1 g al) x) = (vscal (3 * al) x, vcross (vadd (vadd (vscal (3 / 2 * al) p0) (vscal (3 / 2 * al) p1)) (vscal (-1) g)) x).
Proof. revert x. destruct p0, p1, g. wform. Qed.
Lemma w4_form p0 p1 g al x : v6sub (ev_w6 (z_w4 p0 p1 g al) vzero) (ev_w6 (z_w4 p0 p1 g al) x) = (vscal (6 * al) x, vcross (vadd (vscal (6 * al) p1) (vscal (-1) g)) x).
Proof. revert x. destruct p0, p1, g. wform. Qed.
Lemma u0_form l0 be x : v6sub (ev_w6 (z_u0 l0 be) vzero) (ev_w6 (z_u0 l0 be) x) = (vzero, vscal (- (3 * be)) x).
Proof. revert x. destruct l0. wform. Qed.
Lemma u1_form l0 be x : v6sub (ev_w6 (z_u1 l0 be) vzero) (ev_w6 (z_u1 l0 be) x) = (vzero, vscal (0) x).
Proof. revert x. destruct l0. wform. Qed.
Lemma u2_form l0 be x : v6sub (ev_w6 (z_u2 l0 be) vzero) (ev_w6 (z_u2 l0 be) x) = (vzero, vscal (3 / 2 * be) x).
Proof. revert x. destruct l0. wform. Qed.
Lemma u3_form l0 be x : v6sub (ev_w6 (z_u3 l0 be) vzero) (ev_w6 (z_u3 l0 be) x) = (vzero, vscal (3 / 2 * be) x).
Proof. revert x. destruct l0. wform. Qed.
Lemma u4_form l0 be x : v6sub (ev_w6 (z_u4 l0 be) vzero) (ev_w6 (z_u4 l0 be) x) = (vzero, vscal (0) x).
Proof. revert x. destruct l0. wform. Qed.
Lemma u_zero x : v6sub (ev_w6 w6_zero vzero) (ev_w6 w6_zero x) = (vzero, vscal 0 x).
Proof. revert x. wform. Qed.

Section Five.
  Variables (m M T : R) (g p0 p1 l0 : vec3).
  Hypothesis Hm : 0 <= m.
  Hypothesis HT : 0 < T.
  Hypothesis H0 : vnorm p0 <= M.
  Hypothesis H1 : vnorm p1 <= M.
  Let al := 1 / (T * T).
  Let be := 1 / T.
  Let A := 6 * (1 + M) * al + vnorm g.
  Let Hal : 0 < al. Proof. unfold al. apply Rdiv_lt_0_compat; [lra|]. apply Rmult_lt_0_compat; exact HT. Qed.
  Let Hbe : 0 < be. Proof. unfold be. apply Rdiv_lt_0_compat; lra. Qed.
  Let HM : 0 <= M. Proof. pose proof (vnorm_ge p0). lra. Qed.
  Let Hg := vnorm_ge g.
  Lemma lin2 a b u v : vnorm (vadd (vscal a u) (vscal b v)) <= Rabs a * vnorm u + Rabs b * vnorm v.
  Proof. rewrite <- !vnorm_scal. apply vnorm_triang. Qed.
  Lemma A_ge a v k : Rabs a <= 6 * al -> vnorm v <= k * (al * M) + vnorm g -> k <= 6 -> Rabs a + vnorm v <= A.
  Proof.
    intros Ha Hv Hk. unfold A. assert (0 <= al * M) by (apply Rmult_le_pos; lra).
    assert (k * (al * M) <= 6 * (al * M)) by (apply Rmult_le_compat_r; lra). lra.
  Qed.
  Let w0a : Rabs (- (6 * al)) <= 6 * al. Proof. rewrite Rabs_Ropp, Rabs_pos_eq; lra. Qed.
  Let w1a : Rabs (- (3 * al)) <= 6 * al. Proof. rewrite Rabs_Ropp, Rabs_pos_eq; lra. Qed.
  Let w2a : Rabs 0 <= 6 * al. Proof. rewrite Rabs_R0; lra. Qed.
  Let w3a : Rabs (3 * al) <= 6 * al. Proof. rewrite Rabs_pos_eq; lra. Qed.
  Let w4a : Rabs (6 * al) <= 6 * al. Proof. rewrite Rabs_pos_eq; lra. Qed.
  Let v0 := vscal (- (6 * al)) p0.
  Let v1 := vadd (vscal (3 / 2 * al) p0) (vscal (- (9 / 2 * al)) p1).
  Let v2 := vadd (vadd (vscal (3 * al) p0) (vscal (- (3 * al)) p1)) (vscal (- (1 / 2)) g).
  Let v3 := vadd (vadd (vscal (3 / 2 * al) p0) (vscal (3 / 2 * al) p1)) (vscal (-1) g).
  Let v4 := vadd (vscal (6 * al) p1) (vscal (-1) g).
  Let scl k p : vnorm p <= M -> Rabs k * vnorm p <= Rabs k * M.
  Proof. intros Hp. apply Rmult_le_compat_l; [apply Rabs_pos|exact Hp]. Qed.
  Let ab k : 0 <= k -> Rabs (- k) = k. Proof. intros. rewrite Rabs_Ropp. apply Rabs_pos_eq. assumption. Qed.
  Lemma v0_le : vnorm v0 <= 6 * (al * M) + vnorm g.
  Proof. unfold v0. rewrite vnorm_scal. pose proof (scl (- (6 * al)) p0 H0) as S. rewrite (ab (6 * al)) in * by lra. lra. Qed.
  Lemma v1_le : vnorm v1 <= 6 * (al * M) + vnorm g.
  Proof.
    unfold v1. eapply Rle_trans; [apply lin2|]. pose proof (scl (3 / 2 * al) p0 H0) as S1. pose proof (scl (- (9 / 2 * al)) p1 H1) as S2.
    rewrite (ab (9 / 2 * al)), (Rabs_pos_eq (3 / 2 * al)) in * by lra. lra.
  Qed.
  Lemma v2_le : vnorm v2 <= 6 * (al * M) + vnorm g.
  Proof.
    unfold v2. eapply Rle_trans; [apply vnorm_triang|]. pose proof (lin2 (3 * al) (- (3 * al)) p0 p1) as L. rewrite (vnorm_scal (- (1 / 2)) g).
    pose proof (scl (3 * al) p0 H0) as S1. pose proof (scl (- (3 * al)) p1 H1) as S2.
    rewrite (ab (1 / 2)), (ab (3 * al)), (Rabs_pos_eq (3 * al)) in * by lra. lra.
  Qed.
  Lemma v3_le : vnorm v3 <= 6 * (al * M) + vnorm g.
  Proof.
    unfold v3. eapply Rle_trans; [apply vnorm_triang|]. pose proof (lin2 (3 / 2 * al) (3 / 2 * al) p0 p1) as L. rewrite (vnorm_scal (-1) g).
    pose proof (scl (3 / 2 * al) p0 H0) as S1. pose proof (scl (3 / 2 * al) p1 H1) as S2.
    rewrite (Rabs_left (-1)), (Rabs_pos_eq (3 / 2 * al)) in * by lra. assert (0 <= al * M) by (apply Rmult_le_pos; lra). lra.
  Qed.
  Lemma v4_le : vnorm v4 <= 6 * (al * M) + vnorm g.
  Proof.
    unfold v4. eapply Rle_trans; [apply lin2|]. pose proof (scl (6 * al) p1 H1) as S1.
    rewrite (Rabs_left (-1)), (Rabs_pos_eq (6 * al)) in * by lra. lra.
  Qed.
  Lemma steep_five (useAng : bool) : let C := if useAng then 3 / T else 0 in
    Forall (steep useAng m g (m * A + C)) (combine (z_ws p0 p1 g al) (if useAng then z_us l0 be else z_us0)).
  Proof.
    assert (B1 : Rabs (- (3 * be)) <= 3 / T) by (rewrite (ab (3 * be)); unfold be in *; lra).
    assert (B2 : Rabs (3 / 2 * be) <= 3 / T) by (rewrite Rabs_pos_eq; unfold be in *; lra).
    assert (B0 : Rabs 0 <= 3 / T) by (rewrite Rabs_R0; unfold be in *; lra).
    destruct useAng; unfold z_ws, z_us, z_us0; cbn [repeat combine]; cbv zeta.
    - apply Forall_cons; [apply (steep_form true m g _ (- (6 * al)) v0 (- (3 * be)) A (3 / T) Hm); [apply form_split; [apply w0_form|apply u0_form]|apply (A_ge _ _ 6 w0a v0_le); lra|auto|discriminate]|].
      apply Forall_cons; [apply (steep_form true m g _ (- (3 * al)) v1 0 A (3 / T) Hm); [apply form_split; [apply w1_form|apply u1_form]|apply (A_ge _ _ 6 w1a v1_le); lra|auto|discriminate]|].
      apply Forall_cons; [apply (steep_form true m g _ 0 v2 (3 / 2 * be) A (3 / T) Hm); [apply form_split; [apply w2_form|apply u2_form]|apply (A_ge _ _ 6 w2a v2_le); lra|auto|discriminate]|].
      apply Forall_cons; [apply (steep_form true m g _ (3 * al) v3 (3 / 2 * be) A (3 / T) Hm); [apply form_split; [apply w3_form|apply u3_form]|apply (A_ge _ _ 6 w3a v3_le); lra|auto|discriminate]|].
      apply Forall_cons; [apply (steep_form true m g _ (6 * al) v4 0 A (3 / T) Hm); [apply form_split; [apply w4_form|apply u4_form]|apply (A_ge _ _ 6 w4a v4_le); lra|auto|discriminate]|].
      constructor.
    - apply Forall_cons; [apply (steep_form false m g _ (- (6 * al)) v0 0 A 0 Hm); [apply form_split; [apply w0_form|apply u_zero]|apply (A_ge _ _ 6 w0a v0_le); lra|discriminate|auto]|].
      apply Forall_cons; [apply (steep_form false m g _ (- (3 * al)) v1 0 A 0 Hm); [apply form_split; [apply w1_form|apply u_zero]|apply (A_ge _ _ 6 w1a v1_le); lra|discriminate|auto]|].
      apply Forall_cons; [apply (steep_form false m g _ 0 v2 0 A 0 Hm); [apply form_split; [apply w2_form|apply u_zero]|apply (A_ge _ _ 6 w2a v2_le); lra|discriminate|auto]|].
      apply Forall_cons; [apply (steep_form false m g _ (3 * al) v3 0 A 0 Hm); [apply form_split; [apply w3_form|apply u_zero]|apply (A_ge _ _ 6 w3a v3_le); lra|discriminate|auto]|].
      apply Forall_cons; [apply (steep_form false m g _ (6 * al) v4 0 A 0 Hm); [apply form_split; [apply w4_form|apply u_zero]|apply (A_ge _ _ 6 w4a v4_le); lra|discriminate|auto]|].
      constructor.
  Qed.
End Five.

Lemma steep_comb useAng m g B ws us u : length ws = 5%nat -> length us = 5%nat -> 0 <= u <= 1 ->
  Forall (steep useAng m g B) (combine ws us) -> steep useAng m g B (z_comb ws u, z_comb us u).
Proof.
  intros L1 L2 Hu HF h x xL HX. rewrite !z_comb_pt by assumption. rewrite !dot6_curve6, !map_map.
  match goal with |- ?a - ?b <= _ => replace (a - b) with (1 * a + (-1) * b) by ring end. rewrite <- bezl_comb.
  apply bezl_le; [|lra|].
  - destruct ws; [discriminate|]. destruct us; [discriminate|]. cbn. discriminate.
  - rewrite Forall_map. eapply Forall_impl; [|exact HF]. intros wu S. specialize (S h x xL HX). cbv beta in S |- *. lra.
Qed.

(** * Rows *)
Lemma z_row_list_vec useAng r : z_row_list useAng r = z_vec useAng (zr_x r) (zr_l r).
Proof. destruct useAng; reflexivity. Qed.
Lemma z_vec_dot useAng x xL y yL : rdot (z_vec useAng x xL) (z_vec useAng y yL) = vdot x y + if useAng then vdot xL yL else 0.
Proof. destruct useAng; cbn [z_vec]; [apply rdot_l6|rewrite rdot_l3; ring]. Qed.
Lemma z_vec_zero useAng a b : rdot (z_vec useAng a b) (z_vec useAng vzero vzero) = 0.
Proof. rewrite z_vec_dot. destruct useAng; unfold vdot, vzero; cbn; ring. Qed.
Lemma steep_row (useAng : bool) m g B wu (Hh : v6 * R) : fst Hh <> (vzero, vzero) -> (useAng = false -> snd wu = w6_zero) -> 0 <= B ->
  steep useAng m g B wu -> let r := z_row_list useAng (z_row useAng m g wu (z_h Hh)) in rdot r r <= B * B.
Proof.
  intros Hne Hu HB S r. pose proof (norm6_pos _ Hne) as Hn. set (zr := z_row useAng m g wu (z_h Hh)) in *.
  pose (x := zr_x zr). pose (xL := if useAng then zr_l zr else vzero).
  assert (Er : r = z_vec useAng x xL) by (unfold r, x, xL; rewrite z_row_list_vec; destruct useAng; reflexivity).
  pose proof (z_row_val useAng m g wu Hh x xL Hu) as E1. pose proof (z_row_val useAng m g wu Hh vzero vzero Hu) as E0.
  fold zr in E1, E0. fold r in E1, E0. rewrite Er, z_vec_zero in E0. rewrite Er in E1.
  specialize (S (fst Hh) x xL). assert (HX : useAng = false -> xL = vzero) by (intros EA; unfold xL; rewrite EA; reflexivity). specialize (S HX).
  assert (EN : rdot r r = norm6 (x, xL) * norm6 (x, xL)).
  { rewrite norm6_sq, Er, z_vec_dot. unfold dot6; cbn [fst snd]. f_equal. destruct useAng; [reflexivity|]. rewrite (HX eq_refl). unfold vdot, vzero; cbn; ring. }
  rewrite EN. rewrite Er in EN. rewrite EN in E1. set (N := norm6 (x, xL)) in *. assert (HN : 0 <= N) by apply norm6_ge.
  set (d1 := dot6 (fst Hh) (z_pt m g x xL wu)) in *. set (d0 := dot6 (fst Hh) (z_pt m g vzero vzero wu)) in *. set (k := norm6 (fst Hh)) in *.
  assert (V : N * N = / k * (d1 - d0)) by lra. assert (W : / k * (d1 - d0) <= / k * (k * (B * N))).
  { apply Rmult_le_compat_l; [apply Rlt_le, Rinv_0_lt_compat; exact Hn|exact S]. }
  replace (/ k * (k * (B * N))) with (B * N) in W by (field; lra).
  assert (N <= B) by (destruct (Req_dec N 0) as [->|]; [exact HB|]; nra). nra.
Qed.
Lemma z_row_near (useAng : bool) m g wu (Hh : v6 * R) x xL tau : fst Hh <> (vzero, vzero) -> (useAng = false -> snd wu = w6_zero) ->
  rdot (z_row_list useAng (z_row useAng m g wu (z_h Hh))) (z_vec useAng x xL) <= zr_b (z_row useAng m g wu (z_h Hh)) + tau ->
  dot6 (fst Hh) (z_pt m g x xL wu) <= tau * norm6 (fst Hh).
Proof.
  intros Hne Hu Hr. pose proof (norm6_pos _ Hne) as Hn. pose proof (z_row_val useAng m g wu Hh x xL Hu) as E.
  set (d := dot6 _ _) in *. set (k := norm6 (fst Hh)) in *. assert (V : / k * d <= tau) by lra.
  apply Rmult_le_compat_l with (r := k) in V; [|lra]. replace (k * (/ k * d)) with d in V by (field; lra). lra.
Qed.

Definition tail_rel (tau : R) (r r' : zrow) : Prop :=
  zr_x r' = zr_x r /\ zr_l r' = zr_l r /\ (zr_b r' = zr_b r + tau \/ r' = zrow0).
Lemma forall2_firstn {A B} (P : A -> B -> Prop) l l' : Forall2 P l l' -> forall n, Forall2 P (firstn n l) (firstn n l').
Proof. induction 1; intros [|n]; cbn; constructor; auto. Qed.
Lemma forall2_skipn {A B} (P : A -> B -> Prop) l l' : Forall2 P l l' -> forall n, Forall2 P (skipn n l) (skipn n l').
Proof. induction 1; intros [|n]; cbn; auto. Qed.
Lemma tail_loosen useAng tau ct : Forall2 (tail_rel tau) (z_tail useAng ct) (z_tail useAng (loosen tau ct)).
Proof.
  unfold z_tail, loosen; cbn [cd_kin cd_Kin cd_ang]. rewrite map_length. set (K := firstn (length (cd_kin ct)) (cd_Kin ct)).
  set (na := if useAng then length (cd_ang ct) else 0%nat).
  set (f0 := fun Kk : vec3 * R => ZRow (fst Kk) vzero (snd Kk)).
  assert (F0 : Forall2 (tail_rel tau) (map f0 (combine K (cd_kin ct)) ++ repeat zrow0 na)
                 (map f0 (combine K (map (fun k => k + tau) (cd_kin ct))) ++ repeat zrow0 na)).
  { apply Forall2_app.
    - generalize (cd_kin ct). induction K as [|a K' IH]; intros [|k l]; cbn; constructor; auto. unfold f0, tail_rel; cbn. auto.
    - induction na; cbn; constructor; auto. unfold tail_rel; auto. }
  destruct useAng; [|exact F0]. apply Forall2_app; [apply forall2_firstn; exact F0|].
  apply (forall2_skipn _ _ _) with (n := na) in F0. generalize dependent (skipn na (map f0 (combine K (cd_kin ct)) ++ repeat zrow0 na)).
  generalize (skipn na (map f0 (combine K (map (fun k => k + tau) (cd_kin ct))) ++ repeat zrow0 na)).
  generalize (cd_kin ct). clear. induction K as [|a K IH]; intros [|k l] s' s F; cbn; try constructor.
  - destruct F; cbn; constructor.
    + destruct H as (H1 & H2 & _). unfold tail_rel; cbn. auto.
    + apply IH. exact F.
Qed.
Lemma forall2_in_r {A B} (P : A -> B -> Prop) l l' b : Forall2 P l l' -> In b l' -> exists a, In a l /\ P a b.
Proof. induction 1; intros HI; [destruct HI|]. destruct HI as [<-|HI]; [exists x; cbn; auto|]. destruct (IHForall2 HI) as (a & Ha & Pa). exists a. cbn. auto. Qed.
Lemma tail_near useAng tau ct x xL : (forall r, In r (z_tail useAng ct) -> rdot (z_row_list useAng r) (z_vec useAng x xL) <= zr_b r + tau) ->
  Forall (z_sat useAng x xL) (z_tail useAng (loosen tau ct)).
Proof.
  intros H. apply Forall_forall. intros r' Hr'. destruct (forall2_in_r _ _ _ _ (tail_loosen useAng tau ct) Hr') as (r & Hr & E1 & E2 & [E3|E3]).
  - specialize (H r Hr). unfold z_sat. replace (z_row_list useAng r') with (z_row_list useAng r) by (unfold z_row_list; rewrite E1, E2; reflexivity). lra.
  - subst r'. unfold z_sat. rewrite z_row_list_vec. cbn [zr_b zrow0]. rewrite z_vec_dot. cbn [zr_x zr_l zrow0]. destruct useAng; unfold vdot, vzero; cbn; lra.
Qed.
Lemma tail_row useAng ct r : In r (z_tail useAng ct) ->
  (zr_x r = vzero \/ In (zr_x r) (cd_Kin ct)) /\ (zr_l r = vzero \/ In (zr_l r) (cd_Kin ct)).
Proof.
  unfold z_tail. set (K := firstn (length (cd_kin ct)) (cd_Kin ct)). set (na := if useAng then length (cd_ang ct) else 0%nat).
  set (t0 := map _ (combine K (cd_kin ct)) ++ repeat zrow0 na).
  assert (HK : forall a, In a (combine K (cd_kin ct)) -> In (fst a) (cd_Kin ct)).
  { intros [a k] Ha. apply in_combine_l in Ha. cbn. unfold K in Ha. rewrite <- (firstn_skipn (length (cd_kin ct)) (cd_Kin ct)). apply in_or_app. auto. }
  assert (T0 : forall r, In r t0 -> (zr_x r = vzero \/ In (zr_x r) (cd_Kin ct)) /\ (zr_l r = vzero \/ In (zr_l r) (cd_Kin ct))).
  { intros r' Hr. apply in_app_or in Hr. destruct Hr as [Hr|Hr].
    - apply in_map_iff in Hr. destruct Hr as (a & <- & Ha). cbn. split; [right; apply HK, Ha|auto].
    - apply repeat_spec in Hr. subst r'. cbn. auto. }
  destruct useAng; [|apply T0]. intros Hr. apply in_app_or in Hr. destruct Hr as [Hr|Hr].
  - apply T0. rewrite <- (firstn_skipn na t0). apply in_or_app. auto.
  - apply in_map_iff in Hr. destruct Hr as ([a s] & <- & Ha). cbn. pose proof (in_combine_l _ _ _ _ Ha) as HA. pose proof (in_combine_r _ _ _ _ Ha) as HS.
    split; [|right; apply HK, HA]. apply T0. rewrite <- (firstn_skipn na t0). apply in_or_app. auto.
Qed.

(** * The Hessian *)
Lemma z_H_sym useAng i j : (i < z_dim useAng)%nat -> (j < z_dim useAng)%nat -> mat_of (z_H useAng) i j = mat_of (z_H useAng) j i.
Proof.
  unfold z_dim, mat_of, z_H. destruct useAng; intros Hi Hj.
  - do 6 (destruct i as [|i]; [do 6 (destruct j as [|j]; [reflexivity|]); lia|]). lia.
  - do 3 (destruct i as [|i]; [do 3 (destruct j as [|j]; [reflexivity|]); lia|]). lia.
Qed.
Lemma z_H_bound useAng v : length v = z_dim useAng -> z_weight useAng * rdot v v <= quad (z_H useAng) v.
Proof.
  unfold z_dim, z_H, z_weight, quad. destruct useAng; intros HL.
  - destruct v as [|a [|b [|c [|d [|e [|f [|]]]]]]]; try discriminate. cbn -[Rmult Rdiv].
    pose proof (Rle_0_sqr d). pose proof (Rle_0_sqr e). pose proof (Rle_0_sqr f). unfold Rsqr in *. lra.
  - destruct v as [|a [|b [|c [|]]]]; try discriminate. cbn -[Rmult Rdiv]. lra.
Qed.
Lemma z_H_len useAng : length (z_H useAng) = z_dim useAng /\ Forall (fun r => length r = z_dim useAng) (z_H useAng).
Proof. destruct useAng; split; try reflexivity; repeat constructor. Qed.
Lemma z_g_len useAng c l : length (z_g useAng c l) = z_dim useAng. Proof. destruct useAng; reflexivity. Qed.
Lemma z_weight_pos useAng : 0 < z_weight useAng. Proof. unfold z_weight. destruct useAng; lra. Qed.
Lemma z_accuracy useAng n : accuracy (z_dim useAng) n (trace (z_dim useAng) (mat_of (z_H useAng))) (z_weight useAng) = z_tol useAng n.
Proof.
  unfold accuracy, z_tol, trace, z_weight, z_dim, mat_of, z_H. destruct useAng; cbn [sumf nth].
  - replace (sqrt (1 / 10000)) with (1 / 100); [cbn [INR]; unfold z_weight; field|]. symmetry. replace (1 / 10000) with (1 / 100 * (1 / 100)) by field. apply sqrt_square. lra.
  - rewrite sqrt_1. cbn [INR]. field.
Qed.
Lemma z_eps useAng : eps52 < z_weight useAng.
Proof. unfold z_weight, eps52. destruct useAng; cbn -[IZR]; lra. Qed.
