(** The fixed control points of the ten flags. *)
From Flocq Require Import Core BinarySingleNaN.
From Coq Require Import List Lia Lra Psatz.
From Verif Require Import Vec SpecBezier ModelData ModelWaypoints ModelWaypointsJerk ModelDispatch ModelEff SpecCom SpecEff Double ModelPtsDouble SpecDouble SpecPtsDouble
  ProofDouble ProofPtsDouble ProofPtsDouble2 ProofPtsDouble3 ProofCurve ProofWaypoints.
Import ListNotations.
Open Scope R_scope.

Lemma ints : B2R (of_Z 3) = 3 /\ B2R (of_Z 4) = 4 /\ B2R (of_Z 5) = 5 /\ B2R (of_Z 6) = 6 /\ B2R (of_Z 8) = 8 /\ B2R (of_Z 10) = 10 /\ B2R (of_Z 12) = 12.
Proof. repeat split; apply of_Z_val; lia. Qed.
Lemma two_factors n m : fmul (of_Z n) (fsub (of_Z n) (of_Z 1)) = of_Z m -> (Z.abs m <= 2 ^ 53)%Z -> B2R (fmul (of_Z n) (fsub (of_Z n) (of_Z 1))) = IZR m.
Proof. intros -> H. apply of_Z_val, H. Qed.
Ltac fval := apply B2SF_inj; vm_compute; reflexivity.
Lemma m2_3 : B2R (fmul (of_Z 3) (fsub (of_Z 3) (of_Z 1))) = 3 * (3 - 1).
Proof. rewrite (two_factors 3 6); [lra|fval|lia]. Qed.
Lemma m2_4 : B2R (fmul (of_Z 4) (fsub (of_Z 4) (of_Z 1))) = 4 * (4 - 1).
Proof. rewrite (two_factors 4 12); [lra|fval|lia]. Qed.
Lemma m2_5 : B2R (fmul (of_Z 5) (fsub (of_Z 5) (of_Z 1))) = 5 * (5 - 1).
Proof. rewrite (two_factors 5 20); [lra|fval|lia]. Qed.
Lemma m2_6 : B2R (fmul (of_Z 6) (fsub (of_Z 6) (of_Z 1))) = 6 * (6 - 1).
Proof. rewrite (two_factors 6 30); [lra|fval|lia]. Qed.
Lemma m2_8 : B2R (fmul (of_Z 8) (fsub (of_Z 8) (of_Z 1))) = 8 * (8 - 1).
Proof. rewrite (two_factors 8 56); [lra|fval|lia]. Qed.
Lemma m2_10 : B2R (fmul (of_Z 10) (fsub (of_Z 10) (of_Z 1))) = 10 * (10 - 1).
Proof. rewrite (two_factors 10 90); [lra|fval|lia]. Qed.
Lemma m2_12 : B2R (fmul (of_Z 12) (fsub (of_Z 12) (of_Z 1))) = 12 * (12 - 1).
Proof. rewrite (two_factors 12 132); [lra|fval|lia]. Qed.
Lemma three_factors n m : fmul (fmul (of_Z n) (fsub (of_Z n) (of_Z 1))) (fsub (of_Z n) (of_Z 2)) = of_Z m -> (Z.abs m <= 2 ^ 53)%Z ->
  B2R (fmul (fmul (of_Z n) (fsub (of_Z n) (of_Z 1))) (fsub (of_Z n) (of_Z 2))) = IZR m.
Proof. intros -> H. apply of_Z_val, H. Qed.
Lemma m3_8 : B2R (fmul (fmul (of_Z 8) (fsub (of_Z 8) (of_Z 1))) (fsub (of_Z 8) (of_Z 2))) = 8 * (8 - 1) * (8 - 2).
Proof. rewrite (three_factors 8 336); [lra|fval|lia]. Qed.
Lemma m3_10 : B2R (fmul (fmul (of_Z 10) (fsub (of_Z 10) (of_Z 1))) (fsub (of_Z 10) (of_Z 2))) = 10 * (10 - 1) * (10 - 2).
Proof. rewrite (three_factors 10 720); [lra|fval|lia]. Qed.
Lemma m3_12 : B2R (fmul (fmul (of_Z 12) (fsub (of_Z 12) (of_Z 1))) (fsub (of_Z 12) (of_Z 2))) = 12 * (12 - 1) * (12 - 2).
Proof. rewrite (three_factors 12 1320); [lra|fval|lia]. Qed.

(** vectors *)
Section V.
  Variables (T n m2 m3 : f64) (nr m2r m3r : R).
  Let t := B2R T.
  Hypotheses (FT : is_finite T = true) (T0 : 0 <= t) (TB : t <= 2 ^ 200).
  Hypotheses (Vn : B2R n = nr) (V2 : B2R m2 = m2r) (V3 : B2R m3 = m3r).
  Hypotheses (Hn : 3 <= nr) (H2 : 3 <= m2r) (H3 : 2 <= m3r).
  Variables (c d a j : fvec).
  Hypotheses (Hc : mild3 c) (Hd : mild3 d) (Ha : mild3 a) (Hj : mild3 j).
  Let e1 (ax : vec3 -> R) := pt_err t [ax (fv_R c); ax (fv_R d)].
  Let e2 (ax : vec3 -> R) := pt_err t [ax (fv_R c); ax (fv_R d); ax (fv_R a)].
  Let e3 (ax : vec3 -> R) := pt_err t [ax (fv_R c); ax (fv_R d); ax (fv_R a); ax (fv_R j)].
  Definition good (e : (vec3 -> R) -> R) (f : fvec) (q : vec3) : Prop := finite3 f /\ apart e (fv_R f) q.

  Ltac fcb := cbn [fv_R fv_add fv_sub fv_div fv_mul fv_scal fv_opp fx fy fz vx vy vz vadd vsub vdivs vscal vopp].
  Ltac one H := destruct H as [_ H]; fcb; match type of H with Rabs (_ - ?q) <= _ => match goal with |- Rabs (_ - ?q') <= _ =>
    replace q' with q; [exact H|rewrite ?Vn, ?V2, ?V3; fold t; unfold Rdiv; ring] end end.
  Ltac three X Y Z := split; [split; [apply X|split; [apply Y|apply Z]]|intros ax [->|[->| ->]]; [one X|one Y|one Z]].

  Lemma good_c (e : (vec3 -> R) -> R) : (forall ax, axis ax -> 0 <= e ax) -> good e c (fv_R c).
  Proof.
    intros He. split; [split; [apply Hc|split; apply Hc]|]. intros ax Hax. rewrite Rminus_diag_eq by reflexivity. rewrite Rabs_R0. apply He, Hax.
  Qed.
  Lemma v1_ok : good e1 (fv_add (fv_div (fv_mul d T) n) c) (vadd (vdivs (vscal t (fv_R d)) nr) (fv_R c)).
  Proof.
    destruct Hc as (Hcx & Hcy & Hcz), Hd as (Hdx & Hdy & Hdz). assert (Bn : 3 <= B2R n) by (rewrite Vn; exact Hn).
    pose proof (p1_err T n FT T0 TB Bn _ _ Hcx Hdx) as X. pose proof (p1_err T n FT T0 TB Bn _ _ Hcy Hdy) as Y. pose proof (p1_err T n FT T0 TB Bn _ _ Hcz Hdz) as Z.
    three X Y Z.
  Qed.
  Lemma w1_ok : good e1 (fv_add (fv_div (fv_mul (fv_opp d) T) n) c) (vadd (vdivs (vscal t (vopp (fv_R d))) nr) (fv_R c)).
  Proof.
    destruct Hc as (Hcx & Hcy & Hcz), Hd as (Hdx & Hdy & Hdz). assert (Bn : 3 <= B2R n) by (rewrite Vn; exact Hn).
    pose proof (q1_err T n FT T0 TB Bn _ _ Hcx Hdx) as X. pose proof (q1_err T n FT T0 TB Bn _ _ Hcy Hdy) as Y. pose proof (q1_err T n FT T0 TB Bn _ _ Hcz Hdz) as Z.
    cbv zeta in X, Y, Z. three X Y Z.
  Qed.
  Lemma v2_ok : good e2 (fv_add (fv_add (fv_div (fv_mul (fv_mul a T) T) m2) (fv_div (fv_mul (fv_scal (of_Z 2) d) T) n)) c)
    (vadd (vadd (vdivs (vscal t (vscal t (fv_R a))) m2r) (vdivs (vscal t (vscal 2 (fv_R d))) nr)) (fv_R c)).
  Proof.
    destruct Hc as (Hcx & Hcy & Hcz), Hd as (Hdx & Hdy & Hdz), Ha as (Hax & Hay & Haz). assert (Bn : 3 <= B2R n) by (rewrite Vn; exact Hn). assert (B2 : 3 <= B2R m2) by (rewrite V2; exact H2).
    pose proof (p2_err T n m2 FT T0 TB Bn B2 _ _ _ Hcx Hdx Hax) as X. pose proof (p2_err T n m2 FT T0 TB Bn B2 _ _ _ Hcy Hdy Hay) as Y.
    pose proof (p2_err T n m2 FT T0 TB Bn B2 _ _ _ Hcz Hdz Haz) as Z. cbv zeta in X, Y, Z. three X Y Z.
  Qed.
  Lemma w2_ok : good e2 (fv_add (fv_sub (fv_div (fv_mul (fv_mul a T) T) m2) (fv_div (fv_mul (fv_scal (of_Z 2) d) T) n)) c)
    (vadd (vsub (vdivs (vscal t (vscal t (fv_R a))) m2r) (vdivs (vscal t (vscal 2 (fv_R d))) nr)) (fv_R c)).
  Proof.
    destruct Hc as (Hcx & Hcy & Hcz), Hd as (Hdx & Hdy & Hdz), Ha as (Hax & Hay & Haz). assert (Bn : 3 <= B2R n) by (rewrite Vn; exact Hn). assert (B2 : 3 <= B2R m2) by (rewrite V2; exact H2).
    pose proof (q2_err T n m2 FT T0 TB Bn B2 _ _ _ Hcx Hdx Hax) as X. pose proof (q2_err T n m2 FT T0 TB Bn B2 _ _ _ Hcy Hdy Hay) as Y.
    pose proof (q2_err T n m2 FT T0 TB Bn B2 _ _ _ Hcz Hdz Haz) as Z. cbv zeta in X, Y, Z. three X Y Z.
  Qed.
  Lemma v3_ok : good e3 (fv_add (fv_add (fv_add (fv_div (fv_mul (fv_mul (fv_mul j T) T) T) m3) (fv_div (fv_mul (fv_mul (fv_scal (of_Z 3) a) T) T) m2)) (fv_div (fv_mul (fv_scal (of_Z 3) d) T) n)) c)
    (vadd (vadd (vadd (vdivs (vscal t (vscal t (vscal t (fv_R j)))) m3r) (vdivs (vscal t (vscal t (vscal 3 (fv_R a)))) m2r)) (vdivs (vscal t (vscal 3 (fv_R d))) nr)) (fv_R c)).
  Proof.
    destruct Hc as (Hcx & Hcy & Hcz), Hd as (Hdx & Hdy & Hdz), Ha as (Hax & Hay & Haz), Hj as (Hjx & Hjy & Hjz).
    assert (Bn : 3 <= B2R n) by (rewrite Vn; exact Hn). assert (B2 : 3 <= B2R m2) by (rewrite V2; exact H2). assert (B3 : 2 <= B2R m3) by (rewrite V3; exact H3).
    pose proof (p3_err T n m2 m3 FT T0 TB Bn B2 B3 _ _ _ _ Hcx Hdx Hax Hjx) as X. pose proof (p3_err T n m2 m3 FT T0 TB Bn B2 B3 _ _ _ _ Hcy Hdy Hay Hjy) as Y.
    pose proof (p3_err T n m2 m3 FT T0 TB Bn B2 B3 _ _ _ _ Hcz Hdz Haz Hjz) as Z. cbv zeta in X, Y, Z. three X Y Z.
  Qed.
  Lemma w3_ok : good e3 (fv_add (fv_sub (fv_add (fv_div (fv_mul (fv_mul (fv_mul (fv_opp j) T) T) T) m3) (fv_div (fv_mul (fv_mul (fv_scal (of_Z 3) a) T) T) m2)) (fv_div (fv_mul (fv_scal (of_Z 3) d) T) n)) c)
    (vadd (vsub (vadd (vdivs (vscal t (vscal t (vscal t (vopp (fv_R j))))) m3r) (vdivs (vscal t (vscal t (vscal 3 (fv_R a)))) m2r)) (vdivs (vscal t (vscal 3 (fv_R d))) nr)) (fv_R c)).
  Proof.
    destruct Hc as (Hcx & Hcy & Hcz), Hd as (Hdx & Hdy & Hdz), Ha as (Hax & Hay & Haz), Hj as (Hjx & Hjy & Hjz).
    assert (Bn : 3 <= B2R n) by (rewrite Vn; exact Hn). assert (B2 : 3 <= B2R m2) by (rewrite V2; exact H2). assert (B3 : 2 <= B2R m3) by (rewrite V3; exact H3).
    pose proof (q3_err T n m2 m3 FT T0 TB Bn B2 B3 _ _ _ _ Hcx Hdx Hax Hjx) as X. pose proof (q3_err T n m2 m3 FT T0 TB Bn B2 B3 _ _ _ _ Hcy Hdy Hay Hjy) as Y.
    pose proof (q3_err T n m2 m3 FT T0 TB Bn B2 B3 _ _ _ _ Hcz Hdz Haz Hjz) as Z. cbv zeta in X, Y, Z. three X Y Z.
  Qed.
End V.

(** the guard of the capture flag *)
Lemma rnd_0 : rnd 0 = 0.
Proof. apply round_0. apply valid_rnd_N. Qed.
Lemma fv_zero_R : fv_R fv_zero = vzero.
Proof. reflexivity. Qed.
