(** The plan returned for a zero-step problem (C25 - C28). *)
From Coq Require Import FunctionalExtensionality.
From Verif Require Import Vec SpecBezier ModelData ModelDispatch ModelUtils ModelRows ModelCom ModelNd ModelCont ModelSolver ModelTraj Model0Step
  SpecCom SpecWp SpecCtr SpecCont SpecSolver SpecTraj Spec0Step ProofBezier ProofCurve ProofWaypoints ProofWaypoints2 ProofWaypoints3 ProofRows ProofCom
  ProofNd ProofCont ProofCont3 ProofCont10 ProofSolver ProofTraj ProofTraj2 ProofTraj3 Proof0Step.
Open Scope R_scope.

(** ** Integrals of polynomials *)
Lemma ftc F f a b : a <= b -> (forall t, derivable_pt_lim F t (f t)) -> continuity f -> integral f a b (F b - F a).
Proof.
  intros Hab HF Hf.
  assert (D : derivable F) by (intros t; exists (f t); apply HF).
  assert (E : derive F D = f).
  { apply functional_extensionality. intros t. unfold derive. rewrite derive_pt_eq. apply HF. }
  assert (C : continuity (derive F D)) by (rewrite E; exact Hf).
  pose (FC := mkC1 C).
  assert (pr : Riemann_integrable f a b) by (apply continuity_implies_RiemannInt; [exact Hab|intros t _; apply Hf]).
  exists pr. assert (pr' : Riemann_integrable (derive FC (diff0 FC)) a b).
  { change (derive FC (diff0 FC)) with (derive F D). rewrite E. exact pr. }
  change (F b - F a) with (RiemannInt.c1 FC b - RiemannInt.c1 FC a). rewrite <- (FTC_Riemann FC pr').
  apply RiemannInt_P18; [exact Hab|]. intros t _. change (derive FC (diff0 FC)) with (derive F D). rewrite E. reflexivity.
Qed.
Lemma integral_ext f g a b v : (forall t, f t = g t) -> integral f a b v -> integral g a b v.
Proof. intros H. replace g with f by (apply functional_extensionality; exact H). auto. Qed.
Lemma integral_unique f a b v w : integral f a b v -> integral f a b w -> v = w.
Proof. intros (p & <-) (q & <-). apply RiemannInt_P5. Qed.

Lemma poly4 a0 a1 a2 a3 a4 T : 0 <= T ->
  integral (fun t => a0 + a1 * t + a2 * t ^ 2 + a3 * t ^ 3 + a4 * t ^ 4) 0 T
    (a0 * T + a1 / 2 * T ^ 2 + a2 / 3 * T ^ 3 + a3 / 4 * T ^ 4 + a4 / 5 * T ^ 5).
Proof.
  intros HT. pose (F := fun t => a0 * t + a1 / 2 * t ^ 2 + a2 / 3 * t ^ 3 + a3 / 4 * t ^ 4 + a4 / 5 * t ^ 5).
  replace (a0 * T + _ + _ + _ + _) with (F T - F 0) by (unfold F; ring). apply ftc; [exact HT| |].
  - intros t. unfold F.
    replace (a0 + a1 * t + a2 * t ^ 2 + a3 * t ^ 3 + a4 * t ^ 4) with
      (a0 * 1 + a1 / 2 * (INR 2 * t ^ 1) + a2 / 3 * (INR 3 * t ^ 2) + a3 / 4 * (INR 4 * t ^ 3) + a4 / 5 * (INR 5 * t ^ 4))
      by (cbn [INR]; field).
    repeat apply derivable_pt_lim_plus; try (apply (derivable_pt_lim_scal _ _ t), (derivable_pt_lim_pow t)).
    apply (derivable_pt_lim_scal _ a0 t), derivable_pt_lim_id.
  - apply derivable_continuous. intros t. reg.
Qed.

(** ** Angular momentum *)
(** rate of change: quadratic curve *)
Definition rate_pts (l0 : vec3) (T : R) (xL : vec3) : list vec3 := hodo_n 1 T [l0; xL; vzero; vzero].
Lemma rate_curve l0 T xL t : T <> 0 ->
  curve (hodo_n 1 T [l0; xL; vzero; vzero]) T t = vscal (1 / T) (curve [vscal 3 (vsub xL l0); vscal 3 (vopp xL); vzero] T t).
Proof.
  intros HT. hodo_vals. unfold curve. generalize (t / T). intros s. bez_norm. apply v3_eq; wsimp; field; exact HT.
Qed.
(** one coordinate of it *)
Definition rate1 (l x T t : R) : R := 3 / T * ((x - l) * (1 - t / T) ^ 2 - x * (2 * (t / T) * (1 - t / T))).
Lemma rate_curve1 l0 T xL t : T <> 0 ->
  curve (hodo_n 1 T [l0; xL; vzero; vzero]) T t =
  V3 (rate1 (vx l0) (vx xL) T t) (rate1 (vy l0) (vy xL) T t) (rate1 (vz l0) (vz xL) T t).
Proof.
  intros HT. rewrite rate_curve by exact HT. unfold curve, rate1. generalize (t / T). intros s. bez_norm. apply v3_eq; wsimp; field; exact HT.
Qed.
Lemma rate1_int l x T : 0 < T -> integral (rate1 l x T) 0 T (- l).
Proof.
  intros HT. eapply integral_ext; [|replace (- l) with ((3 / T * (x - l)) * T + (3 / T * (-2 / T * (x - l) - 2 / T * x)) / 2 * T ^ 2
     + (3 / T * ((x - l) / T ^ 2 + 2 / T ^ 2 * x)) / 3 * T ^ 3 + 0 / 4 * T ^ 4 + 0 / 5 * T ^ 5) by (field; lra); apply poly4; lra].
  intros t. unfold rate1. field. lra.
Qed.
Definition lsq (l x : R) : R := 1 / 5 * (9 * (l * l) - 9 * (l * x) + 6 * (x * x)).
Lemma rate_sq_int l0 xL T : 0 < T ->
  integral (fun t => vnorm2 (curve (hodo_n 1 T [l0; xL; vzero; vzero]) T t)) 0 T
    (/ T * (1 / 5 * (9 * vdot l0 l0 - 9 * vdot l0 xL + 6 * vdot xL xL))).
Proof.
  intros HT.
  pose (A := fun l x => 3 / T * (x - l)). pose (B := fun l x => 3 / T * (-2 / T * (x - l) - 2 / T * x)).
  pose (C := fun l x => 3 / T * ((x - l) / T ^ 2 + 2 / T ^ 2 * x)).
  pose (S := fun f : R -> R -> R => f (vx l0) (vx xL) + f (vy l0) (vy xL) + f (vz l0) (vz xL)).
  pose proof (poly4 (S (fun l x => A l x ^ 2)) (S (fun l x => 2 * A l x * B l x)) (S (fun l x => B l x ^ 2 + 2 * A l x * C l x))
    (S (fun l x => 2 * B l x * C l x)) (S (fun l x => C l x ^ 2)) T (Rlt_le _ _ HT)) as P.
  match type of P with integral _ _ _ ?v => replace v with (/ T * (1 / 5 * (9 * vdot l0 l0 - 9 * vdot l0 xL + 6 * vdot xL xL))) in P
    by (unfold S, A, B, C, vdot; field; lra) end.
  eapply integral_ext; [|exact P]. intros t. cbv beta. rewrite rate_curve1 by lra. unfold S, A, B, C, rate1, vnorm2, vdot; cbn [vx vy vz]. field. lra.
Qed.
Lemma momentum_ends l0 T xL : T <> 0 -> z_momentum l0 T xL 0 = l0 /\ z_momentum l0 T xL T = vzero.
Proof.
  intros HT. unfold z_momentum. split; [rewrite curve_at_0|rewrite curve_at_T by exact HT]; reflexivity.
Qed.
Lemma z_rate_unique useAng l0 T xL t d d' : z_rate useAng l0 T xL t d -> z_rate useAng l0 T xL t d' -> d = d'.
Proof.
  unfold z_rate. destruct useAng; [|congruence]. intros A B. exact (is_deriv_n_unique 1 _ _ t _ _ (fun _ => eq_refl) A B).
Qed.

(** ** Criterion *)
Definition z_value (useAng : bool) (c0 l0 x xL : vec3) : R :=
  z_weight useAng * vnorm2 (vsub x c0) + if useAng then 1 / 5 * (9 * vdot l0 l0 - 9 * vdot l0 xL + 6 * vdot xL xL) else 0.
Lemma z_criterion_iff pData T x xL v : 0 < T ->
  z_criterion pData T x xL v <-> v = z_value (useAngularMomentum pData) (c0 pData) (l0 pData) x xL.
Proof.
  intros HT. unfold z_criterion, z_value. split.
  - intros (d & i & Hd & Hi & ->). f_equal. destruct (useAngularMomentum pData).
    + assert (E : i = / T * (1 / 5 * (9 * vdot (l0 pData) (l0 pData) - 9 * vdot (l0 pData) xL + 6 * vdot xL xL))).
      { eapply integral_unique; [exact Hi|]. eapply integral_ext; [|apply rate_sq_int; exact HT]. intros t. cbv beta. f_equal.
        eapply z_rate_unique; [|apply Hd]. apply curve_is_deriv_n. }
      rewrite E. field. lra.
    + assert (E : i = 0); [|rewrite E; ring]. eapply integral_unique; [exact Hi|].
      replace 0 with (0 * T + 0 / 2 * T ^ 2 + 0 / 3 * T ^ 3 + 0 / 4 * T ^ 4 + 0 / 5 * T ^ 5) at 2 by field.
      eapply integral_ext; [|apply poly4; lra]. intros t. cbv beta. rewrite (Hd t). unfold vnorm2, vdot, vzero; cbn. ring.
  - intros ->. destruct (useAngularMomentum pData) eqn:EA.
    + exists (curve (hodo_n 1 T [l0 pData; xL; vzero; vzero]) T), (/ T * (1 / 5 * (9 * vdot (l0 pData) (l0 pData) - 9 * vdot (l0 pData) xL + 6 * vdot xL xL))).
      split; [|split; [apply rate_sq_int; exact HT|f_equal; field; lra]]. intros t. apply curve_is_deriv_n.
    + exists (fun _ => vzero), 0. split; [intros t; reflexivity|]. split; [|f_equal; ring].
      replace 0 with (0 * T + 0 / 2 * T ^ 2 + 0 / 3 * T ^ 3 + 0 / 4 * T ^ 4 + 0 / 5 * T ^ 5) at 2 by field.
      eapply integral_ext; [|apply poly4; lra]. intros t. cbv beta. unfold vnorm2, vdot, vzero; cbn. ring.
Qed.

Definition z_H (useAng : bool) : list (list R) :=
  let w := z_weight useAng in
  if useAng then
    [[w; 0; 0; 0; 0; 0]; [0; w; 0; 0; 0; 0]; [0; 0; w; 0; 0; 0];
     [0; 0; 0; 6 / 5; 0; 0]; [0; 0; 0; 0; 6 / 5; 0]; [0; 0; 0; 0; 0; 6 / 5]]
  else [[1; 0; 0]; [0; 1; 0]; [0; 0; 1]].
Definition z_g (useAng : bool) (c0 l0 : vec3) : list R :=
  if useAng then l3 (vscal (1 / 10000) (vopp c0)) ++ l3 (vscal (1 / 2) (vopp (vdivs (vscal 9 l0) 5))) else l3 (vscal 1 (vopp c0)).
Lemma z_cost_ok c0 l0 useAng : z_cost c0 l0 useAng = Ok (z_H useAng, z_g useAng c0 l0).
Proof.
  unfold z_cost. destruct useAng.
  - cbn -[Rmult Rdiv]. unfold z_H, z_g, z_weight. f_equal. f_equal. repeat (f_equal; try lra).
  - cbn -[Rmult Rdiv]. unfold z_H, z_g, z_weight. f_equal. f_equal. repeat (f_equal; try lra).
Qed.
Lemma z_quad useAng c0 l0 x xL : quad (z_H useAng) (z_vec useAng x xL) + 2 * rdot (z_g useAng c0 l0) (z_vec useAng x xL)
  + (z_weight useAng * vnorm2 c0 + if useAng then 9 / 5 * vnorm2 l0 else 0) = z_value useAng c0 l0 x xL.
Proof.
  unfold quad, z_H, z_g, z_vec, z_value, z_weight. destruct useAng, c0, l0, x, xL; unfold l3, vnorm2, vdot, vsub, vopp, vscal, vdivs; cbn -[Rmult Rdiv]; field.
Qed.
Lemma z_pd useAng v : length v = z_dim useAng -> v <> repeat 0 (z_dim useAng) -> 0 < quad (z_H useAng) v.
Proof.
  unfold z_dim, z_H, z_weight, quad. destruct useAng; intros HL NZ.
  - destruct v as [|a [|b [|c [|d [|e [|f [|]]]]]]]; try discriminate. cbn -[Rmult Rdiv].
    match goal with |- 0 < ?lhs => replace lhs with (1 / 10000 * (a * a + b * b + c * c) + 6 / 5 * (d * d + e * e + f * f)) by field end.
    assert (Q : forall y, 0 <= y * y) by (intros y; apply Rle_0_sqr). pose proof (Q a). pose proof (Q b). pose proof (Q c). pose proof (Q d). pose proof (Q e). pose proof (Q f).
    destruct (Req_dec (a * a + b * b + c * c + (d * d + e * e + f * f)) 0) as [E|E]; [|lra]. exfalso. apply NZ.
    cbn. repeat (f_equal; try (apply Rsqr_0_uniq; unfold Rsqr; lra)).
  - destruct v as [|a [|b [|c [|]]]]; try discriminate. cbn -[Rmult Rdiv].
    match goal with |- 0 < ?lhs => replace lhs with (a * a + b * b + c * c) by field end.
    assert (Q : forall y, 0 <= y * y) by (intros y; apply Rle_0_sqr). pose proof (Q a). pose proof (Q b). pose proof (Q c).
    destruct (Req_dec (a * a + b * b + c * c) 0) as [E|E]; [|lra]. exfalso. apply NZ.
    cbn. repeat (f_equal; try (apply Rsqr_0_uniq; unfold Rsqr; lra)).
Qed.

(** ** Optimal answer for a feasible problem of any size *)
Lemma solve_optX wg quadprog glpk (rows : list (list R * R)) H g init x : qp_solves quadprog ->
  Forall (fun r => length (fst r) = length init) rows ->
  (forall v, length v = length init -> v <> repeat 0 (length init) -> 0 < quad H v) ->
  length x = length init -> satX rows x -> exists x',
  solve_noeq wg quadprog glpk (MX (length init) (map fst rows)) (map snd rows) H g init SOLVER_QUADPROG
    = Ok (ResultData true (1 / 2 * quad H x' + rdot g x') x') /\
  length x' = length init /\ satX rows x' /\
  forall y, length y = length init -> satX rows y -> 1 / 2 * quad H x' + rdot g x' <= 1 / 2 * quad H y + rdot g y.
Proof.
  intros QO WR PD Lx Hx. set (n := length init) in *.
  destruct (c37_ok (MX n (map fst rows)) (map snd rows) (MX n []) [] H g init []) as (q & EH & Eg & HF & HE).
  { unfold mx_wf. cbn [mx_rows mx_cols]. rewrite Forall_map. exact WR. } { cbn [mx_rows]. now rewrite !map_length. } { left; reflexivity. }
  assert (HF' : forall y, length y = n -> (qp_feasible q y <-> satX rows y)).
  { intros y Ly. rewrite HF by exact Ly. rewrite leM_satX. unfold eqM, above; cbn [mx_rows]. split; [tauto|].
    intros S. split; [exact S|]. split; [constructor|left; reflexivity]. }
  destruct (QO q init) as (xs & Eq & Lxs & Fx & Ox).
  { intros v Lv NZ. rewrite EH. apply PD; assumption. }
  { exists x. split; [exact Lx|]. apply HF'; assumption. }
  exists xs. unfold solve_noeq. cbn [mx_cols]. rewrite HE, Eq. cbn [bind Z.eqb EIQUADPROG_FAST_OPTIMAL].
  unfold qp_value in *. rewrite EH, Eg in *.
  split; [reflexivity|]. split; [exact Lxs|]. split; [apply HF'; assumption|].
  intros y Ly Hy. apply (Ox y Ly). apply HF'; assumption.
Qed.

(** ** The answer *)
Lemma z_vec_len useAng x xL : length (z_vec useAng x xL) = z_dim useAng.
Proof. destruct useAng; reflexivity. Qed.
Lemma z_vec_all useAng v : length v = z_dim useAng -> exists x xL, v = z_vec useAng x xL.
Proof.
  destruct useAng; intros H.
  - destruct v as [|a [|b [|c [|d [|e [|f [|]]]]]]]; try discriminate. exists (V3 a b c), (V3 d e f). reflexivity.
  - destruct v as [|a [|b [|c [|]]]]; try discriminate. exists (V3 a b c), vzero. reflexivity.
Qed.
Lemma z_ineqs_fst useAng Ab : map fst (z_ineqs useAng Ab) = map (z_row_list useAng) Ab.
Proof. unfold z_ineqs. rewrite map_map. reflexivity. Qed.
Lemma z_ineqs_snd useAng Ab : map snd (z_ineqs useAng Ab) = map zr_b Ab.
Proof. unfold z_ineqs. rewrite map_map. reflexivity. Qed.
Lemma z_ineqs_len useAng Ab n : n = z_dim useAng -> Forall (fun r => length (fst r) = n) (z_ineqs useAng Ab).
Proof. intros ->. unfold z_ineqs. rewrite Forall_map. apply Forall_forall. intros r _. cbn [fst]. destruct useAng; reflexivity. Qed.

(** real cost *)
Definition z_reported (useAng : bool) (c0 l0 x xL : vec3) : R :=
  if useAng then 1 / 5 * (9 * vdot l0 l0 - 9 * vdot l0 xL + 6 * vdot xL xL) else vnorm (vsub c0 x).

Section Plan0.
  Variable wg : bool.
  Variable quadprog : qp -> list R -> outcome (Z * list R * R).
  Variable glpk : lp -> outcome (Z * R * list R).
  Variables (pData : problem) (Ts : list R) (ct : contact) (ph : cphase) (T dt : R).
  Hypothesis WP : z_posed pData Ts ct ph T.
  Let useAng := useAngularMomentum pData.
  Let init := if useAng then l3 (c0 pData) ++ l3 (l0 pData) else l3 (c0 pData).
  Lemma z_init_len : length init = z_dim useAng.
  Proof. unfold init. destruct useAng; reflexivity. Qed.

  (** the curves built from a successful answer *)
  Lemma z_build x xL : exists r,
    (cost <- computeRealCost pData (z_vec useAng x xL) ;;
     c <- z_C_of_T pData T (z_vec useAng x xL) ;;
     dL <- z_dL_of_T pData T (z_vec useAng x xL) ;;
     Ok (Result0 true cost (z_vec useAng x xL) c dL)) = Ok r /\ z_plan pData T r x xL /\
    r0_cost r = z_reported useAng (c0 pData) (l0 pData) x xL.
  Proof.
    destruct WP as (_ & _ & HT & _ & _).
    assert (EC : z_C_of_T pData T (z_vec useAng x xL) = Ok (BCurve [c0 pData; vadd (vdivs (vscal T (dc0 pData)) 3) (c0 pData); x; x] T)).
    { unfold z_C_of_T, z_vec. destruct useAng, x as [a b c]; cbn [l3 app head3 bind vx vy vz]; apply mk_bezier_ok; exact HT. }
    assert (EM : forall t, cv_fun (BCurve [c0 pData; vadd (vdivs (vscal T (dc0 pData)) 3) (c0 pData); x; x] T) t = z_motion (c0 pData) (dc0 pData) T x t).
    { intros t. unfold cv_fun, z_motion; cbn [bc_pts bc_T]. f_equal. f_equal. f_equal. unfold vadd, vdivs, vscal; cbn. f_equal; field. }
    unfold computeRealCost, z_dL_of_T, z_plan, z_reported. fold useAng. rewrite EC. unfold z_vec. destruct useAng.
    - destruct xL as [u v w]. cbn [l3 app tail3 length Nat.ltb Nat.leb Nat.sub skipn head3 bind vx vy vz].
      unfold nd_make. destruct (Rle_dec T 0); [lra|]. cbn [bind].
      eexists. split; [reflexivity|]. cbn [r0_success r0_x r0_c r0_dL r0_cost bc_T nd_min nd_max].
      split; [|reflexivity]. do 6 (split; [first [reflexivity|exact EM]|]). intros t. cbn [z_rate]. unfold dL_fun; cbn [nd_mult nd_pts nd_max nd_min].
      rewrite !Rminus_0_r. rewrite <- rate_curve by lra. apply curve_is_deriv_n.
    - destruct x as [u v w]. cbn [l3 app length Nat.eqb head3 bind vx vy vz].
      unfold nd_make. destruct (Rle_dec T 0); [lra|]. cbn [bind].
      eexists. split; [reflexivity|]. cbn [r0_success r0_x r0_c r0_dL r0_cost bc_T nd_min nd_max].
      split; [|reflexivity]. do 6 (split; [first [reflexivity|exact EM]|]). intros t. cbn [z_rate]. unfold dL_fun; cbn [nd_mult nd_pts nd_max nd_min].
      unfold curve. rewrite bez3_zero. unfold vscal, vzero; cbn. f_equal; ring.
  Qed.

  Lemma solve0_unfold Ab : compute6dControlPointInequalities ct (c0 pData) (dc0 pData) (l0 pData) useAng T dt = Ok Ab ->
    solve0step wg quadprog glpk pData Ts dt =
    (res <- solve_noeq wg quadprog glpk (MX (length init) (map fst (z_ineqs useAng Ab))) (map snd (z_ineqs useAng Ab))
              (z_H useAng) (z_g useAng (c0 pData) (l0 pData)) init SOLVER_QUADPROG ;;
     if rd_success res then
       cost <- computeRealCost pData (rd_x res) ;;
       c <- z_C_of_T pData T (rd_x res) ;;
       dL <- z_dL_of_T pData T (rd_x res) ;;
       Ok (Result0 true cost (rd_x res) c dL)
     else Ok default_result0).
  Proof.
    destruct WP as (Hc & HTs & _ & _ & _). intros E. unfold solve0step. rewrite Hc, HTs. cbn [get nth_error bind]. fold useAng.
    rewrite E. cbn [bind]. rewrite z_cost_ok. cbn [bind fst snd]. rewrite z_ineqs_fst, z_ineqs_snd, z_init_len. reflexivity.
  Qed.

  (** the constraints *)
  Lemma z_ineqs_ok : (z_no_steps T dt \/ exists N, z_steps T dt N) -> exists Ab,
    compute6dControlPointInequalities ct (c0 pData) (dc0 pData) (l0 pData) useAng T dt = Ok Ab /\
    forall x xL, satX (z_ineqs useAng Ab) (z_vec useAng x xL) <-> z_wrench_ok pData ph T dt x xL /\ z_geom useAng ct x xL.
  Proof.
    destruct WP as (Hc & HTs & HT & WF & Hph). intros HN.
    assert (D : z_no_steps T dt \/ exists N, z_steps T dt N /\ (1 <= N)%nat).
    { destruct HN as [H|(N & H)]; [left; exact H|]. destruct N as [|N]; [left; right; exact H|right]. exists (S N). split; [exact H|lia]. }
    clear HN. assert (U : forall N M, z_steps T dt N -> z_steps T dt M -> N = M).
    { intros N M (_ & [A B] & _) (_ & [C D'] & _). assert (INR N < INR (S M)) by (rewrite S_INR; lra). assert (INR M < INR (S N)) by (rewrite S_INR; lra).
      apply INR_lt in H, H0. lia. }
    destruct D as [H|(N & H & H1)].
    - destruct (z_exact useAng ct ph (c0 pData) (dc0 pData) (l0 pData) T WF Hph HT dt H) as (Ab & E & _ & HS). exists Ab. split; [exact E|].
      intros x xL. rewrite HS. apply and_iff_compat_r. unfold z_wrench_ok. fold useAng. split; [|tauto]. intros HC. split; [tauto|].
      intros M HM H1. exfalso. destruct H as [H|H]; [destruct HM; lra|]. rewrite (U M 0%nat HM H) in H1. lia.
    - destruct (z_exact_disc useAng ct ph (c0 pData) (dc0 pData) (l0 pData) T WF Hph HT dt N H H1) as (Ab & E & _ & HS). exists Ab. split; [exact E|].
      intros x xL. rewrite HS. apply and_iff_compat_r. unfold z_wrench_ok. fold useAng. split.
      + intros HC. split.
        * intros H0. exfalso. destruct H0 as [H0|H0]; [destruct H; lra|]. rewrite (U N 0%nat H H0) in H1. lia.
        * intros M HM HM1. rewrite (U M N HM H). exact HC.
      + intros [_ HC]. apply HC; assumption.
  Qed.

  Lemma z_answer r : qp_sound quadprog -> (z_no_steps T dt \/ exists N, z_steps T dt N) ->
    solve0step wg quadprog glpk pData Ts dt = Ok r ->
    (r0_success r = false /\ r = default_result0) \/
    exists x xL, z_plan pData T r x xL /\ z_wrench_ok pData ph T dt x xL /\ z_geom useAng ct x xL /\
      r0_cost r = z_reported useAng (c0 pData) (l0 pData) x xL.
  Proof.
    intros QS HN ES. destruct (z_ineqs_ok HN) as (Ab & E & HS). rewrite (solve0_unfold Ab E) in ES.
    destruct (solve_noeq _ _ _ _ _ _ _ _ _) as [res| |] eqn:ER; try discriminate ES. cbn [bind] in ES.
    destruct (rd_success res) eqn:Es; [|left; injection ES as <-; split; reflexivity]. right.
    unfold solve_noeq in ER. cbn [mx_cols] in ER.
    assert (QA : length (rd_x res) = z_dim useAng /\ satX (z_ineqs useAng Ab) (rd_x res)).
    { destruct (c37_ok (MX (length init) (map fst (z_ineqs useAng Ab))) (map snd (z_ineqs useAng Ab)) (MX (length init) []) []
        (z_H useAng) (z_g useAng (c0 pData) (l0 pData)) init []) as (q & _ & _ & HF & HE).
      { unfold mx_wf. cbn [mx_rows mx_cols]. rewrite Forall_map. apply z_ineqs_len, z_init_len. }
      { cbn [mx_rows]. now rewrite !map_length. } { left; reflexivity. }
      rewrite HE in ER. destruct (quadprog q init) as [[[st y] obj]| |] eqn:EQ; cbn in ER; try discriminate. injection ER as <-.
      cbn [rd_success rd_x] in *. destruct (Z.eqb_spec st EIQUADPROG_FAST_OPTIMAL) as [->|]; [|discriminate].
      cbn [rd_x].
      destruct (QS _ _ _ _ EQ) as [L F]. split; [rewrite L; apply z_init_len|].
      apply HF in F; [|exact L]. destruct F as (F1 & _). apply leM_satX in F1. exact F1. }
    destruct QA as [L S]. destruct (z_vec_all useAng _ L) as (x & xL & Ev). rewrite Ev in *. apply HS in S. destruct S as [S1 S2].
    destruct (z_build x xL) as (r' & Er & HP & HC). rewrite Er in ES. injection ES as <-. exists x, xL. auto.
  Qed.

  Lemma z_value_quad x xL y yL :
    1 / 2 * quad (z_H useAng) (z_vec useAng x xL) + rdot (z_g useAng (c0 pData) (l0 pData)) (z_vec useAng x xL) <=
    1 / 2 * quad (z_H useAng) (z_vec useAng y yL) + rdot (z_g useAng (c0 pData) (l0 pData)) (z_vec useAng y yL) ->
    z_value useAng (c0 pData) (l0 pData) x xL <= z_value useAng (c0 pData) (l0 pData) y yL.
  Proof. rewrite <- !z_quad. lra. Qed.

  Lemma z_best x xL : qp_solves quadprog -> (z_no_steps T dt \/ exists N, z_steps T dt N) ->
    z_wrench_ok pData ph T dt x xL -> z_geom useAng ct x xL -> exists r x' xL',
    solve0step wg quadprog glpk pData Ts dt = Ok r /\ z_plan pData T r x' xL' /\
    z_wrench_ok pData ph T dt x' xL' /\ z_geom useAng ct x' xL' /\
    forall y yL v v', z_wrench_ok pData ph T dt y yL -> z_geom useAng ct y yL ->
      z_criterion pData T x' xL' v' -> z_criterion pData T y yL v -> v' <= v.
  Proof.
    intros QO HN HW HG. destruct (z_ineqs_ok HN) as (Ab & E & HS). rewrite (solve0_unfold Ab E).
    destruct (solve_optX wg quadprog glpk (z_ineqs useAng Ab) (z_H useAng) (z_g useAng (c0 pData) (l0 pData)) init (z_vec useAng x xL) QO)
      as (z & Ez & Lz & Sz & Oz).
    { apply z_ineqs_len, z_init_len. } { rewrite z_init_len. apply z_pd. } { rewrite z_init_len. apply z_vec_len. } { apply HS. auto. }
    rewrite Ez. cbn [bind rd_success rd_x]. rewrite z_init_len in Lz. destruct (z_vec_all useAng z Lz) as (x' & xL' & ->).
    destruct (z_build x' xL') as (r & Er & HP & _). exists r, x', xL'. split; [exact Er|]. split; [exact HP|].
    apply HS in Sz. split; [apply Sz|]. split; [apply Sz|]. intros y yL v v' H1 H2 H3 H4.
    destruct WP as (_ & _ & HT & _ & _). rewrite z_criterion_iff in H3, H4 by exact HT. subst v v'.
    apply z_value_quad. apply Oz; [rewrite z_init_len; apply z_vec_len|]. apply HS. auto.
  Qed.

  (** ** What a plan is *)
  Lemma z_plan_ends r x xL : z_plan pData T r x xL ->
    cv_fun (r0_c r) 0 = c0 pData /\ is_deriv_n 1 (cv_fun (r0_c r)) 0 (dc0 pData) /\
    cv_fun (r0_c r) T = x /\ is_deriv_n 1 (cv_fun (r0_c r)) T vzero.
  Proof.
    destruct WP as (_ & _ & HT & _ & _). intros (_ & _ & _ & HF & _). rewrite !HF. unfold z_motion.
    split; [rewrite curve_at_0; reflexivity|]. split; [|split; [rewrite curve_at_T by lra; reflexivity|]].
    - eapply is_deriv_n_ext; [intros u; symmetry; apply HF|]. unfold z_motion. apply is_deriv_n_at_0. hodo_vals. apply v3_eq; wsimp; field; lra.
    - eapply is_deriv_n_ext; [intros u; symmetry; apply HF|]. unfold z_motion. apply is_deriv_n_at_T; [lra|]. hodo_vals. apply v3_eq; wsimp; field; lra.
  Qed.
  Lemma z_plan_stable r x xL t acc : z_plan pData T r x xL ->
    z_stable ph useAng (c0 pData) (dc0 pData) (l0 pData) T x xL t -> is_deriv_n 2 (cv_fun (r0_c r)) t acc ->
    cone0 ph (giwL (cp_mass ph) (cp_gravity ph) (cv_fun (r0_c r) t) acc (dL_fun (r0_dL r) t)).
  Proof.
    intros (_ & _ & _ & HF & _ & _ & HR) HS Ha. rewrite HF. apply HS; [|apply HR].
    eapply is_deriv_n_ext; [exact HF|exact Ha].
  Qed.

  Lemma z_no_steps_all r : qp_sound quadprog -> z_no_steps T dt ->
    solve0step wg quadprog glpk pData Ts dt = Ok r -> r0_success r = true -> exists x xL,
    z_plan pData T r x xL /\
    cv_fun (r0_c r) 0 = c0 pData /\ is_deriv_n 1 (cv_fun (r0_c r)) 0 (dc0 pData) /\
    cv_fun (r0_c r) T = x /\ is_deriv_n 1 (cv_fun (r0_c r)) T vzero /\
    (forall t acc, 0 <= t <= T -> is_deriv_n 2 (cv_fun (r0_c r)) t acc ->
      cone0 ph (giwL (cp_mass ph) (cp_gravity ph) (cv_fun (r0_c r) t) acc (dL_fun (r0_dL r) t))) /\
    z_geom useAng ct x xL.
  Proof.
    intros QS HN ES Es. destruct (z_answer r QS (or_introl HN) ES) as [[F _]|(x & xL & HP & HW & HG & _)]; [congruence|].
    exists x, xL. split; [exact HP|]. destruct (z_plan_ends r x xL HP) as (A & B & C & D). do 4 (split; [assumption|]). split; [|exact HG].
    intros t acc Ht Ha. eapply z_plan_stable; [exact HP| |exact Ha]. destruct WP as (_ & _ & HT & WF & Hph).
    apply z_ctrl_stable; [exact HT| |exact Ht]. apply HW. exact HN.
  Qed.
  Lemma z_steps_all r N : qp_sound quadprog -> z_steps T dt N -> (1 <= N)%nat ->
    solve0step wg quadprog glpk pData Ts dt = Ok r -> r0_success r = true -> exists x xL,
    z_plan pData T r x xL /\
    cv_fun (r0_c r) 0 = c0 pData /\ is_deriv_n 1 (cv_fun (r0_c r)) 0 (dc0 pData) /\
    cv_fun (r0_c r) T = x /\ is_deriv_n 1 (cv_fun (r0_c r)) T vzero /\
    (forall i acc, (i <= N)%nat -> let t := INR i * (T / INR N) in is_deriv_n 2 (cv_fun (r0_c r)) t acc ->
      cone0 ph (giwL (cp_mass ph) (cp_gravity ph) (cv_fun (r0_c r) t) acc (dL_fun (r0_dL r) t))) /\
    z_geom useAng ct x xL.
  Proof.
    intros QS HN H1 ES Es. destruct (z_answer r QS (or_intror (ex_intro _ N HN)) ES) as [[F _]|(x & xL & HP & HW & HG & _)]; [congruence|].
    exists x, xL. split; [exact HP|]. destruct (z_plan_ends r x xL HP) as (A & B & C & D). do 4 (split; [assumption|]). split; [|exact HG].
    intros i acc Hi t Ha. eapply z_plan_stable; [exact HP| |exact Ha]. apply HW; assumption.
  Qed.

  (** ** Angular momentum and cost of the plan *)
  Lemma z_plan_momentum r x xL : z_plan pData T r x xL -> useAng = true ->
    (forall t, is_deriv_n 1 (z_momentum (l0 pData) T xL) t (dL_fun (r0_dL r) t)) /\
    z_momentum (l0 pData) T xL 0 = l0 pData /\ z_momentum (l0 pData) T xL T = vzero /\
    dL_fun (r0_dL r) T = vzero /\ integral3 (dL_fun (r0_dL r)) 0 T (vopp (l0 pData)).
  Proof.
    destruct WP as (_ & _ & HT & _ & _). intros (_ & _ & _ & _ & _ & _ & HR) EA. fold useAng in HR. rewrite EA in HR. cbn [z_rate] in HR.
    split; [exact HR|]. destruct (momentum_ends (l0 pData) T xL) as [M0 MT]; [lra|]. split; [exact M0|]. split; [exact MT|].
    assert (ED : forall t, dL_fun (r0_dL r) t = curve (hodo_n 1 T [l0 pData; xL; vzero; vzero]) T t).
    { intros t. exact (is_deriv_n_unique 1 _ _ t _ _ (fun _ => eq_refl) (HR t) (curve_is_deriv_n 1 _ T t)). }
    split.
    - rewrite ED, rate_curve1 by lra. unfold rate1, vzero. f_equal; field; lra.
    - split; [|split]; (eapply integral_ext; [intros t; rewrite ED, rate_curve1 by lra; reflexivity|]); cbn [vx vy vz]; apply rate1_int; exact HT.
  Qed.
  Lemma z_plan_cost r : qp_sound quadprog -> (z_no_steps T dt \/ exists N, z_steps T dt N) ->
    solve0step wg quadprog glpk pData Ts dt = Ok r -> r0_success r = true -> exists x xL,
    z_plan pData T r x xL /\
    (useAng = true -> exists v, integral (fun t => vnorm2 (dL_fun (r0_dL r) t)) 0 T v /\ r0_cost r = T * v) /\
    (useAng = false -> r0_cost r = vnorm (vsub (c0 pData) x) /\ forall t, dL_fun (r0_dL r) t = vzero).
  Proof.
    destruct WP as (_ & _ & HT & _ & _). intros QS HN ES Es.
    destruct (z_answer r QS HN ES) as [[F _]|(x & xL & HP & _ & _ & HC)]; [congruence|]. exists x, xL. split; [exact HP|].
    destruct HP as (_ & _ & _ & _ & _ & _ & HR). fold useAng in HR. unfold z_reported in HC. destruct useAng; split; intros EA; try discriminate.
    - eexists. split; [eapply integral_ext; [|apply (rate_sq_int (l0 pData) xL T HT)]|rewrite HC; field; lra].
      intros t. cbv beta. f_equal. exact (is_deriv_n_unique 1 _ _ t _ _ (fun _ => eq_refl) (curve_is_deriv_n 1 _ T t) (HR t)).
    - split; [exact HC|exact HR].
  Qed.
End Plan0.

Lemma z_objective pData T : 0 < T -> exists H g K, z_cost (c0 pData) (l0 pData) (useAngularMomentum pData) = Ok (H, g) /\
  forall x xL v, z_criterion pData T x xL v <->
    v = quad H (z_vec (useAngularMomentum pData) x xL) + 2 * rdot g (z_vec (useAngularMomentum pData) x xL) + K.
Proof.
  intros HT. eexists _, _, _. split; [apply z_cost_ok|]. intros x xL v. rewrite z_criterion_iff by exact HT. rewrite <- z_quad. reflexivity.
Qed.

(** ** Kinematics and angular momentum constraints *)
Lemma z_mixed_kin ct x xL : (length (cd_kin ct) <= length (cd_ang ct))%nat -> (length (cd_kin ct) <= length (cd_Kin ct))%nat ->
  z_mixed ct x xL -> kin_ok ct x.
Proof.
  intros H1 H2 H i K k HK Hk. assert (Hi : (i < length (cd_kin ct))%nat) by (apply nth_error_Some; congruence).
  specialize (H i ltac:(lia)). destruct (Nat.ltb_spec i (length (cd_kin ct))); [|lia]. destruct (Nat.leb_spec (length (cd_ang ct)) i); [lia|].
  rewrite (nth_error_nth _ _ _ HK), (nth_error_nth _ _ _ Hk) in H. lra.
Qed.
Lemma z_ang_indep ct Ang ang c0 dc0 l0 useAng T dt : length ang = length (cd_ang ct) ->
  compute6dControlPointInequalities (with_ang ct Ang ang) c0 dc0 l0 useAng T dt
  = compute6dControlPointInequalities ct c0 dc0 l0 useAng T dt.
Proof.
  intros HL. unfold compute6dControlPointInequalities, compute6d, with_ang; cbn [cd_phase cd_Kin cd_kin cd_ang]. rewrite HL. reflexivity.
Qed.
Lemma z_ang_indep_plan wg quadprog glpk pData Ts dt ct Ang ang : contacts pData = [ct] -> length ang = length (cd_ang ct) ->
  solve0step wg quadprog glpk (Problem [with_ang ct Ang ang] (c0 pData) (dc0 pData) (ddc0 pData) (j0 pData) (c1 pData) (dc1 pData) (ddc1 pData) (j1 pData)
     (l0 pData) (useAngularMomentum pData) (constr pData) (costFunction pData) (representation pData)) Ts dt
  = solve0step wg quadprog glpk pData Ts dt.
Proof.
  intros Hc HL. unfold solve0step. rewrite Hc. destruct Ts as [|T Ts']; cbn [contacts get nth_error bind c0 dc0 l0 useAngularMomentum]; [reflexivity|].
  rewrite (z_ang_indep ct Ang ang _ _ _ _ _ _ HL). reflexivity.
Qed.
