(** Velocity cost of the end effector: from the matrices to the integral. *)
From Verif Require Import Vec SpecBezier ModelData ModelUtils ModelWaypointsJerk ModelDispatch ModelCont ModelTraj ModelEff
  Spec0Step SpecCom SpecWp SpecTraj SpecEff ProofBezier ProofCurve ProofWaypoints ProofTraj Proof0Step2 ProofEff ProofEff2 ProofEff3 ProofEff6
  ProofEff8 ProofEff9 ProofEff10.
Open Scope R_scope.

Lemma blocks_dots bs xs : length bs = length xs ->
  map (fun r => rdot r (flat xs)) [ concat (map (fun m => l3 (row0 m)) bs); concat (map (fun m => l3 (row1 m)) bs); concat (map (fun m => l3 (row2 m)) bs) ]
  = l3 (ev_blocks bs xs).
Proof.
  intros E. cbn [map]. rewrite !rdot_blocks by exact E. rewrite ev_blocks_xyz by exact E. reflexivity.
Qed.
Lemma quad_blocks xs : forall B ys, Forall (fun bs => length bs = length xs) B -> length B = length ys ->
  rdot (map (fun r => rdot r (flat xs)) (blocks_matx B)) (flat ys) = fold_right Rplus 0 (map2 (fun bs y => vdot (ev_blocks bs xs) y) B ys).
Proof.
  induction B as [|bs B IH]; intros [|y ys] F E; try discriminate; [reflexivity|]. inversion F; subst.
  unfold blocks_matx. cbn [map concat]. fold (blocks_matx B). rewrite map_app, blocks_dots by assumption.
  unfold flat at 2. cbn [map concat]. fold (flat ys). rewrite rdot_app by reflexivity. rewrite rdot_l3x. cbn [map2 fold_right]. f_equal.
  apply IH; [assumption|now injection E].
Qed.
Lemma rdot_flat : forall g xs, length g = length xs -> rdot (concat (map l3 g)) (flat xs) = fold_right Rplus 0 (map2 vdot g xs).
Proof.
  induction g as [|a g IH]; intros [|x xs] E; try discriminate; [reflexivity|]. cbn [map concat]. unfold flat. cbn [map concat]. fold (flat xs).
  rewrite rdot_app by reflexivity. rewrite rdot_l3x. cbn [map2 fold_right]. f_equal. apply IH. now injection E.
Qed.

Lemma mat3_norm2_nonneg m : 0 <= mat3_norm2 m.
Proof.
  assert (V : forall v, 0 <= vnorm2 v).
  { intros v. unfold vnorm2, vdot. pose proof (Rle_0_sqr (vx v)). pose proof (Rle_0_sqr (vy v)). pose proof (Rle_0_sqr (vz v)). unfold Rsqr in *. lra. }
  unfold mat3_norm2. pose proof (V (row0 m)). pose proof (V (row1 m)). pose proof (V (row2 m)). lra.
Qed.
Lemma fold_nonneg {A} (f : A -> R) l : (forall a, 0 <= f a) -> 0 <= fold_right Rplus 0 (map f l).
Proof. intros H. induction l; cbn; [lra|]. pose proof (H a). lra. Qed.
Lemma blocks_norm_pos h T r B : 0 < h -> 0 < T -> 0 < blocks_norm ((mdivs (mscal h mid) T :: r) :: B).
Proof.
  intros Hh HT. unfold blocks_norm. apply sqrt_lt_R0. cbn [map fold_right].
  pose proof (fold_nonneg mat3_norm2 r mat3_norm2_nonneg).
  pose proof (fold_nonneg (fun r => fold_right Rplus 0 (map mat3_norm2 r)) B (fun r => fold_nonneg mat3_norm2 r mat3_norm2_nonneg)).
  assert (0 < mat3_norm2 (mdivs (mscal h mid) T)); [|lra].
  unfold mat3_norm2, vnorm2, vdot. vcbn. assert (0 < h / T) by (apply Rdiv_lt_0_compat; assumption).
  pose proof (Rmult_lt_0_compat _ _ H1 H1).
  replace (h * 1 / T) with (h / T) by (field; lra). replace (h * 0 / T) with 0 by (field; lra). lra.
Qed.
Lemma blk h t N x : t <> 0 -> N <> 0 -> mvmul (mdivs (mdivs (mscal h mid) t) N) x = vscal (h / (t * N)) x.
Proof. intros Ht HN. apply v3_eq; vcbn; field; auto. Qed.

(** distributing scalar products, and clearing the factor N T *)
Lemma dot_addl a b x : vdot (vadd a b) x = vdot a x + vdot b x.
Proof. unfold vdot. cbn [vx vy vz vadd]. ring. Qed.
Lemma dot_subl a b x : vdot (vsub a b) x = vdot a x - vdot b x.
Proof. unfold vdot. cbn [vx vy vz vsub]. ring. Qed.
Lemma dot_scall k a x : vdot (vscal k a) x = k * vdot a x.
Proof. unfold vdot. cbn [vx vy vz vscal]. ring. Qed.
Lemma dot_divl k a x : vdot (vdivs a k) x = vdot a x / k.
Proof. unfold vdot. cbn [vx vy vz vdivs]. unfold Rdiv. ring. Qed.
Lemma dot_zerol x : vdot vzero x = 0.
Proof. unfold vdot. cbn [vx vy vz vzero]. ring. Qed.
Lemma clr1 h T N D : h / (T * N) * D = / (T * N) * (h * D).
Proof. unfold Rdiv. ring. Qed.
Lemma clr1b h T N D : T <> 0 -> N <> 0 -> h / (2 * T * N) * D = / (T * N) * (h / 2 * D).
Proof. intros. field. auto. Qed.
Lemma dot_swap a b : vdot a b = vdot b a.
Proof. unfold vdot. ring. Qed.
Lemma clr2 T N G : T <> 0 -> N <> 0 -> G / (2 * T) / N = / (T * N) * (G / 2).
Proof. intros. field. auto. Qed.
Lemma clr3 K a : 2 * (K * a) = K * (2 * a). Proof. ring. Qed.
Lemma clr4 T N S : T <> 0 -> N <> 0 -> N * T * (/ (T * N) * S) = S.
Proof. intros. field. auto. Qed.
(** a quadratic form on the coordinates of the points *)
Definition evv (l : list qterm) (P : list vec3) : R :=
  fold_right (fun (t : qterm) s => s + Q2R (snd t) * vdot (nth (snd (fst t)) P vzero) (nth (fst (fst t)) P vzero)) 0 l.
Lemma ev_coords l P : ev l (coord vx P) + ev l (coord vy P) + ev l (coord vz P) = evv l P.
Proof.
  induction l as [|[[i j] c] l IH]; [change (0 + 0 + 0 = 0); ring|].
  change (ev1 (coord vx P) (i, j, c) + ev l (coord vx P) + (ev1 (coord vy P) (i, j, c) + ev l (coord vy P)) + (ev1 (coord vz P) (i, j, c) + ev l (coord vz P))
    = evv l P + Q2R c * vdot (nth j P vzero) (nth i P vzero)).
  rewrite <- IH. unfold ev1. cbn [fst snd].
  assert (C : forall f i, f vzero = 0 -> coord f P i = f (nth i P vzero)).
  { intros f k F. unfold coord. rewrite <- F. apply map_nth. }
  rewrite !(C vx), !(C vy), !(C vz) by reflexivity. unfold vdot. ring.
Qed.
Ltac form_sum q :=
  let H := fresh "H" in
  eassert (H : forall a, q a = ev _ a) by (let a := fresh "a" in intros a; unfold q;
    match goal with |- ?e = _ => let l := reify_form a e in
      transitivity (ev l a); [rewrite ?ev_cons, ev_one, ?Qreals.Q2R_opp, ?Q2R_make; reflexivity|reflexivity] end);
  rewrite !H; clear H; rewrite ev_coords; unfold evv; cbn [fold_right fst snd nth]; rewrite ?Qreals.Q2R_opp, ?Q2R_make.
Ltac close_form q :=
  repeat (rewrite ?dot_addl, ?dot_subl, ?dot_divl, ?dot_scall, ?dot_zerol);
  rewrite ?Rplus_0_r; rewrite ?clr1b by assumption; rewrite ?clr1; rewrite ?clr2 by assumption;
  match goal with |- _ * _ * ?S = _ => match S with context [/ (?T * ?N)] => let K := fresh "K" in set (K := / (T * N));
    repeat (rewrite <- ?(Rmult_plus_distr_l K), ?(clr3 K)); unfold K; rewrite (clr4 T N) by assumption end end;
  form_sum q;
  repeat match goal with |- context [vdot ?a ?b] => lazymatch goal with |- context [vdot b a] =>
    tryif constr_eq a b then fail else rewrite (dot_swap b a) end end; lra.

(** the quadratic form of the flag *)
Definition qform (flag : Z) (a : nat -> R) : R := if Z.eqb flag F_jerk then q8 a else if Z.eqb flag F_x3 then q10 a else q12 a.

Lemma velcost_form pData T xs0 pi pts0 :
  0 < T -> eff_shape pData T xs0 pi pts0 ->
  exists H g N, computeVelocityCost pData T pi = Ok (H, g) /\ 0 < N /\
    length H = length xs0 /\ Forall (fun bs => length bs = length xs0) H /\ length g = length xs0 /\
    forall xs pts, eff_shape pData T xs pi pts ->
    N * T * (quad (blocks_matx H) (flat xs) + 2 * rdot (concat (map l3 g)) (flat xs)) =
      qform (flag_of pData) (coord vx pts) + qform (flag_of pData) (coord vy pts) + qform (flag_of pData) (coord vz pts).
Proof.
  intros HT Hs0. assert (HT0 : T <> 0) by lra. assert (HT2 : 2 * T <> 0) by lra.
  eff_cases Hs0; unfold computeVelocityCost; eff_flag.
  - change (find_flag _ F_jerk) with (Ok j0j1_computeVelocityCost). cbn [bind]. unfold j0j1_computeVelocityCost.
    cbn [bind get nth_error]. cbv zeta.
    match goal with |- context [blocks_norm ?B] =>
      assert (HN : 0 < blocks_norm B) by (apply (blocks_norm_pos (652680652684107 / 100000000000000) T); [lra|exact HT]); set (N := blocks_norm B) in * end.
    eexists _, _, N. split; [reflexivity|]. split; [exact HN|]. split; [reflexivity|].
    split; [repeat (apply Forall_cons; [reflexivity|]); apply Forall_nil|]. split; [reflexivity|].
    intros xs pts Hs. assert (HN0 : N <> 0) by lra. clearbody N.
    inversion Hs as [? ? ? ? ? ? ? ? ? ? ? E' Hcc Hp|? ? ? ? ? ? ? ? ? ? ? ? ? ? ? E' Hcc Hp|? ? ? ? ? ? ? ? ? ? ? ? ? ? E' Hcc Hp]; try (rewrite E' in E; discriminate).
    injection Hp; clear Hp Hcc Hs; intros; subst.
    unfold quad. rewrite quad_blocks by (try (repeat (apply Forall_cons; [reflexivity|]); apply Forall_nil); reflexivity).
    rewrite rdot_flat by reflexivity. cbn [map map2 fold_right ev_blocks]. rewrite !blk by assumption.
    unfold qform. simpl Z.eqb. cbv iota. close_form q8.
  - change (find_flag _ F_x3) with (Ok x3_computeVelocityCost). cbn [bind]. unfold x3_computeVelocityCost.
    cbn [bind get nth_error]. cbv zeta.
    match goal with |- context [blocks_norm ?B] =>
      assert (HN : 0 < blocks_norm B) by (apply (blocks_norm_pos (777457833646806 / 100000000000000) T); [lra|exact HT]); set (N := blocks_norm B) in * end.
    eexists _, _, N. split; [reflexivity|]. split; [exact HN|]. split; [reflexivity|].
    split; [repeat (apply Forall_cons; [reflexivity|]); apply Forall_nil|]. split; [reflexivity|].
    intros xs pts Hs. assert (HN0 : N <> 0) by lra. clearbody N.
    inversion Hs as [? ? ? ? ? ? ? ? ? ? ? E' Hcc Hp|? ? ? ? ? ? ? ? ? ? ? ? ? ? ? E' Hcc Hp|? ? ? ? ? ? ? ? ? ? ? ? ? ? E' Hcc Hp]; try (rewrite E' in E; discriminate).
    injection Hp; clear Hp Hcc Hs; intros; subst.
    unfold quad. rewrite quad_blocks by (try (repeat (apply Forall_cons; [reflexivity|]); apply Forall_nil); reflexivity).
    rewrite rdot_flat by reflexivity. cbn [map map2 fold_right ev_blocks]. rewrite !blk by assumption.
    unfold qform. simpl Z.eqb. cbv iota. close_form q10.
  - change (find_flag _ F_x5) with (Ok x5_computeVelocityCost). cbn [bind]. unfold x5_computeVelocityCost.
    cbn [bind get nth_error]. cbv zeta.
    match goal with |- context [blocks_norm ?B] =>
      assert (HN : 0 < blocks_norm B) by (apply (blocks_norm_pos (963290527229048 / 100000000000000) T); [lra|exact HT]); set (N := blocks_norm B) in * end.
    eexists _, _, N. split; [reflexivity|]. split; [exact HN|]. split; [reflexivity|].
    split; [repeat (apply Forall_cons; [reflexivity|]); apply Forall_nil|]. split; [reflexivity|].
    intros xs pts Hs. assert (HN0 : N <> 0) by lra. clearbody N.
    inversion Hs as [? ? ? ? ? ? ? ? ? ? ? E' Hcc Hp|? ? ? ? ? ? ? ? ? ? ? ? ? ? ? E' Hcc Hp|? ? ? ? ? ? ? ? ? ? ? ? ? ? E' Hcc Hp]; try (rewrite E' in E; discriminate).
    injection Hp; clear Hp Hcc Hs; intros; subst.
    unfold quad. rewrite quad_blocks by (try (repeat (apply Forall_cons; [reflexivity|]); apply Forall_nil); reflexivity).
    rewrite rdot_flat by reflexivity. cbn [map map2 fold_right ev_blocks]. rewrite !blk by assumption.
    unfold qform. simpl Z.eqb. cbv iota. close_form q12.
Qed.
