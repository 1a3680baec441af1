(** Moving a zero-step problem to another place (C102). *)
From Coq Require Import List Reals Lra Lia ZArith.
From Verif Require Import Vec SpecBezier ModelData ModelDispatch ModelCont ModelSolver ModelTraj Model0Step
  SpecCom SpecWp SpecCtr SpecSolver SpecTraj SpecMove Spec0Step Spec0Best Spec0Move ProofBezier ProofCurve ProofWaypoints ProofWaypoints2 ProofWaypoints3 ProofCom
  ProofTraj2 ProofMove ProofMove2 Proof0Step Proof0Step2 Proof0Step3 Proof0Best.
Import ListNotations.
Open Scope R_scope.

(** ** Linear maps of wrenches *)
Lemma bezl_lin6 (P : list v6) (h : v6 -> R) a b s : P <> [] -> (forall w, h w = vdot a (fst w) + vdot b (snd w)) ->
  bezl (map h P) s = vdot a (bez3 (map fst P) s) + vdot b (bez3 (map snd P) s).
Proof.
  intros NE Hh. unfold vdot, bez3; cbn [vx vy vz]. rewrite !map_map.
  assert (S : forall f g : v6 -> R, bezl (map (fun w => f w + g w) P) s = bezl (map f P) s + bezl (map g P) s).
  { intros f g. unfold bezl. rewrite !map_length. set (n := pred (length P)).
    rewrite (bez_ext n (fun i => nth i (map (fun w => f w + g w) P) 0) (fun i => 1 * nth i (map f P) 0 + 1 * nth i (map g P) 0)).
    - rewrite (bez_lin n 1 1 (fun i => nth i (map f P) 0) (fun i => nth i (map g P) 0)). ring.
    - intros i Hi. assert (L : (i < length P)%nat) by (unfold n in Hi; destruct P; [contradiction|cbn in *; lia]).
      assert (G : forall g0 : v6 -> R, nth i (map g0 P) 0 = g0 (nth i P (vzero, vzero))).
      { intros g0. rewrite (nth_indep (map g0 P) 0 (g0 (vzero, vzero))) by (rewrite map_length; exact L). apply map_nth. }
      rewrite !G. ring. }
  rewrite (map_ext h (fun w => vdot a (fst w) + vdot b (snd w)) Hh), (S (fun w => vdot a (fst w)) (fun w => vdot b (snd w))).
  pose proof (bezl_lin3 (map fst P) (vdot a) (vx a) (vy a) (vz a) 0 s ltac:(destruct P; [contradiction|discriminate]) ltac:(intros q; unfold vdot; ring)) as A.
  pose proof (bezl_lin3 (map snd P) (vdot b) (vx b) (vy b) (vz b) 0 s ltac:(destruct P; [contradiction|discriminate]) ltac:(intros q; unfold vdot; ring)) as B.
  rewrite !map_map in A, B. etransitivity; [exact (f_equal2 Rplus A B)|]. ring.
Qed.
(** [F] is linear: every coordinate is a product with a wrench *)
Definition lin6 (h : v6 -> R) : Prop := exists a b, forall w, h w = vdot a (fst w) + vdot b (snd w).
Definition linear6 (F : v6 -> v6) : Prop :=
  lin6 (fun w => vx (fst (F w))) /\ lin6 (fun w => vy (fst (F w))) /\ lin6 (fun w => vz (fst (F w))) /\
  lin6 (fun w => vx (snd (F w))) /\ lin6 (fun w => vy (snd (F w))) /\ lin6 (fun w => vz (snd (F w))).
Lemma bezl_lin6' P h s : P <> [] -> lin6 h -> bezl (map h P) s = h (bez3 (map fst P) s, bez3 (map snd P) s).
Proof. intros NE (a & b & H). rewrite (bezl_lin6 P h a b s NE H), H. reflexivity. Qed.
Lemma curve6_lin F P T t : P <> [] -> linear6 F -> curve6 (map F P) T t = F (curve6 P T t).
Proof.
  intros NE (A & B & C & D & E & G). unfold curve6, curve. rewrite (surjective_pairing (F _)). f_equal.
  - unfold bez3 at 1. rewrite !map_map. apply v3_eq; cbn [vx vy vz].
    + exact (bezl_lin6' P _ (t / T) NE A). + exact (bezl_lin6' P _ (t / T) NE B). + exact (bezl_lin6' P _ (t / T) NE C).
  - unfold bez3 at 1. rewrite !map_map. apply v3_eq; cbn [vx vy vz].
    + exact (bezl_lin6' P _ (t / T) NE D). + exact (bezl_lin6' P _ (t / T) NE E). + exact (bezl_lin6' P _ (t / T) NE G).
Qed.
Lemma lin_move Q v : linear6 (move_wrench Q v).
Proof.
  unfold move_wrench. repeat split; cbn [fst snd].
  - exists (row0 Q), vzero. intros [f m]. unfold mvmul, vdot, vzero; cbn; ring.
  - exists (row1 Q), vzero. intros [f m]. unfold mvmul, vdot, vzero; cbn; ring.
  - exists (row2 Q), vzero. intros [f m]. unfold mvmul, vdot, vzero; cbn; ring.
  - exists (vsub (vscal (vy v) (row2 Q)) (vscal (vz v) (row1 Q))), (row0 Q). intros [f m]. unfold mvmul, vdot, vadd, vsub, vscal, vcross; cbn; ring.
  - exists (vsub (vscal (vz v) (row0 Q)) (vscal (vx v) (row2 Q))), (row1 Q). intros [f m]. unfold mvmul, vdot, vadd, vsub, vscal, vcross; cbn; ring.
  - exists (vsub (vscal (vx v) (row1 Q)) (vscal (vy v) (row0 Q))), (row2 Q). intros [f m]. unfold mvmul, vdot, vadd, vsub, vscal, vcross; cbn; ring.
Qed.
(** the way back *)
Definition back_wrench (Q' : mat3) (v : vec3) (w : v6) : v6 := (mvmul Q' (fst w), mvmul Q' (vsub (snd w) (vcross v (fst w)))).
Lemma lin_back Q v : linear6 (back_wrench Q v).
Proof.
  unfold back_wrench. repeat split; cbn [fst snd].
  - exists (row0 Q), vzero. intros [f m]. unfold mvmul, vdot, vzero; cbn; ring.
  - exists (row1 Q), vzero. intros [f m]. unfold mvmul, vdot, vzero; cbn; ring.
  - exists (row2 Q), vzero. intros [f m]. unfold mvmul, vdot, vzero; cbn; ring.
  - exists (vcross v (row0 Q)), (row0 Q). intros [f m]. unfold mvmul, vdot, vsub, vcross; cbn; ring.
  - exists (vcross v (row1 Q)), (row1 Q). intros [f m]. unfold mvmul, vdot, vsub, vcross; cbn; ring.
  - exists (vcross v (row2 Q)), (row2 Q). intros [f m]. unfold mvmul, vdot, vsub, vcross; cbn; ring.
Qed.

Section Move0.
  Variables (Q : mat3) (v : vec3).
  Hypothesis RQ : rotation Q.

  Lemma move_back Q' w : (forall a, mvmul Q (mvmul Q' a) = a) -> move_wrench Q v (back_wrench Q' v w) = w.
  Proof.
    intros HQ. destruct w as [f m]. unfold move_wrench, back_wrench; cbn [fst snd]. rewrite !HQ. f_equal. apply v3_eq; unfold vadd, vsub, vcross; cbn [vx vy vz]; ring.
  Qed.
  Lemma rot_inj a b : mvmul Q a = mvmul Q b -> a = b.
  Proof.
    intros E. assert (Z : vsub a b = vzero). { apply (q_inj Q RQ). rewrite q_sub, E. apply v3_eq; cbn; ring. }
    pose proof (f_equal vx Z) as A. pose proof (f_equal vy Z) as B. pose proof (f_equal vz Z) as C. cbn in A, B, C. apply v3_eq; lra.
  Qed.
  Lemma back_move Q' w : (forall a, mvmul Q (mvmul Q' a) = a) -> back_wrench Q' v (move_wrench Q v w) = w.
  Proof.
    intros HQ. destruct w as [f m]. unfold move_wrench, back_wrench; cbn [fst snd]. f_equal; apply rot_inj; rewrite HQ; [reflexivity|].
    apply v3_eq; unfold vadd, vsub, vcross; cbn [vx vy vz]; ring.
  Qed.
  Lemma dot_move H w : dot6 (move_row Q v H) (move_wrench Q v w) = dot6 H w.
  Proof.
    unfold dot6, move_row, move_wrench; cbn [fst snd].
    transitivity (vdot (mvmul Q (fst H)) (mvmul Q (fst w)) + vdot (mvmul Q (snd H)) (mvmul Q (snd w))); [|now rewrite !(dotQ Q RQ)].
    set (f := mvmul Q (fst w)). set (h := mvmul Q (snd H)). set (k := mvmul Q (snd w)). set (e := mvmul Q (fst H)).
    unfold vdot, vsub, vadd, vcross; cbn [vx vy vz]. ring.
  Qed.
  Lemma cone0_move ph w : cone0 (move_phase Q v ph) (move_wrench Q v w) <-> cone0 ph w.
  Proof.
    unfold cone0, move_phase; cbn [cp_poly]. rewrite Forall_map, !Forall_forall. split; intros H Hh IH; specialize (H Hh IH); cbn [fst] in *; rewrite dot_move in *; exact H.
  Qed.
  Lemma giwL_move m g c a dl : giwL m (mvmul Q g) (place Q v c) (mvmul Q a) (mvmul Q dl) = move_wrench Q v (giwL m g c a dl).
  Proof.
    unfold giwL, move_wrench; cbn [fst snd]. rewrite <- !q_sub, <- !q_scal. set (F := vsub g a). f_equal.
    assert (E : vcross (place Q v c) (mvmul Q F) = vadd (mvmul Q (vcross c F)) (vcross v (mvmul Q F))).
    { rewrite (crossQ Q RQ). unfold place. apply v3_eq; unfold vcross, vadd; cbn [vx vy vz]; ring. }
    rewrite E, q_sub, !q_scal. apply v3_eq; unfold vadd, vsub, vscal, vcross; cbn [vx vy vz]; ring.
  Qed.
  Lemma z_motion_move c0 dc0 T x t : z_motion (place Q v c0) (mvmul Q dc0) T (place Q v x) t = place Q v (z_motion c0 dc0 T x t).
  Proof.
    unfold z_motion. rewrite <- curve_place by discriminate. cbn [map]. do 3 f_equal. unfold place. rewrite q_add, q_scal.
    apply v3_eq; unfold vadd; cbn [vx vy vz]; ring.
  Qed.
  Lemma z_momentum_move l0 T xL t : z_momentum (mvmul Q l0) T (mvmul Q xL) t = mvmul Q (z_momentum l0 T xL t).
  Proof. unfold z_momentum. rewrite <- (place_0 Q (curve _ _ _)), <- curve_place by discriminate. cbn [map]. now rewrite !place_0, q_zero. Qed.
  Lemma z_acc_move c0 dc0 T x t a : is_deriv_n 2 (z_motion c0 dc0 T x) t a -> is_deriv_n 2 (z_motion (place Q v c0) (mvmul Q dc0) T (place Q v x)) t (mvmul Q a).
  Proof. intros D. eapply is_deriv_n_ext; [intros u; symmetry; apply z_motion_move|]. apply deriv2_place. exact D. Qed.
  Lemma z_rate_move useAng l0 T xL t dl : z_rate useAng l0 T xL t dl -> z_rate useAng (mvmul Q l0) T (mvmul Q xL) t (mvmul Q dl).
  Proof.
    unfold z_rate. destruct useAng; [|intros ->; apply q_zero]. intros D. eapply is_deriv_n_ext; [intros u; symmetry; apply z_momentum_move|].
    destruct D as (f' & D & E). exists (fun u => mvmul Q (f' u)). split; [|cbn in *; now rewrite E]. intros u.
    pose proof (deriv_place Q vzero _ u _ (D u)) as H. unfold is_deriv in *. destruct H as (A & B & C).
    repeat split; (eapply lim_ext; [|first [exact A|exact B|exact C]]); intros w; cbv beta; now rewrite place_0.
  Qed.

  Lemma z_wrench_at ph useAng c0 dc0 l0 T x xL t acc dl acc' dl' : is_deriv_n 2 (z_motion c0 dc0 T x) t acc -> z_rate useAng l0 T xL t dl ->
    is_deriv_n 2 (z_motion (place Q v c0) (mvmul Q dc0) T (place Q v x)) t acc' -> z_rate useAng (mvmul Q l0) T (mvmul Q xL) t dl' ->
    giwL (cp_mass ph) (mvmul Q (cp_gravity ph)) (z_motion (place Q v c0) (mvmul Q dc0) T (place Q v x) t) acc' dl' =
    move_wrench Q v (giwL (cp_mass ph) (cp_gravity ph) (z_motion c0 dc0 T x t) acc dl).
  Proof.
    intros A L A' L'. rewrite (is_deriv_n_unique 2 _ _ t _ _ (fun _ => eq_refl) A' (z_acc_move _ _ _ _ _ _ A)).
    rewrite (z_rate_unique _ _ _ _ _ _ _ L' (z_rate_move _ _ _ _ _ _ L)), z_motion_move. apply giwL_move.
  Qed.
  Lemma z_acc_ex c0 dc0 T x t : exists acc, is_deriv_n 2 (z_motion c0 dc0 T x) t acc.
  Proof. eexists. apply curve_is_deriv_n. Qed.
  Lemma z_rate_ex' useAng l0 T xL t : exists dl, z_rate useAng l0 T xL t dl.
  Proof. unfold z_rate. destruct useAng; [eexists; apply curve_is_deriv_n|exists vzero; reflexivity]. Qed.
  Lemma z_stable_move ph useAng c0 dc0 l0 T x xL t :
    z_stable (move_phase Q v ph) useAng (place Q v c0) (mvmul Q dc0) (mvmul Q l0) T (place Q v x) (mvmul Q xL) t <-> z_stable ph useAng c0 dc0 l0 T x xL t.
  Proof.
    unfold z_stable. cbn [move_phase cp_mass cp_gravity]. split.
    - intros H acc dl A L. specialize (H _ _ (z_acc_move _ _ _ _ _ _ A) (z_rate_move _ _ _ _ _ _ L)).
      rewrite (z_wrench_at ph useAng c0 dc0 l0 T x xL t acc dl _ _ A L (z_acc_move _ _ _ _ _ _ A) (z_rate_move _ _ _ _ _ _ L)) in H. exact (proj1 (cone0_move ph _) H).
    - intros H acc' dl' A' L'. destruct (z_acc_ex c0 dc0 T x t) as [acc A]. destruct (z_rate_ex' useAng l0 T xL t) as [dl L].
      rewrite (z_wrench_at ph useAng c0 dc0 l0 T x xL t acc dl _ _ A L A' L'). apply (proj2 (cone0_move ph _)), H; assumption.
  Qed.
  Lemma z_ctrl_move ph useAng c0 dc0 l0 T x xL :
    z_stable_ctrl (move_phase Q v ph) useAng (place Q v c0) (mvmul Q dc0) (mvmul Q l0) T (place Q v x) (mvmul Q xL) <-> z_stable_ctrl ph useAng c0 dc0 l0 T x xL.
  Proof.
    destruct RQ as (_ & _ & Q' & HQ). unfold z_stable_ctrl. cbn [move_phase cp_mass cp_gravity]. split; intros (P & LP & FP & EP).
    - exists (map (back_wrench Q' v) P). split; [now rewrite map_length|]. split.
      + rewrite Forall_map. apply Forall_forall. intros w Hw. rewrite Forall_forall in FP. apply (proj1 (cone0_move ph _)). rewrite (move_back Q' w HQ). exact (FP w Hw).
      + intros t acc dl A L. rewrite curve6_lin; [|destruct P; discriminate|apply lin_back].
        rewrite <- (EP t _ _ (z_acc_move _ _ _ _ _ _ A) (z_rate_move _ _ _ _ _ _ L)).
        rewrite (z_wrench_at ph useAng c0 dc0 l0 T x xL t acc dl _ _ A L (z_acc_move _ _ _ _ _ _ A) (z_rate_move _ _ _ _ _ _ L)). symmetry. apply (back_move Q' _ HQ).
    - exists (map (move_wrench Q v) P). split; [now rewrite map_length|]. split.
      + rewrite Forall_map. apply Forall_forall. intros w Hw. rewrite Forall_forall in FP. apply (proj2 (cone0_move ph w)). exact (FP w Hw).
      + intros t acc' dl' A' L'. destruct (z_acc_ex c0 dc0 T x t) as [acc A]. destruct (z_rate_ex' useAng l0 T xL t) as [dl L].
        rewrite (z_wrench_at ph useAng c0 dc0 l0 T x xL t acc dl _ _ A L A' L'). rewrite curve6_lin; [|destruct P; discriminate|apply lin_move]. f_equal. apply EP; assumption.
  Qed.

  Variables (p : problem) (Ts : list R) (ct : contact) (ph : cphase) (T : R).
  Hypothesis WP : z_posed p Ts ct ph T.
  Hypothesis SF : z_shifts_freely p ct v.
  Let q := move Q v p.
  Let ct' := move_contact Q v ct.
  Let ph' := move_phase Q v ph.

  Lemma z_move_wf : contact_wf ct'.
  Proof.
    destruct WP as (_ & _ & _ & (ph0 & E & M & Z & K) & _). exists (move_phase Q v ph0).
    split; [unfold ct', move_contact; cbn [cd_phase]; rewrite E; reflexivity|]. split; [exact M|]. split.
    - unfold move_phase; cbn [cp_poly]. apply Forall_map. rewrite Forall_forall in *. intros Hh IH E'. apply (Z Hh IH).
      cbn [fst] in E'. unfold move_row in E'.
      pose proof (f_equal snd E') as E2. pose proof (f_equal fst E') as E1. cbn [fst snd] in E1, E2. rewrite E2 in E1.
      apply (q_inj Q RQ) in E2. assert (E3 : mvmul Q (fst (fst Hh)) = vzero). { rewrite <- E1. apply v3_eq; cbn; ring. }
      apply (q_inj Q RQ) in E3. transitivity (fst (fst Hh), snd (fst Hh)); [apply surjective_pairing|now rewrite E3, E2].
    - unfold ct', move_contact; cbn [cd_kin cd_Kin]. rewrite !map_length, combine_length. lia.
  Qed.
  Lemma z_move_posed : z_posed q Ts ct' ph' T.
  Proof.
    pose proof z_move_wf as W. destruct WP as (Hc & HTs & HT & _ & Hph). split; [unfold q, move; cbn [contacts]; rewrite Hc; reflexivity|].
    split; [exact HTs|]. split; [exact HT|]. split; [exact W|]. unfold ct', move_contact; cbn [cd_phase]. rewrite Hph. reflexivity.
  Qed.
  Lemma kin_move_len : length (cd_kin ct') = length (cd_kin ct).
  Proof. destruct WP as (_ & _ & _ & (ph0 & _ & _ & _ & K) & _). unfold ct', move_contact; cbn [cd_kin]. rewrite map_length, combine_length. lia. Qed.
  Lemma Kin_move j : nth j (cd_Kin ct') vzero = mvmul Q (nth j (cd_Kin ct) vzero).
  Proof. unfold ct', move_contact; cbn [cd_Kin]. rewrite <- (q_zero Q) at 1. apply map_nth. Qed.
  Lemma kin_move j : (j < length (cd_kin ct))%nat -> nth j (cd_kin ct') 0 = nth j (cd_kin ct) 0 + vdot (mvmul Q (nth j (cd_Kin ct) vzero)) v.
  Proof.
    intros Hj. pose proof kin_move_len as L. destruct WP as (_ & _ & _ & (ph0 & _ & _ & _ & K) & _). unfold ct', move_contact in *; cbn [cd_kin] in *.
    set (f := fun Kk : vec3 * R => snd Kk + vdot (mvmul Q (fst Kk)) v) in *. rewrite (nth_indep _ 0 (f (vzero, 0))) by lia. rewrite map_nth.
    assert (G : forall (Ks : list vec3) (ks : list R) i, (i < length ks)%nat -> (length ks <= length Ks)%nat -> nth i (combine Ks ks) (vzero, 0) = (nth i Ks vzero, nth i ks 0)).
    { induction Ks as [|K0 Ks IH]; intros [|k0 ks] [|i] A B; cbn in *; try lia; [reflexivity|]. apply IH; lia. }
    rewrite (G _ _ j Hj K). reflexivity.
  Qed.
  Lemma z_geom_move x xL : z_geom (useAngularMomentum q) ct' (place Q v x) (mvmul Q xL) <-> z_geom (useAngularMomentum p) ct x xL.
  Proof.
    change (useAngularMomentum q) with (useAngularMomentum p). unfold z_geom. destruct (useAngularMomentum p) eqn:EA.
    2:{ apply (move_kin Q v RQ). apply WP. }
    unfold z_mixed. rewrite kin_move_len. change (length (cd_ang ct')) with (length (cd_ang ct)).
    set (nk := length (cd_kin ct)). set (na := length (cd_ang ct)).
    assert (X : forall j, vdot (nth j (cd_Kin ct') vzero) (place Q v x) = vdot (nth j (cd_Kin ct) vzero) x + vdot (mvmul Q (nth j (cd_Kin ct) vzero)) v).
    { intros j. rewrite Kin_move, <- (dotQ Q RQ _ x). unfold place, vdot, vadd; cbn [vx vy vz]. ring. }
    assert (XL : forall j, vdot (nth j (cd_Kin ct') vzero) (mvmul Q xL) = vdot (nth j (cd_Kin ct) vzero) xL) by (intros j; rewrite Kin_move; apply (dotQ Q RQ)).
    assert (V : v = vzero \/ na = 0%nat).
    { destruct SF as [H|[H|H]]; [left; exact H|congruence|right; unfold na; rewrite H; reflexivity]. }
    assert (Z : v = vzero -> forall a, vdot a v = 0) by (intros -> a; unfold vdot, vzero; cbn; ring).
    assert (I : forall j, (j < nk + na)%nat ->
      ((if Nat.ltb j nk then vdot (nth j (cd_Kin ct') vzero) (place Q v x) else 0) + (if Nat.leb na j then vdot (nth (j - na) (cd_Kin ct') vzero) (mvmul Q xL) else 0)
        <= (if Nat.leb na j then nth (j - na) (cd_kin ct') 0 else if Nat.ltb j nk then nth j (cd_kin ct') 0 else 0)) <->
      ((if Nat.ltb j nk then vdot (nth j (cd_Kin ct) vzero) x else 0) + (if Nat.leb na j then vdot (nth (j - na) (cd_Kin ct) vzero) xL else 0)
        <= (if Nat.leb na j then nth (j - na) (cd_kin ct) 0 else if Nat.ltb j nk then nth j (cd_kin ct) 0 else 0))).
    { intros j Hj. rewrite XL, X. destruct (Nat.leb_spec na j) as [A|A], (Nat.ltb_spec j nk) as [B|B].
      - rewrite kin_move by (fold nk; lia). destruct V as [V|V]; [rewrite !(Z V); split; lra|]. rewrite V, Nat.sub_0_r. split; lra.
      - rewrite kin_move by (fold nk; lia). destruct V as [V|V]; [rewrite !(Z V); split; lra|]. lia.
      - rewrite kin_move by (fold nk; lia). split; lra.
      - split; lra. }
    split; intros H j Hj; apply (I j Hj), (H j Hj).
  Qed.
  Lemma z_feasible_move dt x xL : z_feasible q ct' ph' T dt (place Q v x) (mvmul Q xL) <-> z_feasible p ct ph T dt x xL.
  Proof.
    unfold z_feasible. rewrite z_geom_move. apply and_iff_compat_r. unfold z_wrench_ok. change (useAngularMomentum q) with (useAngularMomentum p).
    unfold q, move; cbn [c0 dc0 l0]. unfold ph'. rewrite z_ctrl_move. apply and_iff_compat_l. split; intros H N HN N1 i Hi; apply (z_stable_move ph), (H N HN N1 i Hi).
  Qed.
  Lemma z_value_move x xL : z_value (useAngularMomentum q) (c0 q) (l0 q) (place Q v x) (mvmul Q xL) = z_value (useAngularMomentum p) (c0 p) (l0 p) x xL.
  Proof.
    unfold z_value, q, move; cbn [c0 l0 useAngularMomentum]. rewrite !(dotQ Q RQ). f_equal. f_equal. unfold vnorm2.
    assert (E : vsub (place Q v x) (place Q v (c0 p)) = mvmul Q (vsub x (c0 p))).
    { rewrite q_sub. unfold place. apply v3_eq; unfold vadd, vsub; cbn [vx vy vz]; ring. }
    rewrite E. apply (dotQ Q RQ).
  Qed.
  Lemma z_reported_move x xL : z_reported (useAngularMomentum q) (c0 q) (l0 q) (place Q v x) (mvmul Q xL) = z_reported (useAngularMomentum p) (c0 p) (l0 p) x xL.
  Proof.
    unfold z_reported, q, move; cbn [c0 l0 useAngularMomentum]. rewrite !(dotQ Q RQ). destruct (useAngularMomentum p); [reflexivity|]. unfold vnorm, vnorm2.
    assert (E : vsub (place Q v (c0 p)) (place Q v x) = mvmul Q (vsub (c0 p) x)).
    { rewrite q_sub. unfold place. apply v3_eq; unfold vadd, vsub; cbn [vx vy vz]; ring. }
    rewrite E, (dotQ Q RQ). reflexivity.
  Qed.
  Lemma z_crit_move x xL s : z_criterion q T (place Q v x) (mvmul Q xL) s <-> z_criterion p T x xL s.
  Proof. assert (HT : 0 < T) by apply WP. rewrite !z_criterion_iff by exact HT. rewrite z_value_move. reflexivity. Qed.
  Lemma z_least_move dt x xL : z_least p ct ph T dt x xL -> z_least q ct' ph' T dt (place Q v x) (mvmul Q xL).
  Proof.
    intros [F O]. split; [apply z_feasible_move, F|]. pose proof RQ as (_ & _ & Q' & HQ). intros y yL s w.
    assert (Ey : y = place Q v (mvmul Q' (vsub y v))). { unfold place. rewrite HQ. apply v3_eq; unfold vsub, vadd; cbn [vx vy vz]; ring. }
    rewrite Ey, <- (HQ yL), z_feasible_move, !z_crit_move. apply O.
  Qed.
  Lemma c102_plan dt r wg quadprog glpk : qp_solves quadprog -> qp_sound quadprog -> z_sampling T dt ->
    solve0step wg quadprog glpk p Ts dt = Ok r -> r0_success r = true ->
    exists r' x xL, solve0step wg quadprog glpk q Ts dt = Ok r' /\ z_plan p T r x xL /\ z_plan q T r' (place Q v x) (mvmul Q xL) /\
      r0_cost r' = r0_cost r /\ (forall t, cv_fun (r0_c r') t = place Q v (cv_fun (r0_c r) t)) /\ (forall t, dL_fun (r0_dL r') t = mvmul Q (dL_fun (r0_dL r) t)).
  Proof.
    intros QO QS HN E S. destruct (c100_returned p Ts ct ph T WP dt r wg quadprog glpk QO QS HN E S) as (x & xL & HP & L).
    destruct (c100_found q Ts ct' ph' T z_move_posed dt _ _ wg quadprog glpk QO HN (z_least_move dt x xL L)) as (r' & E' & HP').
    exists r', x, xL. split; [exact E'|]. split; [exact HP|]. split; [exact HP'|].
    destruct (z_answer wg quadprog glpk p Ts ct ph T dt WP r QS HN E) as [[H _]|(y & yL & (_ & Y & _) & _ & _ & CY)]; [congruence|].
    destruct (z_answer wg quadprog glpk q Ts ct' ph' T dt z_move_posed r' QS HN E') as [[H _]|(z & zL & (_ & Z & _) & _ & _ & CZ)].
    { exfalso. destruct HP' as [H' _]. congruence. }
    pose proof HP as (_ & X & _ & M & _ & _ & D). pose proof HP' as (_ & X' & _ & M' & _ & _ & D').
    split; [|split].
    - rewrite CY, CZ, <- (z_reported_move y yL). rewrite X in Y. rewrite X' in Z. change (useAngularMomentum q) with (useAngularMomentum p) in *. unfold z_vec in Y, Z.
      destruct (useAngularMomentum p).
      + destruct x, y, xL, yL. cbn in Y. injection Y as -> -> -> -> -> ->. destruct z, zL. cbn -[mvmul place] in Z. unfold z_reported.
        injection Z as <- <- <- <- <- <-. reflexivity.
      + destruct x, y. cbn in Y. injection Y as -> -> ->. destruct z. cbn -[mvmul place] in Z. unfold z_reported. injection Z as <- <- <-. reflexivity.
    - intros t. rewrite M, M'. unfold q, move; cbn [c0 dc0]. apply z_motion_move.
    - intros t. exact (z_rate_unique _ _ _ _ _ _ _ (D' t) (z_rate_move _ _ _ _ _ _ (D t))).
  Qed.
  Lemma c102_back dt r' wg quadprog glpk : qp_solves quadprog -> qp_sound quadprog -> z_sampling T dt ->
    solve0step wg quadprog glpk q Ts dt = Ok r' -> r0_success r' = true ->
    exists r, solve0step wg quadprog glpk p Ts dt = Ok r /\ r0_success r = true.
  Proof.
    intros QO QS HN E S. destruct (c100_returned q Ts ct' ph' T z_move_posed dt r' wg quadprog glpk QO QS HN E S) as (y & yL & _ & [F _]).
    pose proof RQ as (_ & _ & Q' & HQ).
    assert (Ey : y = place Q v (mvmul Q' (vsub y v))). { unfold place. rewrite HQ. apply v3_eq; unfold vsub, vadd; cbn [vx vy vz]; ring. }
    rewrite Ey, <- (HQ yL) in F. apply z_feasible_move in F.
    destruct (z_found p Ts ct ph T WP dt _ _ wg quadprog glpk QO HN F) as (x & xL & r & _ & ER & HP & _). exists r. split; [exact ER|apply HP].
  Qed.
End Move0.
