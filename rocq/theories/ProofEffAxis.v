(** End-effector planning: exchanging one coordinate between two problems that agree along it. *)
From Coq Require Import List Lia Lra.
From Verif Require Import Vec SpecBezier ModelData ModelUtils ModelWaypointsJerk ModelDispatch ModelCont ModelSolver ModelTraj ModelEff
  SpecCom SpecWp SpecSolver SpecTraj Spec0Step SpecEff ProofCurve ProofEff ProofEff2 ProofEff3 ProofEff4 ProofEff5 ProofEff6 ProofEff7 ProofEff11.
Import ListNotations.
Open Scope R_scope.

Inductive axis := AX | AY | AZ.
Definition along (a : axis) (v : vec3) : R := match a with AX => vx v | AY => vy v | AZ => vz v end.
(** [u] with the coordinate [a] of [v] *)
Definition swap (a : axis) (u v : vec3) : vec3 :=
  match a with AX => V3 (vx v) (vy u) (vz u) | AY => V3 (vx u) (vy v) (vz u) | AZ => V3 (vx u) (vy u) (vz v) end.
Definition feq (a : axis) (u v : vec3) : Prop := along a u = along a v.

Lemma feq_refl a u : feq a u u. Proof. reflexivity. Qed.
Lemma feq_sym a u v : feq a u v -> feq a v u. Proof. unfold feq. congruence. Qed.
Lemma feq_add a u v u' v' : feq a u v -> feq a u' v' -> feq a (vadd u u') (vadd v v').
Proof. unfold feq. destruct a; cbn; congruence. Qed.
Lemma feq_sub a u v u' v' : feq a u v -> feq a u' v' -> feq a (vsub u u') (vsub v v').
Proof. unfold feq. destruct a; cbn; congruence. Qed.
Lemma feq_scal a k u v : feq a u v -> feq a (vscal k u) (vscal k v).
Proof. unfold feq. destruct a; cbn; congruence. Qed.
Lemma feq_divs a k u v : feq a u v -> feq a (vdivs u k) (vdivs v k).
Proof. unfold feq. destruct a; cbn; congruence. Qed.
Lemma feq_opp a u v : feq a u v -> feq a (vopp u) (vopp v).
Proof. unfold feq. destruct a; cbn; congruence. Qed.
Ltac fall := repeat first [assumption | apply feq_refl | apply feq_add | apply feq_sub | apply feq_scal | apply feq_divs | apply feq_opp].

Lemma swap_feq a u v : feq a u v -> swap a u v = u.
Proof. unfold feq. destruct u, v, a; cbn; intros ->; reflexivity. Qed.
Lemma swap_add a u v u' v' : swap a (vadd u u') (vadd v v') = vadd (swap a u v) (swap a u' v').
Proof. destruct a; reflexivity. Qed.
Lemma swap_sub a u v u' v' : swap a (vsub u u') (vsub v v') = vsub (swap a u v) (swap a u' v').
Proof. destruct a; reflexivity. Qed.
Lemma swap_scal a k u v : swap a (vscal k u) (vscal k v) = vscal k (swap a u v).
Proof. destruct a; reflexivity. Qed.
Lemma along_swap a u v : along a (swap a u v) = along a v.
Proof. destruct a; reflexivity. Qed.
Lemma swap_dot a u v u' v' : vdot (swap a u v) (swap a u' v') + vdot (swap a v u) (swap a v' u') = vdot u u' + vdot v v'.
Proof. destruct a; unfold vdot; cbn; ring. Qed.
Lemma swap_le3l a lo u v : le3 lo u -> le3 lo v -> le3 lo (swap a u v).
Proof. unfold le3. destruct a; cbn; tauto. Qed.
Lemma swap_le3u a up u v : le3 u up -> le3 v up -> le3 (swap a u v) up.
Proof. unfold le3. destruct a; cbn; tauto. Qed.

(** * Blocks that are multiples of the identity *)
Definition sblock (b : mat3) : Prop := exists k, forall x, mvmul b x = vscal k x.
Lemma sb_zero : sblock mzero.
Proof. exists 0. intros [a b c]. apply v3_eq; vcbn; ring. Qed.
Lemma sb_mid k : sblock (mscal k mid).
Proof. exists k. intros [a b c]. apply v3_eq; vcbn; ring. Qed.
Lemma sb_divs k b : sblock b -> sblock (mdivs b k).
Proof.
  intros (c & H). exists (c / k). intros x. specialize (H x). destruct b as [[b0 b1 b2] [b3 b4 b5] [b6 b7 b8]], x as [x y z].
  revert H. unfold mvmul, vscal, vdot. cbn [row0 row1 row2 vx vy vz mdivs vdivs]. intros H. injection H as H1 H2 H3. unfold Rdiv in *.
  f_equal; [transitivity ((b0 * x + b1 * y + b2 * z) * / k)|transitivity ((b3 * x + b4 * y + b5 * z) * / k)|transitivity ((b6 * x + b7 * y + b8 * z) * / k)];
    try (ring || (rewrite ?H1, ?H2, ?H3; ring)).
Qed.
Ltac sball := repeat (apply Forall_cons; [first [apply sb_zero | apply sb_mid | repeat apply sb_divs; apply sb_mid]|]); apply Forall_nil.

Notation mix a := (map2 (swap a)).
Lemma map2_len {X Y Z} (f : X -> Y -> Z) l m : length l = length m -> length (map2 f l m) = length l.
Proof. revert m. induction l as [|x l IH]; intros [|y m] E; try discriminate; [reflexivity|]. cbn. f_equal. apply IH. now injection E. Qed.
Lemma ev_blocks_mix a : forall bs xs ys, Forall sblock bs -> length xs = length ys ->
  ev_blocks bs (mix a xs ys) = swap a (ev_blocks bs xs) (ev_blocks bs ys).
Proof.
  induction bs as [|b bs IH]; intros xs ys F L; [symmetry; apply swap_feq, feq_refl|]. inversion F as [|? ? (k & K) F']; subst.
  destruct xs as [|x xs], ys as [|y ys]; try discriminate; [symmetry; apply swap_feq, feq_refl|].
  cbn [map2 ev_blocks]. rewrite IH by (try assumption; now injection L). rewrite swap_add, !K, swap_scal. reflexivity.
Qed.
Definition twin (a : axis) (w w' : wpn) : Prop :=
  wn_blocks w = wn_blocks w' /\ Forall sblock (wn_blocks w) /\ feq a (wn_pt w) (wn_pt w').
Lemma twin_sym a w w' : twin a w w' -> twin a w' w.
Proof. intros (A & B & C). split; [symmetry; exact A|]. split; [rewrite <- A; exact B|apply feq_sym; exact C]. Qed.
Lemma twin_ev a w w' xs ys : twin a w w' -> length xs = length ys -> ev_wpn w (mix a xs ys) = swap a (ev_wpn w xs) (ev_wpn w' ys).
Proof.
  intros (A & B & C) L. unfold ev_wpn. rewrite swap_add, (swap_feq a _ _ C), <- A. f_equal. apply ev_blocks_mix; assumption.
Qed.
Lemma twin_bounded a lo up xs ys : length xs = length ys -> forall ws ws', Forall2 (twin a) ws ws' ->
  Forall (bounded lo up xs) ws -> Forall (bounded lo up ys) ws' -> Forall (bounded lo up (mix a xs ys)) ws.
Proof.
  intros L. induction 1 as [|w w' ws ws' Hw F IH]; intros A B; [constructor|]. inversion A; inversion B; subst. constructor; [|auto].
  intros D. rewrite (twin_ev a w w' xs ys Hw L). assert (D' : dependsb w' = true).
  { rewrite <- D. unfold dependsb, coefficients. rewrite (proj1 Hw). reflexivity. }
  match goal with H : bounded _ _ xs w |- _ => destruct (H D) end. match goal with H : bounded _ _ ys w' |- _ => destruct (H D') end.
  split; [apply swap_le3l|apply swap_le3u]; assumption.
Qed.

(** * The two problems *)
Section Two.
Variables (a : axis) (p q : problem) (T : R).
Hypothesis (Hin : In (flag_of p) effector_flags) (Hf : flag_of q = flag_of p).
Hypothesis (B1 : feq a (c0 p) (c0 q)) (B2 : feq a (dc0 p) (dc0 q)) (B3 : feq a (ddc0 p) (ddc0 q)) (B4 : feq a (j0 p) (j0 q)).
Hypothesis (B5 : feq a (c1 p) (c1 q)) (B6 : feq a (dc1 p) (dc1 q)) (B7 : feq a (ddc1 p) (ddc1 q)) (B8 : feq a (j1 p) (j1 q)).
Hypothesis HT : 0 < T.

Lemma two_shapes xs ys : length xs = eff_free (flag_of p) -> length ys = eff_free (flag_of p) -> exists pi pts pi' pts',
  computeConstantWaypoints p T = Ok pi /\ eff_shape p T xs pi pts /\ computeConstantWaypoints q T = Ok pi' /\ eff_shape q T ys pi' pts' /\
  Forall2 (feq a) pi pi'.
Proof.
  intros Lx Ly. destruct (eff_shape_total p T xs Hin Lx) as (pi & pts & Hc & Hs).
  destruct (eff_shape_total q T ys) as (pi' & pts' & Hc' & Hs'); [rewrite Hf; exact Hin|rewrite Hf; exact Ly|].
  exists pi, pts, pi', pts'. repeat (split; [assumption|]).
  clear Lx Ly Hs Hs' pts pts' xs ys. unfold computeConstantWaypoints in Hc, Hc'. rewrite Hf in Hc'.
  cbn in Hin. destruct Hin as [E|[E|[E|[]]]]; rewrite <- E in Hc, Hc'.
  - change (j0j1_computeConstantWaypoints p T = Ok pi) in Hc. change (j0j1_computeConstantWaypoints q T = Ok pi') in Hc'.
    unfold j0j1_computeConstantWaypoints in Hc, Hc'. injection Hc as <-. injection Hc' as <-. repeat (apply Forall2_cons; [fall|]). apply Forall2_nil.
  - change (x3_computeConstantWaypoints p T = Ok pi) in Hc. change (x3_computeConstantWaypoints q T = Ok pi') in Hc'.
    unfold x3_computeConstantWaypoints in Hc, Hc'. injection Hc as <-. injection Hc' as <-. repeat (apply Forall2_cons; [fall|]). apply Forall2_nil.
  - change (x5_computeConstantWaypoints p T = Ok pi) in Hc. change (x5_computeConstantWaypoints q T = Ok pi') in Hc'.
    unfold x5_computeConstantWaypoints in Hc, Hc'. injection Hc as <-. injection Hc' as <-. repeat (apply Forall2_cons; [fall|]). apply Forall2_nil.
Qed.

Ltac both Hs Hs' F :=
  eff_cases Hs; (inversion Hs' as [? ? ? ? ? ? ? ? ? ? ? E' Hcc' Hp'|? ? ? ? ? ? ? ? ? ? ? ? ? ? ? E' Hcc' Hp'|? ? ? ? ? ? ? ? ? ? ? ? ? ? E' Hcc' Hp'];
    try (exfalso; match goal with E1 : flag_of p = _, E2 : flag_of q = _, F1 : flag_of q = flag_of p |- _ => rewrite F1, E1 in E2; discriminate E2 end)); subst; clear Hs' Hcc';
  repeat match goal with H : Forall2 _ (_ :: _) (_ :: _) |- _ => inversion H; subst; clear H end.
Ltac twins := repeat (apply Forall2_cons; [split; [reflexivity|split; [cbn [wn_blocks]; sball|cbn [wn_pt]; fall]]|]); apply Forall2_nil.

Lemma two_lists xs ys pi pts pi' pts' : eff_shape p T xs pi pts -> eff_shape q T ys pi' pts' -> Forall2 (feq a) pi pi' ->
  exists wa wv wj wa' wv' wj',
  computeAccelerationWaypoints p T pi = Ok wa /\ computeVelocityWaypoints p T pi = Ok wv /\ computeJerkWaypoints p T pi = Ok wj /\
  computeAccelerationWaypoints q T pi' = Ok wa' /\ computeVelocityWaypoints q T pi' = Ok wv' /\ computeJerkWaypoints q T pi' = Ok wj' /\
  Forall2 (twin a) wa wa' /\ Forall2 (twin a) wv wv' /\ Forall2 (twin a) wj wj'.
Proof.
  intros Hs Hs' F. both Hs Hs' F;
  unfold computeAccelerationWaypoints, computeVelocityWaypoints, computeJerkWaypoints; rewrite E, E';
  eexists _, _, _, _, _, _; do 6 (split; [reflexivity|]); (split; [twins|split; twins]).
Qed.
Lemma two_evals xs ys pi pts pi' pts' s : eff_shape p T xs pi pts -> eff_shape q T ys pi' pts' -> Forall2 (feq a) pi pi' ->
  exists w w', evaluateCurveWaypointAtTime p pi s = Ok w /\ evaluateCurveWaypointAtTime q pi' s = Ok w' /\ twin a w w'.
Proof.
  intros Hs Hs' F. both Hs Hs' F; unfold evaluateCurveWaypointAtTime; rewrite E, E';
  eexists _, _; do 2 (split; [reflexivity|]); (split; [reflexivity|split; [cbn [wn_blocks fst snd]; sball|cbn [wn_pt fst snd]; fall]]).
Qed.
Lemma two_costs xs ys pi pts pi' pts' : eff_shape p T xs pi pts -> eff_shape q T ys pi' pts' -> Forall2 (feq a) pi pi' ->
  exists H g g', computeVelocityCost p T pi = Ok (H, g) /\ computeVelocityCost q T pi' = Ok (H, g') /\
    Forall (Forall sblock) H /\ Forall2 (feq a) g g'.
Proof.
  intros Hs Hs' F. both Hs Hs' F; unfold computeVelocityCost; rewrite E, E'.
  - change (find_flag _ F_jerk) with (Ok j0j1_computeVelocityCost). cbn [bind]. unfold j0j1_computeVelocityCost.
    cbn [bind get nth_error]. cbv zeta. match goal with |- context [blocks_norm ?B] => set (N := blocks_norm B) in * end. clearbody N.
    eexists _, _, _. do 2 (split; [reflexivity|]). split; [cbn [map]; repeat (apply Forall_cons; [sball|]); apply Forall_nil|cbn [map]; repeat (apply Forall2_cons; [fall|]); apply Forall2_nil].
  - change (find_flag _ F_x3) with (Ok x3_computeVelocityCost). cbn [bind]. unfold x3_computeVelocityCost.
    cbn [bind get nth_error]. cbv zeta. match goal with |- context [blocks_norm ?B] => set (N := blocks_norm B) in * end. clearbody N.
    eexists _, _, _. do 2 (split; [reflexivity|]). split; [cbn [map]; repeat (apply Forall_cons; [sball|]); apply Forall_nil|cbn [map]; repeat (apply Forall2_cons; [fall|]); apply Forall2_nil].
  - change (find_flag _ F_x5) with (Ok x5_computeVelocityCost). cbn [bind]. unfold x5_computeVelocityCost.
    cbn [bind get nth_error]. cbv zeta. match goal with |- context [blocks_norm ?B] => set (N := blocks_norm B) in * end. clearbody N.
    eexists _, _, _. do 2 (split; [reflexivity|]). split; [cbn [map]; repeat (apply Forall_cons; [sball|]); apply Forall_nil|cbn [map]; repeat (apply Forall2_cons; [fall|]); apply Forall2_nil].
Qed.
End Two.
