(** The quarter turn and the reflection preserve what ProofEffTurn.v asks for. *)
From Coq Require Import List Lia Lra.
From Verif Require Import Vec SpecBezier ModelData ModelDispatch ModelSolver ModelTraj ModelEff
  SpecCom SpecSolver SpecTraj Spec0Step SpecEff SpecEffTurn ProofCurve ProofMove ProofEffTurn.
Import ListNotations.
Open Scope R_scope.

Ltac lin := intros; apply v3_eq; cbn [quarter_turn reflection vadd vscal vx vy vz]; ring.
Lemma rigid_turn : rigid quarter_turn.
Proof.
  split.
  - lin. - lin.
  - intros [a b c] [d e f]. unfold vdot, quarter_turn. cbn [vx vy vz]. ring.
  - reflexivity.
  - intros [a b c]. unfold le3, eff_bounds, quarter_turn, vopp. cbn [vx vy vz]. lra.
  - intros [a b c]. exists (V3 b (- a) c). unfold quarter_turn. apply v3_eq; cbn [vx vy vz]; ring.
  - intros [|u P] T t.
    + unfold curve, bez3, bezl, bez, sumf, quarter_turn. cbn [map nth length vx vy vz pred]. apply v3_eq; cbn [vx vy vz]; ring.
    + unfold curve, bez3. rewrite !map_map. apply v3_eq; cbn [quarter_turn vx vy vz].
      * rewrite (bezl_lin3 (u :: P) _ 0 (-1) 0 0 _ ltac:(discriminate)); [ring|intros p; cbn [vx]; ring].
      * rewrite (bezl_lin3 (u :: P) _ 1 0 0 0 _ ltac:(discriminate)); [ring|intros p; cbn [vy]; ring].
      * rewrite (bezl_lin3 (u :: P) _ 0 0 1 0 _ ltac:(discriminate)); [ring|intros p; cbn [vz]; ring].
Qed.
Lemma rigid_reflection : rigid reflection.
Proof.
  split.
  - lin. - lin.
  - intros [a b c] [d e f]. unfold vdot, reflection. cbn [vx vy vz]. ring.
  - reflexivity.
  - intros [a b c]. unfold le3, eff_bounds, reflection, vopp. cbn [vx vy vz]. lra.
  - intros [a b c]. exists (V3 (- a) b c). unfold reflection. apply v3_eq; cbn [vx vy vz]; ring.
  - intros [|u P] T t.
    + unfold curve, bez3, bezl, bez, sumf, reflection. cbn [map nth length vx vy vz pred]. apply v3_eq; cbn [vx vy vz]; ring.
    + unfold curve, bez3. rewrite !map_map. apply v3_eq; cbn [reflection vx vy vz].
      * rewrite (bezl_lin3 (u :: P) _ (-1) 0 0 0 _ ltac:(discriminate)); [ring|intros p; cbn [vx]; ring].
      * rewrite (bezl_lin3 (u :: P) _ 0 1 0 0 _ ltac:(discriminate)); [ring|intros p; cbn [vy]; ring].
      * rewrite (bezl_lin3 (u :: P) _ 0 0 1 0 _ ltac:(discriminate)); [ring|intros p; cbn [vz]; ring].
Qed.

Lemma c108 : forall g p q path path' (f : R -> vec3) T wd, In g [quarter_turn; reflection] ->
  In (flag_of p) effector_flags -> transformed g p q -> 0 < T -> 0 <= wd <= 1 ->
  (forall s, 0 <= s <= 1 -> path s = Ok (f s)) -> (forall s, 0 <= s <= 1 -> path' s = Ok (g (f s))) ->
  forall wg quadprog glpk init r wg' quadprog' glpk' init',
  qp_solves quadprog -> qp_sound quadprog -> qp_solves quadprog' ->
  (forall k, length (init k) = k) -> (forall k, length (init' k) = k) ->
  solveEndEffector wg quadprog glpk init p path T wd = Ok r -> rc_success r = true ->
  exists r', solveEndEffector wg' quadprog' glpk' init' q path' T wd = Ok r' /\ rc_success r' = true /\
    forall t, cv_fun (rc_c r') t = g (cv_fun (rc_c r) t).
Proof.
  intros g p q path path' f T wd Hg Hin TR HT Hw Hp Hp' wg quadprog glpk init r wg' quadprog' glpk' init' Q1 Q2 Q3 I1 I2 E S.
  assert (RG : rigid g) by (destruct Hg as [<-|[<-|[]]]; [apply rigid_turn|apply rigid_reflection]).
  exact (c108_turn g RG p q T Hin TR HT path path' f (fun s => g (f s)) wd Hp Hp' (fun _ _ => eq_refl) Hw wg quadprog glpk init r wg' quadprog' glpk' init' Q1 Q2 Q3 I1 I2 E S).
Qed.
