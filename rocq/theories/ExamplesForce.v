(** Concrete inputs for the theorems of PropertiesForce.v: a robot of 50 kg on four
    corners with friction coefficient 1/2, then on a fifth contact in the middle. *)
From Coq Require Import Lia Lra Psatz.
From Verif Require Import Vec SpecBezier SpecTime ModelData ModelWaypoints ModelDispatch ModelUtils ModelCont ModelSolver ModelTraj ModelQp
  SpecCom SpecWp SpecCtr SpecCont SpecTraj SpecEnd SpecEnd2 SpecEnd3 SpecForce ProofCurve ProofQp3 ProofEnd PropertiesEnd2 PropertiesForce ExamplesCom ExamplesTraj ExamplesEnd ExamplesEnd2.
Import ListNotations.
Open Scope R_scope.

(** The forces on the ground at [p] on the edges of the friction cone, with their
    moments. *)
Definition foot (p : vec3) : list v6 :=
  map (fun f => (f, vcross p f)) [V3 (1/2) 0 (-1); V3 (-1/2) 0 (-1); V3 0 (1/2) (-1); V3 0 (-1/2) (-1)].
Definition four_feet : list v6 := foot (V3 1 1 0) ++ foot (V3 1 (-1) 0) ++ foot (V3 (-1) 1 0) ++ foot (V3 (-1) (-1) 0).
Definition rb_c (G : list v6) : contact := Contact (Some (CPhase [] 50 (V3 0 0 (-981/100)) G)) [V3 0 0 1; V3 0 0 (-1)] [1; -1/2] [] [].
Definition rb_pb : problem :=
  Problem [rb_c four_feet; rb_c (four_feet ++ foot vzero)] (V3 0 0 (4/5)) (V3 0 1 0) vzero vzero (V3 0 0 (4/5)) vzero vzero vzero vzero false
    (Constraints F_c1 true 5 0) DISTANCE_TRAVELED FORCE.
Lemma rb_wp : well_posed rb_pb [1; 1/2].
Proof.
  split; [cbn; tauto|]. split; [reflexivity|]. split; [discriminate|].
  split; [repeat constructor; lra|]. split; [reflexivity|].
  repeat constructor; eexists; (split; [reflexivity|]; split; [cbn; lra|]; split; [constructor|cbn; lia]).
Qed.
Lemma rb_same : same_gravity rb_pb (V3 0 0 (-981/100)).
Proof. intros c ph [<-|[<-|[]]] H; injection H as <-; reflexivity. Qed.
Lemma rb_curve : com_curve rb_pb (total [1; 1/2]) vzero = Ok (BCurve [V3 0 0 (4/5); V3 0 (1/2) (4/5); vzero; V3 0 0 (4/5)] (3/2)).
Proof.
  rewrite st_total. cbv [com_curve]. cbn. unfold mk_bezier. destruct (Rle_dec (3/2) 0); [lra|].
  unfold vzero. repeat f_equal; apply v3_eq; cbn; field.
Qed.
Lemma rb_ws : exists ws, computeWwaypoints rb_pb (total [1; 1/2]) = Ok ws /\ length ws = 4%nat.
Proof. eexists. split; reflexivity. Qed.
Lemma rb_rate ws : computeWwaypoints rb_pb (total [1; 1/2]) = Ok ws ->
  wrench_ctrl_rate rb_pb (total [1; 1/2]) (V3 0 0 (-981/100)) (length ws) 171.
Proof.
  intros E. apply (C62_rate rb_pb (total [1; 1/2]) (V3 0 0 (-981/100)) 10 1 _ ws 171 ltac:(cbn; tauto) eq_refl rb_curve).
  - repeat (apply Forall_cons; [apply vnorm_bound; [lra|unfold vnorm2, vdot; cbn; lra]|]). apply Forall_nil.
  - apply vnorm_bound; [lra|unfold vnorm2, vdot; cbn; lra].
  - exact E.
  - rewrite st_total. lra.
Qed.

Lemma rb_sq (u : v6) : gen_sq four_feet u =
  2 * (vx (fst u) * vx (fst u)) + 2 * (vy (fst u) * vy (fst u)) + 16 * (vz (fst u) * vz (fst u)) +
  16 * (vx (snd u) * vx (snd u)) + 16 * (vy (snd u) * vy (snd u)) + 4 * (vz (snd u) * vz (snd u)).
Proof. destruct u as [[a b c] [d e f]]. unfold gen_sq, four_feet, foot, dot6, vdot, vcross. cbn. field. Qed.
Lemma rb_sq5 (u : v6) : gen_sq (four_feet ++ foot vzero) u =
  gen_sq four_feet u + 1/2 * (vx (fst u) * vx (fst u)) + 1/2 * (vy (fst u) * vy (fst u)) + 4 * (vz (fst u) * vz (fst u)).
Proof.
  unfold gen_sq. rewrite map_app. unfold sum_list. rewrite fold_right_app. destruct u as [[a b c] [d e f]]. unfold foot, dot6, vdot, vcross, vzero. cbn. field.
Qed.
Lemma rb_values : singular_values 1 4 four_feet /\ singular_values 1 5 (four_feet ++ foot vzero).
Proof.
  assert (S : forall x : R, 0 <= x * x) by (intros x; nra).
  split; intros [[a b c] [d e f]]; rewrite ?rb_sq5, rb_sq; unfold dot6, vdot; cbn [fst snd vx vy vz];
    pose proof (S a); pose proof (S b); pose proof (S c); pose proof (S d); pose proof (S e); pose proof (S f); lra.
Qed.

Lemma eps_small2 : 1000000000000000 * eps52 < 1.
Proof.
  unfold eps52. assert (P : 0 < 2 ^ 52) by (apply pow_lt; lra). apply Rmult_lt_reg_r with (2 ^ 52); [exact P|].
  rewrite Rmult_assoc, Rinv_l by lra. simpl. lra.
Qed.
Lemma rb_scale : force_scale rb_pb 1 171 1 1.
Proof.
  pose proof eps_small2. pose proof eps_pos. unfold force_scale, force_weight. repeat (split; [lra|]). split.
  - intros c K [<-|[<-|[]]] [<-|[<-|[]]]; apply vnorm_bound; unfold vnorm2, vdot; cbn; lra.
  - destruct rb_values as [V4 V5]. intros c ph [<-|[<-|[]]] E; injection E as <-; eexists; (split; [eassumption|]); cbn; lra.
Qed.
Lemma comb_app G G' a b : length a = length G -> comb (G ++ G') (a ++ b) = v6add (comb G a) (comb G' b).
Proof.
  revert a. induction G as [|x G IH]; intros [|y a] H; try discriminate H.
  - cbn. destruct (comb G' b) as [[? ? ?] [? ? ?]]. unfold v6add, vadd, vzero. cbn. f_equal; apply v3_eq; cbn; ring.
  - cbn [app comb]. rewrite IH by (cbn in H; lia). destruct (comb G a) as [[? ? ?] [? ? ?]], (comb G' b) as [[? ? ?] [? ? ?]].
    unfold v6add, vadd, vscal. cbn. f_equal; apply v3_eq; cbn; ring.
Qed.
Lemma rb_nested : cones_nested (contacts rb_pb).
Proof.
  intros [|i] c c' H H'; [|destruct i; discriminate H']. injection H as <-. injection H' as <-. split.
  - intros L. cbn in L. lia.
  - intros _ w (b & Lb & Pb & E). exists (b ++ [0; 0; 0; 0]).
    change (length b = length four_feet) in Lb. change (comb four_feet b = w) in E.
    change (length (b ++ [0; 0; 0; 0]) = length (four_feet ++ foot vzero) /\ Forall (Rle 0) (b ++ [0; 0; 0; 0]) /\
      comb (four_feet ++ foot vzero) (b ++ [0; 0; 0; 0]) = w).
    split; [rewrite !app_length, Lb; reflexivity|]. split.
    + apply Forall_app. split; [exact Pb|]. repeat constructor; lra.
    + rewrite comb_app by exact Lb. rewrite E. destruct w as [[? ? ?] [? ? ?]]. unfold v6add, vadd, vscal, vzero. cbn. f_equal; apply v3_eq; cbn; ring.
Qed.
Lemma norm6_bound a r : 0 <= r -> dot6 a a <= r * r -> norm6 a <= r.
Proof. intros Hr H. unfold norm6. rewrite <- (sqrt_square r Hr). apply sqrt_le_1_alt. exact H. Qed.
Lemma gen_len_bound G r : (forall a, In a G -> norm6 a <= r) -> gen_len G <= INR (length G) * r.
Proof.
  unfold gen_len. induction G as [|a G IH]; intros H; [cbn; lra|]. cbn [map sum_list fold_right length]. rewrite S_INR.
  pose proof (H a (or_introl eq_refl)). specialize (IH (fun b Hb => H b (or_intror Hb))). unfold sum_list in IH. lra.
Qed.
Lemma rb_len c ph : In c (contacts rb_pb) -> cd_phase c = Some ph -> gen_len (cp_G ph) <= 1 * cp_mass ph.
Proof.
  assert (F : forall p a, In p [V3 1 1 0; V3 1 (-1) 0; V3 (-1) 1 0; V3 (-1) (-1) 0; vzero] -> In a (foot p) -> norm6 a <= 2).
  { intros p a Hp Ha. apply norm6_bound; [lra|]. unfold foot in Ha. cbn [map In] in Ha.
    destruct Hp as [<-|[<-|[<-|[<-|[<-|[]]]]]]; destruct Ha as [<-|[<-|[<-|[<-|[]]]]]; unfold dot6, vdot, vcross, vzero; cbn; lra. }
  assert (N : forall a, In a (four_feet ++ foot vzero) -> norm6 a <= 2).
  { intros a Ha. unfold four_feet in Ha. rewrite !in_app_iff in Ha.
    destruct Ha as [[Ha|[Ha|[Ha|Ha]]]|Ha]; eapply F; try eassumption; cbn; tauto. }
  intros [<-|[<-|[]]] E; injection E as <-; cbn [cp_G cp_mass].
  - eapply Rle_trans; [apply (gen_len_bound _ 2); intros a Ha; apply N, in_or_app; left; exact Ha|]. cbn; lra.
  - eapply Rle_trans; [apply (gen_len_bound _ 2); exact N|]. cbn; lra.
Qed.
(** The hypotheses of C73 hold, the wrench of the first phase is written in all its
    control points, and the tolerance is small. *)
Example ex_C73 : forall scaled, exists pi ws,
  well_posed rb_pb [1; 1/2] /\ splittable [1; 1/2] /\ same_gravity rb_pb (V3 0 0 (-981/100)) /\
  representation rb_pb <> DOUBLE_DESCRIPTION /\ In (flag_of rb_pb) exact_w_flags /\
  computeConstantWaypoints rb_pb (total [1; 1/2]) = Ok pi /\ computeWwaypoints rb_pb (total [1; 1/2]) = Ok ws /\
  cost_weight rb_pb [1; 1/2] (computeDiscretizedTimeFixed [1; 1/2] 7) 1 /\ force_scale rb_pb 1 171 1 1 /\
  acc_ctrl_rate scaled [1; 1/2] <= 171 /\ wrench_ctrl_rate rb_pb (total [1; 1/2]) (V3 0 0 (-981/100)) (length ws) 171 /\
  long_phases [1; 1/2] /\ cones_nested (contacts rb_pb) /\
  (forall c ph, In c (contacts rb_pb) -> cd_phase c = Some ph -> gen_len (cp_G ph) <= 1 * cp_mass ph) /\
  ~ left_to_prev (contacts rb_pb) 0 /\ ~ left_to_next (contacts rb_pb) 0 /\
  force_vars (force_counts (length ws) 0 (contacts rb_pb)) = 124%nat /\
  force_tol (force_vars (force_counts (length ws) 0 (contacts rb_pb))) (cont_rows_needed false (length pi) (length ws) (contacts rb_pb)) 1 <= 1/100000.
Proof.
  intros scaled. destruct rb_ws as (ws & Ews & Lws).
  destruct (computeConstantWaypoints rb_pb (total [1; 1/2])) as [pi| |] eqn:Epi; try discriminate Epi.
  assert (Lp : length pi = 4%nat) by (cbn in Epi; injection Epi as <-; reflexivity).
  exists pi, ws. split; [exact rb_wp|]. split; [apply ProofCont7.long_split, st_long|]. split; [exact rb_same|].
  split; [discriminate|]. split; [cbn; tauto|]. split; [reflexivity|]. split; [exact Ews|].
  split; [left; split; reflexivity|]. split; [exact rb_scale|].
  split; [unfold acc_ctrl_rate; rewrite st_total; destruct scaled; lra|]. split; [apply rb_rate, Ews|].
  split; [exact st_long|]. split; [exact rb_nested|]. split; [exact rb_len|]. rewrite Lws, Lp.
  split; [intros (j & c & c' & E & _); discriminate E|].
  split; [intros (c & c' & E & E' & H); injection E as <-; injection E' as <-; vm_compute in H; lia|].
  split; [reflexivity|]. change (force_tol 124 40 1 <= 1/100000). unfold force_tol, accuracy, force_weight.
  replace (sqrt (1 / 1000000)) with (1 / 1000) by (symmetry; apply sqrt_lem_1; lra).
  replace (INR 124) with 124 by (cbn; lra). replace (INR (3 + 124)) with 127 by (cbn; lra). replace (INR (40 + (3 + 124))) with 167 by (cbn; lra).
  pose proof eps_small2. lra.
Qed.
