(** C95: with the acceleration cost, a cut changes the plan. *)
From Coq Require Import List Lia Lra.
From Verif Require Import Vec SpecBezier SpecTime ModelData ModelDispatch ModelUtils ModelCont ModelSolver ModelTraj
  SpecCom SpecWp SpecCtr SpecTraj SpecEnd SpecBest SpecCut ProofBezier ProofCurve ProofTime ProofWaypoints ProofCom2 ProofCom3 ProofTraj ProofTraj2 ProofTraj3 ProofBest ProofBest2 ProofCut.
Import ListNotations.
Open Scope R_scope.

(** One phase of two seconds without constraints, from rest at the origin to (1,0,0). *)
Definition cu_c : contact := Contact (Some (CPhase [] 1 (V3 0 0 (-10)) [])) [] [] [] [].
Definition cu_pb : problem :=
  Problem [cu_c] vzero vzero vzero vzero (V3 1 0 0) vzero vzero vzero vzero false (Constraints F_c1 false 0 0) ACCELERATION DOUBLE_DESCRIPTION.
Lemma cu_plannable : plannable cu_pb [2].
Proof.
  split; [|split; [exists (V3 0 0 (-10)); intros c ph [<-|[]] H; injection H as <-; reflexivity|cbn; tauto]].
  split; [cbn; tauto|]. split; [reflexivity|]. split; [discriminate|]. split; [repeat constructor; lra|]. split; [reflexivity|].
  repeat constructor. eexists; (split; [reflexivity|]; split; [cbn; lra|]; split; [constructor|cbn; lia]).
Qed.
Definition cu_cv (x : vec3) : bcurve := BCurve [vzero; vzero; x; V3 1 0 0] 2.
Lemma cu_curve x : com_curve cu_pb 2 x = Ok (cu_cv x).
Proof.
  cbv [com_curve]. cbn. unfold mk_bezier. destruct (Rle_dec 2 0); [lra|].
  unfold cu_cv. repeat f_equal; apply v3_eq; cbn; field.
Qed.
Definition cu_acc (x : vec3) (t : R) : vec3 :=
  vscal (3 / 2) (vadd (vscal (1 - t / 2) x) (vscal (t / 2) (vsub (V3 1 0 0) (vscal 2 x)))).
Lemma cu_deriv x t : is_deriv_n 2 (cv_fun (cu_cv x)) t (cu_acc x t).
Proof.
  replace (cu_acc x t) with (curve (hodo_n 2 2 (bc_pts (cu_cv x))) 2 t); [apply (curve_is_deriv_n 2)|].
  apply v3_eq; cbv [cu_cv cu_acc bc_pts hodo_n hodo vdiffs length pred map curve bez3 bezl bez sumf bern binom nth vx vy vz vadd vscal vsub vzero Nat.add Nat.sub INR pow]; field.
Qed.
Lemma cu_sum x ta s : sum_acc2 (cv_fun (cu_cv x)) ta s -> s = sum_list (map (fun tp : R * Z => vnorm2 (cu_acc x (fst tp))) ta).
Proof.
  intros H. apply (sum_acc2_unique (cv_fun (cu_cv x)) ta); [exact H|]. exists (map (fun tp : R * Z => cu_acc x (fst tp)) ta).
  split; [|rewrite map_map; reflexivity]. clear H. induction ta as [|tp ta IH]; cbn; constructor; [apply cu_deriv|exact IH].
Qed.
Lemma cu_free q m Ts f : (forall c, In c (contacts q) -> c = cu_c) -> k_constraintAcceleration (constr q) = false -> (forall t, exists a, is_deriv_n 2 f t a) ->
  plan_feasible q (sampled Ts m) f.
Proof.
  intros HC HA HD i c t Hc _. apply nth_error_In, HC in Hc. subst c. split.
  - split; [intros [|j] K k; discriminate|]. destruct (HD t) as [a Ha]. exists (CPhase [] 1 (V3 0 0 (-10)) []), a. split; [reflexivity|]. split; [exact Ha|constructor].
  - intros X. rewrite HA in X. discriminate X.
Qed.

Lemma steps_n s e n0 n : e = s + INR n0 -> steps_to s e 1 n -> n = n0.
Proof.
  intros -> (H1 & H2). rewrite Rmult_1_r in H1. assert (A : (n0 <= n)%nat) by (apply INR_le; lra).
  destruct (Nat.eq_dec n n0) as [|N]; [assumption|]. specialize (H2 n0 ltac:(lia)). lra.
Qed.
Lemma times_1 : computeDiscretizedTime [2] 1 = Ok [(0, 0%Z); (1, 0%Z); (2, 0%Z)].
Proof.
  destruct (c11_ok [2] 1 Rlt_0_1 ltac:(repeat constructor; lra)) as (bs & E & L & H & _). rewrite E. f_equal.
  destruct bs as [|b [|? ?]]; try discriminate L. destruct (H 0%nat b eq_refl) as (n & Hn & ->).
  replace n with 2%nat by (symmetry; refine (steps_n _ _ 2 n _ Hn); cbn; ring). cbn. repeat (f_equal; try ring).
Qed.
Lemma times_2 : computeDiscretizedTime [1; 1] 1 = Ok [(0, 0%Z); (1, 0%Z); (1, 1%Z); (2, 1%Z)].
Proof.
  destruct (c11_ok [1; 1] 1 Rlt_0_1 ltac:(repeat constructor; lra)) as (bs & E & L & H & _). rewrite E. f_equal.
  destruct bs as [|b [|b' [|? ?]]]; try discriminate L. destruct (H 0%nat b eq_refl) as (n & Hn & ->). destruct (H 1%nat b' eq_refl) as (n' & Hn' & ->).
  replace n with 1%nat by (symmetry; refine (steps_n _ _ 1 n _ Hn); cbn; ring). replace n' with 1%nat by (symmetry; refine (steps_n _ _ 1 n' _ Hn'); cbn; ring). cbn. repeat (f_equal; try ring).
Qed.
Lemma cu_cut_times : cut_times 0 1 [2] = [1; 1].
Proof. cbn. f_equal. f_equal. ring. Qed.
Lemma cu_decides q Us ta : same_motion cu_pb q -> total Us = 2 -> In (0, 0%Z) ta -> cost_decides q Us ta.
Proof.
  intros SM HT HI. right. split; [symmetry; apply SM|].
  exists (0, 0%Z), vzero, (V3 1 0 0), (cu_cv vzero), (cu_cv (V3 1 0 0)), (cu_acc vzero 0), (cu_acc (V3 1 0 0) 0).
  rewrite HT, <- !(curve_same cu_pb q _ _ SM). split; [exact HI|]. split; [apply cu_curve|]. split; [apply cu_curve|].
  split; [apply cu_deriv|]. split; [apply cu_deriv|]. intros E. apply (f_equal vx) in E. cbn in E. lra.
Qed.
Lemma cu_best q Us ta x : same_motion cu_pb q -> total Us = 2 -> (forall c, In c (contacts q) -> c = cu_c) -> k_constraintAcceleration (constr q) = false ->
  (forall y, sum_list (map (fun tp : R * Z => vnorm2 (cu_acc x (fst tp))) ta) <= sum_list (map (fun tp : R * Z => vnorm2 (cu_acc y (fst tp))) ta)) ->
  best q Us (Every 1) ta x (cu_cv x).
Proof.
  intros SM HT HC HA HM. split; [rewrite HT, <- (curve_same cu_pb q _ _ SM); apply cu_curve|].
  split; [apply (cu_free q (Every 1)); [exact HC|exact HA|intros t; eexists; apply cu_deriv]|].
  intros y cvy s s' Hy _ C1 C2. rewrite HT, <- (curve_same cu_pb q _ _ SM), cu_curve in Hy. injection Hy as <-.
  assert (EC : costFunction q = ACCELERATION) by (symmetry; apply SM).
  destruct C1 as [[X _]|[_ C1]]; [rewrite EC in X; discriminate X|]. destruct C2 as [[X _]|[_ C2]]; [rewrite EC in X; discriminate X|].
  rewrite (cu_sum x ta s C1), (cu_sum y ta s' C2). apply HM.
Qed.
Lemma c95_acc : exists p, plannable p [2] /\ costFunction p = ACCELERATION /\
  plannable (cut 0 p) (cut_times 0 1 [2]) /\
  forall scaled wg quadprog glpk, qp_solves quadprog -> exists r r' x x',
    call scaled wg quadprog glpk p [2] (Every 1) = Ok r /\ rc_success r = true /\ rc_x r = l3 x /\
    call scaled wg quadprog glpk (cut 0 p) (cut_times 0 1 [2]) (Every 1) = Ok r' /\ rc_success r' = true /\ rc_x r' = l3 x' /\
    vx x = 3 / 7 /\ vx x' = 5 / 11.
Proof.
  exists cu_pb. split; [exact cu_plannable|]. split; [reflexivity|].
  assert (PL : plannable (cut 0 cu_pb) (cut_times 0 1 [2])) by (apply (cut_plannable cu_pb [2] 0 2 1 cu_plannable eq_refl); lra).
  split; [exact PL|]. rewrite cu_cut_times in *. intros scaled wg quadprog glpk QO.
  pose proof (cut_same cu_pb 0) as SM.
  destruct (c90_found scaled wg quadprog glpk QO cu_pb [2] cu_plannable (Every 1) _ (V3 (3/7) 0 0) (cu_cv (V3 (3/7) 0 0)) Rlt_0_1 times_1) as (r & E & S & X & _).
  - apply cu_decides; [repeat split|cbn; ring|left; reflexivity].
  - apply cu_best; [repeat split|cbn; ring|intros c [<-|[]]; reflexivity|reflexivity|].
    intros [a b c]. cbn [map fst sum_list fold_right]. unfold vnorm2, cu_acc, vdot, vadd, vsub, vscal; cbn [vx vy vz].
    pose proof (pow2_ge_0 (a - 3 / 7)). pose proof (pow2_ge_0 b). pose proof (pow2_ge_0 c). nra.
  - destruct (c90_found scaled wg quadprog glpk QO (cut 0 cu_pb) [1; 1] PL (Every 1) _ (V3 (5/11) 0 0) (cu_cv (V3 (5/11) 0 0)) Rlt_0_1 times_2) as (r' & E' & S' & X' & _).
    + apply cu_decides; [exact SM|cbn; ring|left; reflexivity].
    + apply cu_best; [exact SM|cbn; ring|intros c [<-|[<-|[]]]; reflexivity|reflexivity|].
      intros [a b c]. cbn [map fst sum_list fold_right]. unfold vnorm2, cu_acc, vdot, vadd, vsub, vscal; cbn [vx vy vz].
      pose proof (pow2_ge_0 (a - 5 / 11)). pose proof (pow2_ge_0 b). pose proof (pow2_ge_0 c). nra.
    + exists r, r', (V3 (3/7) 0 0), (V3 (5/11) 0 0). repeat (split; [assumption|]). split; reflexivity.
Qed.
