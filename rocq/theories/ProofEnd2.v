(** How the curve depends on the free point (C53). *)
From Verif Require Import Vec SpecBezier ModelData ModelDispatch ModelUtils ModelRows ModelCom
  SpecCom SpecCtr SpecEnd ProofBezier ProofCurve ProofWaypoints ProofWaypoints2 ProofWaypointsErr ProofCom ProofCom2 ProofTraj2 ProofEnd.
Open Scope R_scope.

(** Control points that are affine in x: constant part and weight. *)
Definition at_x (x : vec3) (p : vec3 * R) : vec3 := vadd (fst p) (vscal (snd p) x).
Fixpoint pdiffs (P : list (vec3 * R)) : list (vec3 * R) :=
  match P with
  | a :: ((b :: _) as P') => (vsub (fst b) (fst a), snd b - snd a) :: pdiffs P'
  | _ => []
  end.
Definition phodo (T : R) (P : list (vec3 * R)) : list (vec3 * R) :=
  map (fun p => (vscal (INR (pred (length P)) / T) (fst p), INR (pred (length P)) / T * snd p)) (pdiffs P).
Lemma at_x_diffs x P : vdiffs (map (at_x x) P) = map (at_x x) (pdiffs P).
Proof.
  induction P as [|a P IH]; [reflexivity|]. destruct P as [|b P]; [reflexivity|].
  change (pdiffs (a :: b :: P)) with ((vsub (fst b) (fst a), snd b - snd a) :: pdiffs (b :: P)).
  change (vdiffs (map (at_x x) (a :: b :: P))) with (vsub (at_x x b) (at_x x a) :: vdiffs (map (at_x x) (b :: P))).
  rewrite IH. cbn [map]. f_equal. unfold at_x; cbn [fst snd]. apply v3_eq; cbn; ring.
Qed.
Lemma at_x_hodo x T P : hodo T (map (at_x x) P) = map (at_x x) (phodo T P).
Proof.
  unfold hodo, phodo. rewrite at_x_diffs, !map_map, map_length. apply map_ext. intros p. unfold at_x; cbn [fst snd].
  apply v3_eq; cbn; ring.
Qed.
Lemma bezl_add n a s : forall P Q : list R, length P = n -> length Q = n ->
  bezl (map (fun p => fst p + snd p * a) (combine P Q)) s = bezl P s + a * bezl Q s.
Proof.
  intros P Q LP LQ. unfold bezl. rewrite map_length, combine_length, LP, LQ, Nat.min_id.
  rewrite <- (Rmult_1_l (bez _ (fun i => nth i P 0) s)), <- bez_lin. apply bez_ext. intros i Hi.
  destruct (Nat.lt_ge_cases i n) as [Hn|Hn].
  - set (F := fun p : R * R => fst p + snd p * a).
    rewrite (nth_indep _ 0 (F (0, 0))) by (rewrite map_length, combine_length, LP, LQ, Nat.min_id; exact Hn).
    rewrite (map_nth F), combine_nth by congruence. unfold F; cbn [fst snd]. ring.
  - rewrite !nth_overflow; try lia; [ring|]. rewrite map_length, combine_length; lia.
Qed.
Lemma at_x_bez x P s : bez3 (map (at_x x) P) s = vadd (bez3 (map fst P) s) (vscal (bezl (map snd P) s) x).
Proof.
  assert (E : forall (f : vec3 -> R) a, (forall p, f (at_x x p) = f (fst p) + snd p * a) ->
    bezl (map f (map (at_x x) P)) s = bezl (map f (map fst P)) s + a * bezl (map snd P) s).
  { intros f a Hf. rewrite <- (bezl_add (length P)) by (rewrite !map_length; reflexivity). f_equal.
    rewrite !map_map. rewrite (map_ext _ _ Hf). clear. induction P as [|p P IH]; [reflexivity|]. cbn. f_equal. exact IH. }
  unfold bez3. apply v3_eq; cbn [vx vy vz vadd vscal].
  - rewrite (E vx (vx x)) by reflexivity. ring.
  - rewrite (E vy (vy x)) by reflexivity. ring.
  - rewrite (E vz (vz x)) by reflexivity. ring.
Qed.

(** bounds *)
Lemma bezl_bound P s b : 0 <= s <= 1 -> 0 <= b -> Forall (fun p => p <= b) P -> bezl P s <= b.
Proof.
  intros Hs Hb HF. apply bez_le; [exact Hs|]. intros i _. destruct (nth_in_or_default i P 0) as [Hin| ->]; [|exact Hb].
  rewrite Forall_forall in HF. apply HF, Hin.
Qed.
Lemma bezl_abs P s b : 0 <= s <= 1 -> 0 <= b -> Forall (fun p => Rabs p <= b) P -> Rabs (bezl P s) <= b.
Proof.
  intros Hs Hb HF. apply Rabs_le. split.
  - apply bez_ge; [exact Hs|]. intros i _. destruct (nth_in_or_default i P 0) as [Hin| ->]; [|lra].
    rewrite Forall_forall in HF. specialize (HF _ Hin). apply Rabs_le_inv in HF. lra.
  - apply bezl_bound; [exact Hs|exact Hb|]. eapply Forall_impl; [|exact HF]. intros p Hp. apply Rabs_le_inv in Hp. lra.
Qed.
Lemma bez3_norm P s M : 0 <= s <= 1 -> 0 <= M -> Forall (fun p => vnorm p <= M) P -> vnorm (bez3 P s) <= M.
Proof.
  intros Hs HM HF. set (v := bez3 P s).
  assert (E : vnorm2 v = bezl (map (vdot v) P) s).
  { transitivity (vdot v (bez3 P s)); [reflexivity|]. unfold vdot at 1, bez3; cbn [vx vy vz]. clearbody v. clear - P.
    rewrite <- !bezl_scal_list, !map_map. unfold bezl. rewrite !map_length.
    set (n := pred (length P)).
    replace (bez n (fun i => nth i (map (vdot v) P) 0) s) with (bez n (fun i => 1 * nth i (map (fun x => vx v * vx x) P) 0 + 1 * (1 * nth i (map (fun x => vy v * vy x) P) 0 + 1 * nth i (map (fun x => vz v * vz x) P) 0)) s).
    - rewrite !bez_lin. ring.
    - apply bez_ext. intros i _. destruct (Nat.lt_ge_cases i (length P)) as [H|H].
      + assert (K : forall F : vec3 -> R, nth i (map F P) 0 = F (nth i P vzero)).
        { intros F. rewrite (nth_indep _ 0 (F vzero)) by (rewrite map_length; exact H). apply (map_nth F). }
        rewrite !K. unfold vdot. ring.
      + rewrite !nth_overflow by (rewrite map_length; exact H). ring. }
  pose proof (vnorm_ge v) as V. destruct (Rle_lt_or_eq_dec _ _ V) as [Pv|Pv]; [|lra].
  apply (Rmult_le_reg_l (vnorm v)); [exact Pv|]. rewrite vnorm_sq, E. apply bezl_bound; [exact Hs|nra|].
  rewrite Forall_map. eapply Forall_impl; [|exact HF]. intros p Hp. eapply Rle_trans; [apply cs3|]. apply Rmult_le_compat_l; assumption.
Qed.

Definition small (M m : R) (p : vec3 * R) : Prop := vnorm (fst p) <= M /\ Rabs (snd p) <= m.
Lemma pdiffs_small M m P : Forall (small M m) P -> Forall (small (2 * M) (2 * m)) (pdiffs P).
Proof.
  induction P as [|a P IH]; intros H; [constructor|]. destruct P as [|b P]; [constructor|].
  change (pdiffs (a :: b :: P)) with ((vsub (fst b) (fst a), snd b - snd a) :: pdiffs (b :: P)).
  inversion H as [|? ? [A1 A2] H']; subst. inversion H' as [|? ? [B1 B2] _]; subst. constructor; [|apply IH, H'].
  split; cbn [fst snd]; [pose proof (vnorm_sub (fst b) (fst a)); lra|].
  apply Rabs_le_inv in A2. apply Rabs_le_inv in B2. apply Rabs_le. lra.
Qed.
Lemma pdiffs_len P : length (pdiffs P) = pred (length P).
Proof. induction P as [|a P IH]; [reflexivity|]. destruct P as [|b P]; [reflexivity|]. cbn in *. rewrite IH. reflexivity. Qed.
Lemma phodo_small T M m n P : 0 < T -> 0 <= M -> 0 <= m -> (length P <= S n)%nat -> Forall (small M m) P ->
  Forall (small (2 * INR n * M / T) (2 * INR n * m / T)) (phodo T P) /\ (length (phodo T P) <= n)%nat.
Proof.
  intros HT HM Hm HL H. apply pdiffs_small in H. unfold phodo. split; [|rewrite map_length, pdiffs_len; lia].
  rewrite Forall_map. eapply Forall_impl; [|exact H]. intros p [H1 H2]. pose proof (pos_INR (pred (length P))) as HP.
  assert (HI : 0 < / T) by (apply Rinv_0_lt_compat, HT).
  assert (HN : INR (pred (length P)) <= INR n) by (apply le_INR; lia).
  assert (HA : Rabs (INR (pred (length P)) / T) <= INR n / T).
  { rewrite Rabs_right; [unfold Rdiv; apply Rmult_le_compat_r; lra|]. apply Rle_ge. unfold Rdiv. apply Rmult_le_pos; lra. }
  pose proof (Rabs_pos (INR (pred (length P)) / T)). pose proof (vnorm_ge (fst p)). pose proof (Rabs_pos (snd p)).
  split; cbn [fst snd].
  - rewrite vnorm_scal. replace (2 * INR n * M / T) with (INR n / T * (2 * M)) by (unfold Rdiv; ring). apply Rmult_le_compat; assumption.
  - rewrite Rabs_mult. replace (2 * INR n * m / T) with (INR n / T * (2 * m)) by (unfold Rdiv; ring). apply Rmult_le_compat; assumption.
Qed.

(** the seven flags *)
Lemma com_mask pData T cv0 : In (flag_of pData) com_flags -> com_curve pData T vzero = Ok cv0 ->
  exists L : list (vec3 * R), 0 < T /\ (length L <= 7)%nat /\ Forall (fun p => snd p = 0 \/ snd p = 1) L /\
    bc_pts cv0 = map fst L /\ forall x cv, com_curve pData T x = Ok cv -> cv = BCurve (map (at_x x) L) T.
Proof.
  intros Hf H0. destruct (com_curve_inv pData T vzero cv0 Hf H0) as (pi & pts & Hs & Epi & HT & -> & _).
  assert (K : forall a x, at_x x (a, 0) = a) by (intros; unfold at_x; apply v3_eq; cbn; ring).
  assert (K1 : forall x, at_x x (vzero, 1) = x) by (intros; unfold at_x; apply v3_eq; cbn; ring).
  assert (U : forall L, (forall x, mk_bezier (map (at_x x) L) T = computeBezierCurve (flag_of pData) T pi x) ->
    forall x cv, com_curve pData T x = Ok cv -> cv = BCurve (map (at_x x) L) T).
  { intros L HL x cv Hcv. unfold com_curve in Hcv. rewrite Epi in Hcv. cbn [bind] in Hcv. rewrite <- HL in Hcv.
    unfold mk_bezier in Hcv. destruct (map (at_x x) L); try discriminate. destruct (Rle_dec T 0); [discriminate|]. injection Hcv as <-. reflexivity. }
  inversion Hs as [? E _ a b c d Ep|? E _ a b c d Ep|? E _ a b c d e Ep|? E _ a b c d Ep|? E _ a b c d e Ep|? E _ a b c d e f Ep|? E _ a b c d e f h Ep]; subst.
  1: exists [(a, 0); (b, 0); (vzero, 1); (d, 0)].
  2: exists [(a, 0); (b, 0); (vzero, 1); (vzero, 1)].
  3: exists [(a, 0); (b, 0); (vzero, 1); (d, 0); (e, 0)].
  4: exists [(a, 0); (b, 0); (c, 0); (vzero, 1)].
  5: exists [(a, 0); (b, 0); (c, 0); (vzero, 1); (e, 0)].
  6: exists [(a, 0); (b, 0); (c, 0); (vzero, 1); (e, 0); (f, 0)].
  7: exists [(a, 0); (b, 0); (c, 0); (vzero, 1); (e, 0); (f, 0); (h, 0)].
  all: split; [exact HT|]; split; [cbn; lia|]; split; [repeat constructor; cbn; tauto|]; split; [reflexivity|].
  all: apply U; intros x; cbn [map]; rewrite ?K, ?K1, E; reflexivity.
Qed.

(** Position and acceleration are affine in x, and bounded. *)
Lemma com_affine pData T cv0 t M : In (flag_of pData) com_flags -> com_curve pData T vzero = Ok cv0 -> 0 <= t <= T ->
  Forall (fun p => vnorm p <= M) (bc_pts cv0) ->
  exists al be p q, 0 <= al <= 1 /\ Rabs be <= 120 / (T * T) /\ vnorm p <= M /\ vnorm q <= 120 * M / (T * T) /\
    forall x cv acc, com_curve pData T x = Ok cv -> is_deriv_n 2 (cv_fun cv) t acc ->
      cv_fun cv t = ev_coefs (al, p) x /\ acc = ev_coefs (be, q) x.
Proof.
  intros Hf H0 Ht HM. destruct (com_mask pData T cv0 Hf H0) as (L & HT & HL & HF & Hp & HC). rewrite Hp in HM.
  assert (Hs : 0 <= t / T <= 1).
  { split; [apply Rmult_le_pos; [lra|apply Rlt_le, Rinv_0_lt_compat; lra]|].
    apply (Rmult_le_reg_r T); [exact HT|]. unfold Rdiv. rewrite Rmult_assoc, Rinv_l by lra. lra. }
  assert (HSm : Forall (small M 1) L).
  { rewrite Forall_map in HM. clear - HM HF. induction L as [|a L IH]; [constructor|]. inversion HM; subst. inversion HF as [|? ? Ha ?]; subst.
    constructor; [|auto]. split; [assumption|]. destruct Ha as [-> | ->]; [rewrite Rabs_R0|rewrite Rabs_R1]; lra. }
  assert (M0 : L = [] \/ 0 <= M).
  { destruct L as [|a L]; [left; reflexivity|right]. inversion HSm as [|? ? [Ha _] _]; subst. pose proof (vnorm_ge (fst a)). lra. }
  destruct M0 as [->|M0].
  { exfalso. clear - H0 Hp. unfold com_curve, computeBezierCurve in H0. destruct (computeConstantWaypoints pData T); try discriminate.
    cbn [bind] in H0. cbn in Hp. destruct cv0 as [pts T']; cbn in Hp; subst pts.
    apply (fun A => A) in H0. revert H0. repeat (match goal with |- context [if ?c then _ else _] => destruct c end);
    repeat (match goal with |- context [bind ?m _] => destruct m; cbn [bind] end); try discriminate;
    unfold mk_bezier; intros H0;
    repeat (match type of H0 with context [match ?c with _ => _ end] => destruct c; try discriminate H0 end). }
  set (L1 := phodo T L). set (L2 := phodo T L1).
  destruct (phodo_small T M 1 6 L HT M0 ltac:(lra) HL HSm) as [S1 N1]. fold L1 in S1, N1.
  assert (B1 : 0 <= 2 * INR 6 * M / T /\ 0 <= 2 * INR 6 * 1 / T).
  { assert (0 < / T) by (apply Rinv_0_lt_compat, HT). pose proof (pos_INR 6). split; unfold Rdiv; repeat apply Rmult_le_pos; lra. }
  destruct (phodo_small T _ _ 5 L1 HT (proj1 B1) (proj2 B1) N1 S1) as [S2 _]. fold L2 in S2.
  assert (EM : 2 * INR 5 * (2 * INR 6 * M / T) / T = 120 * M / (T * T)) by (cbn [INR]; field; lra).
  assert (Em : 2 * INR 5 * (2 * INR 6 * 1 / T) / T = 120 / (T * T)) by (cbn [INR]; field; lra).
  rewrite EM, Em in S2.
  assert (P2 : 0 <= 120 * M / (T * T) /\ 0 <= 120 / (T * T)).
  { assert (0 < / (T * T)) by (apply Rinv_0_lt_compat; nra). split; unfold Rdiv; repeat apply Rmult_le_pos; lra. }
  exists (bezl (map snd L) (t / T)), (bezl (map snd L2) (t / T)), (bez3 (map fst L) (t / T)), (bez3 (map fst L2) (t / T)).
  split; [|split; [|split; [|split]]].
  - split; [apply bez_ge|apply bez_le]; try exact Hs; intros i _.
    all: destruct (nth_in_or_default i (map snd L) 0) as [Hin| ->]; [|lra].
    all: apply in_map_iff in Hin; destruct Hin as (p & <- & Hin); rewrite Forall_forall in HF; destruct (HF p Hin) as [-> | ->]; lra.
  - apply bezl_abs; [exact Hs|apply P2|]. rewrite Forall_map. eapply Forall_impl; [|exact S2]. intros p [_ H]; exact H.
  - apply bez3_norm; [exact Hs|exact M0|exact HM].
  - apply bez3_norm; [exact Hs|apply P2|]. rewrite Forall_map. eapply Forall_impl; [|exact S2]. intros p [H _]; exact H.
  - intros x cv acc Hcv Hacc. pose proof (HC x cv Hcv) as ->. unfold cv_fun in *. cbn [bc_pts bc_T] in *.
    split; [unfold curve; rewrite at_x_bez; unfold ev_coefs; cbn [fst snd]; apply v3_eq; cbn; ring|].
    rewrite (is_deriv_n_unique 2 _ _ t _ _ (fun _ => eq_refl) Hacc (curve_is_deriv_n 2 _ T t)).
    cbn [hodo_n]. rewrite at_x_hodo, at_x_hodo. fold L1 L2. unfold curve. rewrite at_x_bez. unfold ev_coefs; cbn [fst snd]. apply v3_eq; cbn; ring.
Qed.

(** C53, rate of the wrench *)
Lemma c53_rate pData T g G M cv0 t : In (flag_of pData) com_flags -> com_curve pData T vzero = Ok cv0 ->
  Forall (fun p => vnorm p <= M) (bc_pts cv0) -> vnorm g <= G -> 0 <= t <= T ->
  wrench_rate pData T g (1 + (120 + 240 * M) / (T * T) + G) t.
Proof.
  intros Hf H0 HM HG Ht x y cvx cvy ax ay Hx Hy Ax Ay.
  destruct (com_affine pData T cv0 t M Hf H0 Ht HM) as (al & be & p & q & Hal & Hbe & Hp & Hq & HC).
  destruct (HC x cvx ax Hx Ax) as [-> ->]. destruct (HC y cvy ay Hy Ay) as [-> ->].
  assert (HT : 0 < T) by (destruct (com_mask pData T cv0 Hf H0) as (L & HT & _); exact HT).
  set (d := vsub x y). unfold ev_coefs; cbn [fst snd].
  assert (E : v6sub (giw 1 g (vadd (vscal al x) p) (vadd (vscal be x) q)) (giw 1 g (vadd (vscal al y) p) (vadd (vscal be y) q)) =
    (vscal (- be) d, vsub (vscal al (vcross d (vsub g q))) (vscal be (vcross p d)))).
  { unfold d, v6sub, giw; cbn [fst snd]. f_equal; apply v3_eq; cbn; ring. }
  rewrite E. eapply Rle_trans; [apply norm6_split|]. rewrite vnorm_scal, Rabs_Ropp.
  pose proof (vnorm_sub (vscal al (vcross d (vsub g q))) (vscal be (vcross p d))) as H1. rewrite !vnorm_scal in H1.
  pose proof (vnorm_cross d (vsub g q)) as H2. pose proof (vnorm_cross p d) as H3. pose proof (vnorm_sub g q) as H4.
  pose proof (vnorm_ge d) as D. pose proof (vnorm_ge p). pose proof (vnorm_ge q). pose proof (vnorm_ge g). rewrite (Rabs_right al) in H1 by lra.
  pose proof (vnorm_ge (vcross d (vsub g q))). pose proof (vnorm_ge (vcross p d)). pose proof (Rabs_pos be).
  assert (I : 0 < / (T * T)) by (apply Rinv_0_lt_compat; nra).
  assert (B1 : al * vnorm (vcross d (vsub g q)) <= vnorm d * (G + 120 * M / (T * T))).
  { apply Rle_trans with (1 * vnorm (vcross d (vsub g q))); [apply Rmult_le_compat_r; lra|]. rewrite Rmult_1_l.
    eapply Rle_trans; [exact H2|]. apply Rmult_le_compat_l; [exact D|]. lra. }
  assert (B2 : Rabs be * vnorm (vcross p d) <= 120 / (T * T) * (M * vnorm d)).
  { apply Rmult_le_compat; try assumption. eapply Rle_trans; [exact H3|]. apply Rmult_le_compat_r; assumption. }
  assert (B3 : Rabs be * vnorm d <= 120 / (T * T) * vnorm d) by (apply Rmult_le_compat_r; assumption).
  replace ((1 + (120 + 240 * M) / (T * T) + G) * vnorm d) with
    (vnorm d + 120 / (T * T) * vnorm d + vnorm d * (G + 120 * M / (T * T)) + 120 / (T * T) * (M * vnorm d)) by (field; lra).
  lra.
Qed.
