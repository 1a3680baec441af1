(** Predefined end-effector curves and sampled costs. *)
From Verif Require Import Vec SpecBezier ModelData ModelUtils ModelRows ModelWaypointsJerk ModelDispatch ModelCont ModelSolver ModelTraj ModelEff
  ModelEffCost SpecCom SpecWp SpecSolver SpecTraj SpecEff SpecEffCost ProofBezier ProofCurve ProofCom ProofWaypoints ProofWaypoints2 ProofSolver ProofTraj
  ProofEff ProofEff2 ProofEff3 ProofEff4 ProofEff6 ProofEff7.
Open Scope R_scope.

(** * C60 *)
Lemma c60_init pData T : 0 < T ->
  exists cv, mk_bezier (computeConstantWaypointsInitPredef pData T) T = Ok cv /\ bc_T cv = T /\
    cv_fun cv 0 = c0 pData /\ is_deriv_n 1 (cv_fun cv) 0 (dc0 pData) /\ is_deriv_n 2 (cv_fun cv) 0 (ddc0 pData) /\
    is_deriv_n 3 (cv_fun cv) 0 vzero /\ cv_fun cv T = c1 pData.
Proof.
  intros HT. assert (HT0 : T <> 0) by lra. eexists. split; [unfold computeConstantWaypointsInitPredef; apply mk_bezier_ok; exact HT|].
  split; [reflexivity|]. unfold cv_fun. cbn [bc_pts bc_T].
  repeat split;
    first [ rewrite curve_at_0; reflexivity
          | rewrite curve_at_T by assumption; reflexivity
          | apply is_deriv_n_at_0; hodo_vals; vec_field ].
Qed.
Lemma c60_goal pData T : 0 < T ->
  exists cv, mk_bezier (computeConstantWaypointsGoalPredef pData T) T = Ok cv /\ bc_T cv = T /\
    cv_fun cv T = c1 pData /\ is_deriv_n 1 (cv_fun cv) T (dc1 pData) /\ is_deriv_n 2 (cv_fun cv) T (ddc1 pData) /\
    is_deriv_n 3 (cv_fun cv) T vzero /\ cv_fun cv 0 = c0 pData.
Proof.
  intros HT. assert (HT0 : T <> 0) by lra. eexists. split; [unfold computeConstantWaypointsGoalPredef; apply mk_bezier_ok; exact HT|].
  split; [reflexivity|]. unfold cv_fun. cbn [bc_pts bc_T].
  repeat split;
    first [ rewrite curve_at_0; reflexivity
          | rewrite curve_at_T by assumption; reflexivity
          | apply is_deriv_n_at_T; [assumption|]; hodo_vals; vec_field ].
Qed.
Lemma c60_other_end pData T : 0 < T ->
  exists cvi cvg, mk_bezier (computeConstantWaypointsInitPredef pData T) T = Ok cvi /\
    mk_bezier (computeConstantWaypointsGoalPredef pData T) T = Ok cvg /\
    is_deriv_n 1 (cv_fun cvi) T (vscal (/ T) (vsub (vscal 4 (vsub (c1 pData) (c0 pData)))
      (vadd (vscal (3 * T) (dc0 pData)) (vscal (T * T) (ddc0 pData))))) /\
    is_deriv_n 1 (cv_fun cvg) 0 (vscal (/ T) (vadd (vscal 4 (vsub (c1 pData) (c0 pData)))
      (vsub (vscal (T * T) (ddc1 pData)) (vscal (3 * T) (dc1 pData))))).
Proof.
  intros HT. assert (HT0 : T <> 0) by lra. eexists _, _.
  split; [unfold computeConstantWaypointsInitPredef; apply mk_bezier_ok; exact HT|].
  split; [unfold computeConstantWaypointsGoalPredef; apply mk_bezier_ok; exact HT|].
  unfold cv_fun. cbn [bc_pts bc_T]. split.
  - apply is_deriv_n_at_T; [assumption|]; hodo_vals; vec_field.
  - apply is_deriv_n_at_0; hodo_vals; vec_field.
Qed.

(** * C61 *)
Definition blocks_ok (nf : nat) (w : wpn) : Prop := length (wn_blocks w) = nf.
Definition evals : Type := problem -> R -> list vec3 -> R -> outcome wpn.
Definition good (eval : evals) : Prop := forall pData T pi s, In (flag_of pData) effector_flags -> 
  computeConstantWaypoints pData T = Ok pi -> exists w, eval pData T pi s = Ok w /\ length (wn_blocks w) = eff_free (flag_of pData).

Lemma shape_of pData T pi : In (flag_of pData) effector_flags -> computeConstantWaypoints pData T = Ok pi ->
  exists pts, eff_shape pData T (repeat vzero (eff_free (flag_of pData))) pi pts.
Proof.
  intros Hin Hc. destruct (eff_shape_total pData T (repeat vzero (eff_free (flag_of pData))) Hin (repeat_length _ _)) as (pi' & pts & Hc' & Hs).
  rewrite Hc in Hc'. injection Hc' as <-. exists pts. exact Hs.
Qed.
Lemma good_acc : good evaluateAccelerationCurveWaypointAtTime.
Proof.
  intros pData T pi s Hin Hc. destruct (shape_of pData T pi Hin Hc) as (pts & Hs).
  eff_cases Hs; unfold evaluateAccelerationCurveWaypointAtTime; eff_flag; (eexists; split; [reflexivity|reflexivity]).
Qed.
Lemma good_jerk : good evaluateJerkCurveWaypointAtTime.
Proof.
  intros pData T pi s Hin Hc. destruct (shape_of pData T pi Hin Hc) as (pts & Hs).
  eff_cases Hs; unfold evaluateJerkCurveWaypointAtTime; eff_flag; (eexists; split; [reflexivity|reflexivity]).
Qed.
Definition scalarb (b : mat3) : Prop := b = mscal (vx (row0 b)) mid.
Lemma vel_scalar pData T pi s : In (flag_of pData) effector_flags -> computeConstantWaypoints pData T = Ok pi ->
  exists w, evaluateVelocityCurveWaypointAtTime pData T pi s = Ok w /\ length (wn_blocks w) = eff_free (flag_of pData) /\
    Forall scalarb (wn_blocks w).
Proof.
  intros Hin Hc. destruct (shape_of pData T pi Hin Hc) as (pts & Hs).
  eff_cases Hs; unfold evaluateVelocityCurveWaypointAtTime; eff_flag; (eexists; split; [reflexivity|]; split; [reflexivity|]);
    cbn [wn_blocks]; repeat (first [apply Forall_nil | apply Forall_cons]); unfold scalarb, mscal, mid; cbn [row0 row1 row2 vscal vx vy vz];
    unfold mscal, vscal; cbn [row0 row1 row2 vx vy vz]; f_equal; f_equal; ring.
Qed.

Lemma sum_cost_ok nf (W : nat -> wpn) : forall n i H g,
  (forall k, length (wn_blocks (W k)) = nf) ->
  square (3 * nf) H -> length g = (3 * nf)%nat ->
  exists H' g', sum_cost (3 * nf) (map W (seq i n)) H g = Ok (H', g') /\ square (3 * nf) H' /\ length g' = (3 * nf)%nat /\
    forall xs, length xs = nf ->
      quad H' (flat xs) = quad H (flat xs) + wsum (fun k => vnorm2 (ev_blocks (wn_blocks (W k)) xs)) i n /\
      rdot g' (flat xs) = rdot g (flat xs) + wsum (fun k => vdot (ev_blocks (wn_blocks (W k)) xs) (wn_pt (W k))) i n.
Proof.
  induction n as [|n IH]; intros i H g LW SH LG.
  - exists H, g. split; [reflexivity|]. split; [exact SH|]. split; [exact LG|]. intros xs _. unfold wsum, sum_list. cbn. split; ring.
  - cbn [seq map sum_cost]. rewrite (LW i), Nat.eqb_refl. cbn [negb].
    assert (E3 : (3 * length (wn_blocks (W i)) = 3 * nf)%nat) by (rewrite LW; reflexivity).
    destruct (IH (S i) (matx_add H (mtm (3 * nf) (wpn_rows (W i)))) (vecx_add g (mtv (3 * nf) (wpn_rows (W i)) (l3 (wn_pt (W i)))))) as (H' & g' & E' & SH' & LG' & HQ).
    { exact LW. }
    { apply square_add; [exact SH|]. apply mtm_square, wpn_rows_len. exact E3. }
    { rewrite vecx_add_len; [exact LG|]. rewrite mtv_len; [exact LG|]. apply wpn_rows_len. exact E3. }
    exists H', g'. split; [exact E'|]. split; [exact SH'|]. split; [exact LG'|]. intros xs Lx. destruct (HQ xs Lx) as [Q1 Q2].
    rewrite Q1, Q2. unfold wsum. cbn [seq map]. unfold sum_list at 2 4. cbn [fold_right].
    fold (sum_list (map (fun k => vnorm2 (ev_blocks (wn_blocks (W k)) xs)) (seq (S i) n))).
    fold (sum_list (map (fun k => vdot (ev_blocks (wn_blocks (W k)) xs) (wn_pt (W k))) (seq (S i) n))).
    rewrite (quad_add (3 * nf)) by (try exact SH; apply mtm_square, wpn_rows_len; exact E3).
    rewrite rdot_add by (rewrite mtv_len; [exact LG|apply wpn_rows_len; exact E3]).
    rewrite quad_wpn, rdot_wpn by (try exact E3; rewrite LW, Lx; reflexivity). split; ring.
Qed.

Lemma ccw_ok pData T : In (flag_of pData) effector_flags -> exists pi, computeConstantWaypoints pData T = Ok pi.
Proof. intros Hin. destruct (eff_shape_total pData T (repeat vzero (eff_free (flag_of pData))) Hin (repeat_length _ _)) as (pi & pts & Hc & _). exists pi. exact Hc. Qed.
Lemma dim_eff pData : In (flag_of pData) effector_flags -> dimVar pData = (3 * eff_free (flag_of pData))%nat.
Proof. intros Hin. unfold dimVar. in_cases Hin; rewrite Hin; reflexivity. Qed.

Lemma c61_gen eval N pData T : good eval -> In (flag_of pData) effector_flags -> N <> 1%nat ->
  exists H g K, sampled_cost eval N pData T = Ok (H, g) /\ cost_size (3 * eff_free (flag_of pData)) H g /\
    forall xs v, length xs = eff_free (flag_of pData) -> evaluated eval pData T N xs v ->
      quad H (flat xs) + 2 * rdot g (flat xs) + K = sum_sq N v.
Proof.
  intros Hg Hin HN. destruct (ccw_ok pData T Hin) as (pi & Hc). set (nf := eff_free (flag_of pData)) in *.
  pose (W k := okw (eval pData T pi (sample N k))).
  assert (HW : forall k, eval pData T pi (sample N k) = Ok (W k) /\ length (wn_blocks (W k)) = nf).
  { intros k. destruct (Hg pData T pi (sample N k) Hin Hc) as (w & E & L). unfold W. rewrite E. split; [reflexivity|exact L]. }
  destruct (sum_cost_ok nf W N 0 (matx_zero (3 * nf)) (repeat 0 (3 * nf)) (fun k => proj2 (HW k)) (square_zero _) (repeat_length _ _))
    as (H & g & E & [SH1 SH2] & LG & HQ).
  exists H, g, (wsum (fun k => vnorm2 (wn_pt (W k))) 0 N). split.
  { unfold sampled_cost. destruct (Nat.eqb_spec N 1); [contradiction|]. rewrite Hc. cbn [bind]. rewrite (mapM_ok _ W) by (intros k _; apply HW).
    cbn [bind]. rewrite (dim_eff pData Hin). exact E. }
  split; [repeat split; assumption|]. intros xs v Lx (pi' & Hc' & Hv). rewrite Hc in Hc'. injection Hc' as <-.
  destruct (HQ xs Lx) as [Q1 Q2]. rewrite Q1, Q2, quad_zero, rdot_repeat0.
  transitivity (wsum (fun k => vnorm2 (ev_blocks (wn_blocks (W k)) xs)) 0 N
       + 2 * wsum (fun k => vdot (ev_blocks (wn_blocks (W k)) xs) (wn_pt (W k))) 0 N
       + 1 * wsum (fun k => vnorm2 (wn_pt (W k))) 0 N); [ring|].
  rewrite <- !wsum_lin. unfold sum_sq. fold (wsum (fun k => vnorm2 (v k)) 0 N). apply wsum_ext. intros k Hk.
  destruct (Hv k ltac:(lia)) as (w & Ew & ->). destruct (HW k) as [Ew' _]. rewrite Ew in Ew'. injection Ew' as ->.
  unfold ev_wpn, vnorm2. vcbn. ring.
Qed.
Lemma evaluated_ex eval N pData T xs : good eval -> In (flag_of pData) effector_flags ->
  exists v, evaluated eval pData T N xs v.
Proof.
  intros Hg Hin. destruct (ccw_ok pData T Hin) as (pi & Hc). exists (fun k => ev_wpn (okw (eval pData T pi (sample N k))) xs).
  exists pi. split; [exact Hc|]. intros k _. destruct (Hg pData T pi (sample N k) Hin Hc) as (w & E & L). exists w. rewrite E. split; reflexivity.
Qed.
Lemma c61_sampled eval N pData T :
  eval = evaluateAccelerationCurveWaypointAtTime \/ eval = evaluateJerkCurveWaypointAtTime ->
  In (flag_of pData) effector_flags -> 0 < T -> N <> 1%nat ->
  exists H g K, sampled_cost eval N pData T = Ok (H, g) /\ cost_size (3 * eff_free (flag_of pData)) H g /\
    forall xs, length xs = eff_free (flag_of pData) ->
      exists v, evaluated eval pData T N xs v /\ quad H (flat xs) + 2 * rdot g (flat xs) + K = sum_sq N v.
Proof.
  intros He Hin _ HN. assert (Hg : good eval) by (destruct He as [-> | ->]; [apply good_acc|apply good_jerk]).
  destruct (c61_gen eval N pData T Hg Hin HN) as (H & g & K & E & S & HQ). exists H, g, K. split; [exact E|]. split; [exact S|].
  intros xs Lx. destruct (evaluated_ex eval N pData T xs Hg Hin) as (v & Hv). exists v. split; [exact Hv|]. apply HQ; assumption.
Qed.
Lemma c61_jerk N pData T :
  In (flag_of pData) effector_flags -> flag_of pData <> F_x5 -> 0 < T -> N <> 1%nat ->
  exists H g K, computeJerkCostFunctionDiscretized N pData T = Ok (H, g) /\ cost_size (3 * eff_free (flag_of pData)) H g /\
    forall xs, length xs = eff_free (flag_of pData) ->
      exists cv v, eff_curve pData T xs = Ok cv /\ derivs 3 (cv_fun cv) T N v /\
        quad H (flat xs) + 2 * rdot g (flat xs) + K = sum_sq N v.
Proof.
  intros Hin Hf HT HN. destruct (c61_gen evaluateJerkCurveWaypointAtTime N pData T good_jerk Hin HN) as (H & g & K & E & S & HQ).
  exists H, g, K. split; [exact E|]. split; [exact S|]. intros xs Lx.
  destruct (evaluated_ex evaluateJerkCurveWaypointAtTime N pData T xs good_jerk Hin) as (v & Hv).
  destruct (c32_jerk pData T xs 0 Hin Hf Lx HT) as (_ & cv & _ & _ & Hcv & _).
  exists cv, v. split; [exact Hcv|]. split; [|apply HQ; assumption].
  intros k Hk. destruct Hv as (pi & Hc & Hv). destruct (Hv k Hk) as (w & Ew & ->).
  destruct (c32_jerk pData T xs (sample N k) Hin Hf Lx HT) as (pi' & cv' & w' & Hc' & Hcv' & Ew' & D).
  rewrite Hc in Hc'. injection Hc' as <-. rewrite Hcv in Hcv'. injection Hcv' as <-. rewrite Ew in Ew'. injection Ew' as <-. exact D.
Qed.
Lemma vsub_add a b : vadd (vsub a b) b = a.
Proof. apply v3_eq; vcbn; ring. Qed.
Lemma c61_acceleration_one N pData T : flag_of pData = F_jerk -> 0 < T -> N <> 1%nat ->
  exists H g K, computeAccelerationCostFunctionDiscretized N pData T = Ok (H, g) /\ cost_size 3 H g /\
    forall x, exists cv v, eff_curve pData T [x] = Ok cv /\ derivs 2 (cv_fun cv) T N v /\
      quad H (flat [x]) + 2 * rdot g (flat [x]) + K =
      sum_sq N (fun k => vadd (v k) (vscal (56 / (T * T) * (1 - sample N k) ^ 6) (vsub (c1 pData) (c0 pData)))).
Proof.
  intros Hf HT HN. assert (Hin : In (flag_of pData) effector_flags) by (rewrite Hf; left; reflexivity).
  destruct (c61_gen evaluateAccelerationCurveWaypointAtTime N pData T good_acc Hin HN) as (H & g & K & E & S & HQ).
  rewrite Hf in S, HQ. change (eff_free F_jerk) with 1%nat in S, HQ.
  exists H, g, K. split; [exact E|]. split; [exact S|]. intros x.
  destruct (evaluated_ex evaluateAccelerationCurveWaypointAtTime N pData T [x] good_acc Hin) as (v & Hv).
  destruct (c33_j pData T [x] 0 Hf eq_refl HT) as (pi & cv & _ & _ & Hc & Hcv & _).
  exists cv, (fun k => vsub (v k) (vscal (56 / (T * T) * (1 - sample N k) ^ 6) (vsub (c1 pData) (c0 pData)))).
  split; [exact Hcv|]. split.
  - intros k Hk. destruct Hv as (pi1 & Hc1 & Hv). rewrite Hc in Hc1. injection Hc1 as <-. destruct (Hv k Hk) as (w & Ew & ->).
    destruct (c33_j pData T [x] (sample N k) Hf eq_refl HT) as (pi' & cv' & wv & wa & Hc' & Hcv' & _ & Ea & _ & D).
    rewrite Hc in Hc'. injection Hc' as <-. rewrite Hcv in Hcv'. injection Hcv' as <-. rewrite Ew in Ea. injection Ea as <-. exact D.
  - rewrite (HQ [x] v eq_refl Hv). unfold sum_sq. f_equal. apply map_ext. intros k. rewrite vsub_add. reflexivity.
Qed.

(** ** The velocity cost *)
Definition fc (w : wpn) : list R := map (fun b => vx (row0 b)) (wn_blocks w).
Lemma first_coefs_ok w nf : length (wn_blocks w) = nf -> first_coefs w nf = Ok (fc w).
Proof.
  intros <-. unfold first_coefs, fc. rewrite (mapM_ok _ (fun i => vx (row0 (nth i (wn_blocks w) mzero)))).
  - f_equal. rewrite <- (map_map (fun i => nth i (wn_blocks w) mzero) (fun b => vx (row0 b))). f_equal.
    clear. induction (wn_blocks w) as [|b l IH]; [reflexivity|]. cbn [length seq map nth]. f_equal. rewrite <- seq_shift, map_map. exact IH.
  - intros i Hi. apply in_seq in Hi. unfold get. rewrite (nth_error_nth' _ mzero) by lia. reflexivity.
Qed.
Lemma identity_row_len n i k : length (identity_row n i k) = n.
Proof. unfold identity_row. rewrite map_length, seq_length. reflexivity. Qed.
Definition diagn (n : nat) (l : list R) (s : nat) : list (list R) :=
  concat (map (fun p : nat * R => [identity_row n (3 * fst p) (snd p); identity_row n (3 * fst p + 1) (snd p); identity_row n (3 * fst p + 2) (snd p)])
              (combine (seq s (length l)) l)).
Lemma diagn_size n : forall l s, length (diagn n l s) = (3 * length l)%nat /\ Forall (fun r => length r = n) (diagn n l s).
Proof.
  induction l as [|a l IH]; intros s; [split; [reflexivity|constructor]|]. destruct (IH (S s)) as [I1 I2]. unfold diagn in *. cbn [length seq combine map concat]. split.
  - rewrite app_length, I1. cbn [length]. lia.
  - apply Forall_app. split; [|exact I2]. repeat apply Forall_cons; try apply Forall_nil; apply identity_row_len.
Qed.
Lemma diag_square cs : square (3 * length cs) (diag_blocks cs).
Proof. exact (diagn_size (3 * length cs) cs 0). Qed.
Fixpoint dsum (f : R -> vec3 -> R) (l : list R) (xs : list vec3) : R :=
  match l, xs with a :: l', x :: xs' => f a x + dsum f l' xs' | _, _ => 0 end.
Lemma skipn_add {A} : forall a b (l : list A), skipn (a + b) l = skipn a (skipn b l).
Proof. intros a b. induction b as [|b IH]; intros l; [rewrite Nat.add_0_r; reflexivity|]. rewrite Nat.add_succ_r. destruct l as [|x l]; [rewrite !skipn_nil; reflexivity|]. cbn [skipn]. apply IH. Qed.
Lemma diagn_quad n v : length v = n -> forall l xs s, length l = length xs -> skipn (3 * s) v = flat xs ->
  rdot (map (fun r => rdot r v) (diagn n l s)) (flat xs) = dsum (fun a x => a * vnorm2 x) l xs.
Proof.
  intros Lv. induction l as [|a l IH]; intros [|x xs] s E Es; try discriminate; [reflexivity|].
  assert (En : forall j, nth (3 * s + j) v 0 = nth j (flat (x :: xs)) 0).
  { intros j. rewrite <- Es, <- (firstn_skipn (3 * s) v) at 1.
    assert (Ll : (3 * s <= length v)%nat).
    { destruct (Nat.le_gt_cases (3 * s) (length v)) as [H|H]; [exact H|]. rewrite skipn_all2 in Es by lia. discriminate. }
    rewrite app_nth2; rewrite firstn_length, Nat.min_l by exact Ll; [f_equal; lia|lia]. }
  assert (Ln : (3 * s + 3 <= n)%nat).
  { rewrite <- Lv, <- (firstn_skipn (3 * s) v), app_length, Es, firstn_length. cbn [flat map concat l3 app length].
    destruct (Nat.le_gt_cases (3 * s) (length v)) as [H|H]; [rewrite Nat.min_l by exact H; lia|]. rewrite skipn_all2 in Es by lia. discriminate. }
  unfold diagn. cbn [length seq combine map concat app fst snd]. fold (diagn n l (S s)).
  rewrite !identity_row_dot by (try exact Lv; lia).
  pose proof (En 0%nat) as N0. pose proof (En 1%nat) as N1. pose proof (En 2%nat) as N2. rewrite Nat.add_0_r in N0. rewrite N0, N1, N2.
  change (flat (x :: xs)) with (vx x :: vy x :: vz x :: flat xs). cbn [nth rdot dsum].
  rewrite (IH xs (S s)); [unfold vnorm2, vdot; ring|now injection E|].
  replace (3 * S s)%nat with (3 + 3 * s)%nat by lia. rewrite skipn_add, Es. reflexivity.
Qed.
Lemma flat_length xs : length (flat xs) = (3 * length xs)%nat.
Proof. unfold flat. induction xs as [|x xs IH]; [reflexivity|]. cbn [map concat]. rewrite app_length, IH. cbn [l3 length]. lia. Qed.
Lemma diag_quad cs xs : length cs = length xs -> quad (diag_blocks cs) (flat xs) = dsum (fun a x => a * vnorm2 x) cs xs.
Proof.
  intros E. apply (diagn_quad (3 * length cs) (flat xs)); [rewrite flat_length, E; reflexivity|exact E|reflexivity].
Qed.
Definition gblocks (d : vec3) (cs : list R) : list R := concat (map (fun a => l3 (vscal a d)) cs).
Lemma gblocks_len d cs : length (gblocks d cs) = (3 * length cs)%nat.
Proof. unfold gblocks. induction cs as [|a l IH]; [reflexivity|]. cbn [map concat]. rewrite app_length, IH. cbn [l3 length]. lia. Qed.
Lemma gblocks_dot d : forall cs xs, length cs = length xs -> rdot (gblocks d cs) (flat xs) = dsum (fun a x => a * vdot d x) cs xs.
Proof.
  induction cs as [|a l IH]; intros [|x xs] E; try discriminate; [reflexivity|].
  unfold gblocks. cbn [map concat l3 app]. fold (gblocks d l). change (flat (x :: xs)) with (vx x :: vy x :: vz x :: flat xs).
  cbn [rdot dsum]. rewrite IH by now injection E. unfold vdot. vcbn. unfold vdot. ring.
Qed.
Lemma dsum_map f h l xs : dsum f (map h l) xs = dsum (fun a x => f (h a) x) l xs.
Proof. revert xs; induction l as [|a l IH]; intros [|x xs]; cbn; try reflexivity. rewrite IH. reflexivity. Qed.

Lemma vel_sum_ok nf (W : nat -> wpn) : forall n i H g,
  (forall k, length (wn_blocks (W k)) = nf) ->
  square (3 * nf) H -> length g = (3 * nf)%nat ->
  exists H' g', vel_sum nf (map W (seq i n)) H g = Ok (H', g') /\ square (3 * nf) H' /\ length g' = (3 * nf)%nat /\
    forall xs, length xs = nf ->
      quad H' (flat xs) = quad H (flat xs) + wsum (fun k => dsum (fun a x => a * a * vnorm2 x) (fc (W k)) xs) i n /\
      rdot g' (flat xs) = rdot g (flat xs) + wsum (fun k => dsum (fun a x => a * vdot (wn_pt (W k)) x) (fc (W k)) xs) i n.
Proof.
  induction n as [|n IH]; intros i H g LW SH LG.
  - exists H, g. split; [reflexivity|]. split; [exact SH|]. split; [exact LG|]. intros xs _. unfold wsum, sum_list. cbn. split; ring.
  - cbn [seq map vel_sum]. rewrite (first_coefs_ok _ nf (LW i)). cbn [bind].
    assert (Lf : length (fc (W i)) = nf) by (unfold fc; rewrite map_length; apply LW).
    assert (SD : square (3 * nf) (diag_blocks (map (fun a => a * a) (fc (W i))))).
    { rewrite <- Lf, <- (map_length (fun a => a * a) (fc (W i))). apply diag_square. }
    assert (LD : length (gblocks (wn_pt (W i)) (fc (W i))) = (3 * nf)%nat) by (rewrite gblocks_len, Lf; reflexivity).
    fold (gblocks (wn_pt (W i)) (fc (W i))).
    destruct (IH (S i) (matx_add H (diag_blocks (map (fun a => a * a) (fc (W i))))) (vecx_add g (gblocks (wn_pt (W i)) (fc (W i))))) as (H' & g' & E' & SH' & LG' & HQ).
    { exact LW. }
    { apply square_add; assumption. }
    { rewrite vecx_add_len; [exact LG|]. rewrite LD. exact LG. }
    exists H', g'. split; [exact E'|]. split; [exact SH'|]. split; [exact LG'|]. intros xs Lx. destruct (HQ xs Lx) as [Q1 Q2].
    rewrite Q1, Q2. unfold wsum. cbn [seq map]. unfold sum_list at 2 4. cbn [fold_right].
    fold (sum_list (map (fun k => dsum (fun a x => a * a * vnorm2 x) (fc (W k)) xs) (seq (S i) n))).
    fold (sum_list (map (fun k => dsum (fun a x => a * vdot (wn_pt (W k)) x) (fc (W k)) xs) (seq (S i) n))).
    rewrite (quad_add (3 * nf)) by assumption.
    rewrite rdot_add by (rewrite LD; exact LG).
    rewrite diag_quad, gblocks_dot by (rewrite ?map_length, Lf, Lx; reflexivity). rewrite dsum_map. split; ring.
Qed.

(** Evaluation with only one free point away from the origin *)
Lemma only_S i x xs : only (S i) (x :: xs) = vzero :: only i xs.
Proof.
  unfold only. cbn [length seq map Nat.eqb nth]. f_equal. rewrite <- seq_shift, map_map. apply map_ext. intros j. reflexivity.
Qed.
Lemma only_O x xs : only 0 (x :: xs) = x :: origin (length xs).
Proof.
  unfold only, origin. cbn [length seq map Nat.eqb nth]. f_equal. rewrite <- seq_shift, map_map.
  rewrite (map_ext _ (fun _ => vzero)) by reflexivity. generalize 0%nat. induction (length xs) as [|n IH]; intros s; [reflexivity|]. cbn. f_equal. apply IH.
Qed.
Lemma mvmul_scal a x : mvmul (mscal a mid) x = vscal a x.
Proof. unfold mvmul, mscal, mid. cbn [row0 row1 row2]. apply v3_eq; vcbn; ring. Qed.
Lemma ev_only d : forall bs xs, Forall scalarb bs -> length bs = length xs ->
  sum_list (map (fun i => vnorm2 (vadd (ev_blocks bs (only i xs)) d) - vnorm2 d) (seq 0 (length xs)))
  = dsum (fun a x => a * a * vnorm2 x) (map (fun b => vx (row0 b)) bs) xs + 2 * dsum (fun a x => a * vdot d x) (map (fun b => vx (row0 b)) bs) xs.
Proof.
  induction bs as [|b bs IH]; intros [|x xs] F E; try discriminate; [unfold sum_list; cbn; ring|]. inversion F as [|? ? Sb F']; subst.
  cbn [length seq map dsum]. unfold sum_list. cbn [fold_right]. rewrite <- seq_shift, map_map.
  rewrite (map_ext _ (fun i => vnorm2 (vadd (ev_blocks bs (only i xs)) d) - vnorm2 d)).
  - fold (sum_list (map (fun i => vnorm2 (vadd (ev_blocks bs (only i xs)) d) - vnorm2 d) (seq 0 (length xs)))).
    rewrite IH by (try assumption; now injection E). rewrite only_O. cbn [ev_blocks]. unfold origin. rewrite ev_blocks_zero.
    unfold scalarb in Sb. set (a := vx (row0 b)) in *. clearbody a. subst b. rewrite mvmul_scal.
    match goal with |- _ + (?u + 2 * ?w) = _ => generalize u w end. intros u w. unfold vnorm2. vcbn. ring.
  - intros i. rewrite only_S. cbn [ev_blocks]. do 2 f_equal. f_equal. apply v3_eq; unfold mvmul; vcbn; ring.
Qed.
Lemma sum_swap (f : nat -> nat -> R) l m : sum_list (map (fun i => sum_list (map (f i) m)) l) = sum_list (map (fun j => sum_list (map (fun i => f i j) l)) m).
Proof.
  induction l as [|a l IH].
  - unfold sum_list at 1. cbn. induction m as [|b m IHm]; [reflexivity|]. unfold sum_list in *. cbn. rewrite <- IHm. ring.
  - transitivity (sum_list (map (f a) m) + sum_list (map (fun i => sum_list (map (f i) m)) l)); [reflexivity|]. rewrite IH. clear IH.
    induction m as [|b m IHm]; [unfold sum_list; cbn; ring|]. unfold sum_list in *. cbn [map fold_right].
    cbn [map fold_right] in IHm. lra.
Qed.
Lemma good_vel : good evaluateVelocityCurveWaypointAtTime.
Proof. intros pData T pi s Hin Hc. destruct (vel_scalar pData T pi s Hin Hc) as (w & E & L & _). exists w. split; assumption. Qed.
Lemma sum_minus (f g : nat -> R) l : sum_list (map f l) - sum_list (map g l) = sum_list (map (fun k => f k - g k) l).
Proof. unfold sum_list. induction l as [|a l IH]; cbn; [ring|]. rewrite <- IH. ring. Qed.
Lemma dim_div pData : In (flag_of pData) effector_flags -> (dimVar pData / 3)%nat = eff_free (flag_of pData).
Proof. intros Hin. rewrite (dim_eff pData Hin), Nat.mul_comm. apply Nat.div_mul. discriminate. Qed.

Lemma vel_value N pData T : In (flag_of pData) effector_flags -> N <> 1%nat ->
  exists pi W H g, computeConstantWaypoints pData T = Ok pi /\
    (forall k, evaluateVelocityCurveWaypointAtTime pData T pi (sample N k) = Ok (W k) /\ length (wn_blocks (W k)) = eff_free (flag_of pData) /\ Forall scalarb (wn_blocks (W k))) /\
    computeVelCostFunctionDiscretized N pData T = Ok (H, g) /\ cost_size (3 * eff_free (flag_of pData)) H g /\
    forall xs, length xs = eff_free (flag_of pData) -> 
      quad H (flat xs) + 2 * rdot g (flat xs) =
      wsum (fun k => dsum (fun a x => a * a * vnorm2 x) (fc (W k)) xs + 2 * dsum (fun a x => a * vdot (wn_pt (W k)) x) (fc (W k)) xs) 0 N.
Proof.
  intros Hin HN. destruct (ccw_ok pData T Hin) as (pi & Hc). set (nf := eff_free (flag_of pData)) in *.
  pose (W k := okw (evaluateVelocityCurveWaypointAtTime pData T pi (sample N k))).
  assert (HW : forall k, evaluateVelocityCurveWaypointAtTime pData T pi (sample N k) = Ok (W k) /\ length (wn_blocks (W k)) = nf /\ Forall scalarb (wn_blocks (W k))).
  { intros k. destruct (vel_scalar pData T pi (sample N k) Hin Hc) as (w & E & L). unfold W. rewrite E. split; [reflexivity|exact L]. }
  destruct (vel_sum_ok nf W N 0 (matx_zero (3 * nf)) (repeat 0 (3 * nf)) (fun k => proj1 (proj2 (HW k))) (square_zero _) (repeat_length _ _))
    as (H & g & E & [SH1 SH2] & LG & HQ).
  exists pi, W, H, g. split; [exact Hc|]. split; [exact HW|]. split.
  { unfold computeVelCostFunctionDiscretized. destruct (Nat.eqb_spec N 1); [contradiction|]. rewrite Hc. cbn [bind]. rewrite (mapM_ok _ W) by (intros k _; apply HW).
    cbn [bind]. rewrite (dim_div pData Hin), (dim_eff pData Hin). exact E. }
  split; [repeat split; assumption|]. intros xs Lx. destruct (HQ xs Lx) as [Q1 Q2]. rewrite Q1, Q2, quad_zero, rdot_repeat0, wsum_lin. ring.
Qed.
Lemma c61_velocity N pData T : In (flag_of pData) effector_flags -> 0 < T -> N <> 1%nat ->
  exists H g v0, computeVelCostFunctionDiscretized N pData T = Ok (H, g) /\ cost_size (3 * eff_free (flag_of pData)) H g /\
    evaluated evaluateVelocityCurveWaypointAtTime pData T N (origin (eff_free (flag_of pData))) v0 /\
    forall xs, length xs = eff_free (flag_of pData) ->
      exists vs, (forall i, (i < length xs)%nat -> evaluated evaluateVelocityCurveWaypointAtTime pData T N (only i xs) (vs i)) /\
        quad H (flat xs) + 2 * rdot g (flat xs) = sum_list (map (fun i => sum_sq N (vs i) - sum_sq N v0) (seq 0 (length xs))).
Proof.
  intros Hin _ HN. destruct (vel_value N pData T Hin HN) as (pi & W & H & g & Hc & HW & E & S & HQ).
  exists H, g, (fun k => wn_pt (W k)). split; [exact E|]. split; [exact S|]. split.
  { exists pi. split; [exact Hc|]. intros k Hk. destruct (HW k) as (Ew & Lw & _). exists (W k). split; [exact Ew|]. unfold ev_wpn, origin. rewrite ev_blocks_zero.
    apply v3_eq; vcbn; ring. }
  intros xs Lx. exists (fun i k => ev_wpn (W k) (only i xs)). split.
  { intros i _. exists pi. split; [exact Hc|]. intros k _. exists (W k). split; [apply HW|reflexivity]. }
  rewrite (HQ xs Lx). unfold sum_sq.
  rewrite (map_ext _ (fun i => sum_list (map (fun k => vnorm2 (ev_wpn (W k) (only i xs)) - vnorm2 (wn_pt (W k))) (seq 0 N)))) by (intros i; apply sum_minus).
  rewrite (sum_swap (fun i k => vnorm2 (ev_wpn (W k) (only i xs)) - vnorm2 (wn_pt (W k)))). unfold wsum. f_equal. apply map_ext. intros k.
  destruct (HW k) as (_ & Lw & Fw). symmetry. unfold ev_wpn. rewrite (ev_only (wn_pt (W k))); [reflexivity|exact Fw|rewrite Lw, Lx; reflexivity].
Qed.
Lemma c61_velocity_one N pData T : flag_of pData = F_jerk -> 0 < T -> N <> 1%nat ->
  exists H g K, computeVelCostFunctionDiscretized N pData T = Ok (H, g) /\ cost_size 3 H g /\
    forall x, exists cv v, eff_curve pData T [x] = Ok cv /\ derivs 1 (cv_fun cv) T N v /\
      quad H (flat [x]) + 2 * rdot g (flat [x]) + K =
      sum_sq N (fun k => vadd (v k) (vscal (- (8 / T) * (1 - sample N k) ^ 7) (vsub (c1 pData) (c0 pData)))).
Proof.
  intros Hf HT HN. assert (Hin : In (flag_of pData) effector_flags) by (rewrite Hf; left; reflexivity).
  destruct (c61_velocity N pData T Hin HT HN) as (H & g & v0 & E & S & Hv0 & HQ).
  rewrite Hf in S, HQ. change (eff_free F_jerk) with 1%nat in S, HQ.
  exists H, g, (sum_sq N v0). split; [exact E|]. split; [exact S|]. intros x.
  destruct (HQ [x] eq_refl) as (vs & Hvs & Hs). specialize (Hvs 0%nat ltac:(cbn; lia)). change (only 0 [x]) with [x] in Hvs. set (v := vs 0%nat) in *.
  destruct (c33_j pData T [x] 0 Hf eq_refl HT) as (pi & cv & _ & _ & Hc & Hcv & _).
  exists cv, (fun k => vsub (v k) (vscal (- (8 / T) * (1 - sample N k) ^ 7) (vsub (c1 pData) (c0 pData)))).
  split; [exact Hcv|]. split.
  - intros k Hk. destruct Hvs as (pi1 & Hc1 & Hv). rewrite Hc in Hc1. injection Hc1 as <-. destruct (Hv k Hk) as (w & Ew & ->).
    destruct (c33_j pData T [x] (sample N k) Hf eq_refl HT) as (pi' & cv' & wv & wa & Hc' & Hcv' & Ev & _ & D & _).
    rewrite Hc in Hc'. injection Hc' as <-. rewrite Hcv in Hcv'. injection Hcv' as <-. rewrite Ew in Ev. injection Ev as <-. exact D.
  - rewrite Hs. cbn [length seq map]. unfold sum_list. cbn [fold_right]. fold v.
    transitivity (sum_sq N v); [ring|]. unfold sum_sq. f_equal. apply map_ext. intros k. rewrite vsub_add. reflexivity.
Qed.
Lemma c61_one_sample (eval : evals) pData T :
  computeVelCostFunctionDiscretized 1 pData T = UB /\ sampled_cost eval 1 pData T = UB.
Proof. split; reflexivity. Qed.

(** ** Refutation *)
Lemma mixed3 T a0 a1 a2 a3 a7 a8 a9 a10 s : T <> 0 ->
  let P x y := bez3 (hodo_n 1 T [a0;a1;a2;a3;x;vzero;y;a7;a8;a9;a10]) s in
  let e := V3 1 0 0 in
  vnorm2 (P e e) - vnorm2 (P e vzero) - vnorm2 (P vzero e) + vnorm2 (P vzero vzero)
  = 2 * ((840 * s ^ 3 * (1 - s) ^ 6 - 1260 * s ^ 4 * (1 - s) ^ 5) / T) * ((1260 * s ^ 5 * (1 - s) ^ 4 - 840 * s ^ 6 * (1 - s) ^ 3) / T).
Proof.
  intros HT P e.
  assert (G : forall x y, P x y = vadd (P vzero vzero) (vadd (vscal ((840 * s ^ 3 * (1 - s) ^ 6 - 1260 * s ^ 4 * (1 - s) ^ 5) / T) x)
     (vscal ((1260 * s ^ 5 * (1 - s) ^ 4 - 840 * s ^ 6 * (1 - s) ^ 3) / T) y))).
  { intros x y. unfold P. hodo_vals. bez_norm. apply v3_eq; ecbn; field; exact HT. }
  rewrite (G e e), (G e vzero), (G vzero e). set (B := P vzero vzero). clearbody B. clear G P.
  generalize ((840 * s ^ 3 * (1 - s) ^ 6 - 1260 * s ^ 4 * (1 - s) ^ 5) / T) ((1260 * s ^ 5 * (1 - s) ^ 4 - 840 * s ^ 6 * (1 - s) ^ 3) / T). intros u w. unfold vnorm2, e. vcbn. ring.
Qed.
Lemma mixed5 T a0 a1 a2 a3 a9 a10 a11 a12 s : T <> 0 ->
  let P x y := bez3 (hodo_n 1 T [a0;a1;a2;a3;x;vzero;vzero;vzero;y;a9;a10;a11;a12]) s in
  let e := V3 1 0 0 in
  vnorm2 (P e e) - vnorm2 (P e vzero) - vnorm2 (P vzero e) + vnorm2 (P vzero vzero)
  = 2 * ((1980 * s ^ 3 * (1 - s) ^ 8 - 3960 * s ^ 4 * (1 - s) ^ 7) / T) * ((3960 * s ^ 7 * (1 - s) ^ 4 - 1980 * s ^ 8 * (1 - s) ^ 3) / T).
Proof.
  intros HT P e.
  assert (G : forall x y, P x y = vadd (P vzero vzero) (vadd (vscal ((1980 * s ^ 3 * (1 - s) ^ 8 - 3960 * s ^ 4 * (1 - s) ^ 7) / T) x)
     (vscal ((3960 * s ^ 7 * (1 - s) ^ 4 - 1980 * s ^ 8 * (1 - s) ^ 3) / T) y))).
  { intros x y. unfold P. hodo_vals. bez_norm. apply v3_eq; ecbn; field; exact HT. }
  rewrite (G e e), (G e vzero), (G vzero e). set (B := P vzero vzero). clearbody B. clear G P.
  generalize ((1980 * s ^ 3 * (1 - s) ^ 8 - 3960 * s ^ 4 * (1 - s) ^ 7) / T) ((3960 * s ^ 7 * (1 - s) ^ 4 - 1980 * s ^ 8 * (1 - s) ^ 3) / T). intros u w. unfold vnorm2, e. vcbn. ring.
Qed.
Lemma sum_sq3 v : sum_sq 3 v = vnorm2 (v 0%nat) + vnorm2 (v 1%nat) + vnorm2 (v 2%nat).
Proof. unfold sum_sq, sum_list. cbn. ring. Qed.
Lemma samples3 : sample 3 0 = 0 /\ sample 3 1 = 1 / 2 /\ sample 3 2 = 1.
Proof. unfold sample. cbn [INR]. repeat split; field. Qed.
Lemma dsum_mixed f e l : (forall a, f a vzero = 0) -> length l = 3%nat ->
  dsum f l [e;vzero;e] - dsum f l [e;vzero;vzero] - dsum f l [vzero;vzero;e] + dsum f l [vzero;vzero;vzero] = 0.
Proof. intros Hf L. destruct l as [|a [|b [|c [|d l]]]]; try discriminate. cbn [dsum]. rewrite !Hf. ring. Qed.
Lemma dsum_mixed5 f e l : (forall a, f a vzero = 0) -> length l = 5%nat ->
  dsum f l [e;vzero;vzero;vzero;e] - dsum f l [e;vzero;vzero;vzero;vzero] - dsum f l [vzero;vzero;vzero;vzero;e] + dsum f l [vzero;vzero;vzero;vzero;vzero] = 0.
Proof. intros Hf L. destruct l as [|a [|b [|c [|d [|d' [|d'' l]]]]]]; try discriminate. cbn [dsum]. rewrite !Hf. ring. Qed.
Lemma wsum3 f : wsum f 0 3 = f 0%nat + f 1%nat + f 2%nat.
Proof. unfold wsum, sum_list. cbn. ring. Qed.
Lemma zero_forms a d : a * a * vnorm2 vzero = 0 /\ a * vdot d vzero = 0.
Proof. unfold vnorm2, vdot, vzero. cbn [vx vy vz]. split; ring. Qed.

Lemma c61_velocity_refuted pData T : flag_of pData = F_x3 \/ flag_of pData = F_x5 -> 0 < T ->
  exists H g, computeVelCostFunctionDiscretized 3 pData T = Ok (H, g) /\
    ~ exists k K, forall xs cv v, length xs = eff_free (flag_of pData) -> eff_curve pData T xs = Ok cv -> derivs 1 (cv_fun cv) T 3 v ->
      k * (quad H (flat xs) + 2 * rdot g (flat xs)) + K = sum_sq 3 v.
Proof.
  intros Hf HT. assert (Hin : In (flag_of pData) effector_flags) by (destruct Hf as [-> | ->]; unfold effector_flags; cbn; auto).
  assert (HT0 : T <> 0) by lra. assert (HI : 0 < / T) by (apply Rinv_0_lt_compat; exact HT). pose proof (Rmult_lt_0_compat _ _ HI HI) as HII.
  destruct (vel_value 3 pData T Hin ltac:(lia)) as (pi & W & H & g & Hc & HW & E & S & HQ).
  exists H, g. split; [exact E|]. intros (k & K & HK).
  assert (HV : forall xs pts, eff_shape pData T xs pi pts -> length xs = eff_free (flag_of pData) ->
     k * (quad H (flat xs) + 2 * rdot g (flat xs)) + K = sum_sq 3 (fun j => bez3 (hodo_n 1 T pts) (sample 3 j))).
  { intros xs pts Hs Lx. apply (HK xs (BCurve pts T)); [exact Lx| |].
    - rewrite (eff_shape_curve _ _ _ _ _ Hs). destruct pts; [inversion Hs|]. apply mk_bezier_ok; exact HT.
    - intros j Hj. unfold cv_fun. cbn [bc_pts bc_T]. rewrite <- (curve_at_sT _ T (sample 3 j)) by exact HT0. apply curve_is_deriv_n. }
  assert (LF : forall j, length (fc (W j)) = eff_free (flag_of pData)) by (intros j; unfold fc; rewrite map_length; apply HW).
  destruct samples3 as (S0 & S1 & S2).
  destruct (shape_of pData T pi Hin Hc) as (pts & Hs).
  set (e := V3 1 0 0).
  inversion Hs as [? ? ? ? ? ? ? ? ? ? ? F Hcc Hp|? ? ? ? ? ? ? ? ? ? ? ? ? ? ? F Hcc Hp|? ? ? ? ? ? ? ? ? ? ? ? ? ? F Hcc Hp].
  - destruct Hf as [Hf|Hf]; rewrite F in Hf; discriminate.
  - rewrite F in HQ, HV, LF. change (eff_free F_x3) with 3%nat in HQ, HV, LF. subst pi. clear Hs.
    pose proof (fun x y => HV [x;vzero;y] _ (es_x3 pData T x vzero y _ _ _ _ _ _ _ _ _ _ _ _ F Hcc eq_refl) eq_refl) as V.
    pose proof (V e e) as V1. pose proof (V e vzero) as V2. pose proof (V vzero e) as V3'. pose proof (V vzero vzero) as V4.
    rewrite HQ, sum_sq3, S0, S1, S2 in V1, V2, V3', V4 by reflexivity. rewrite wsum3 in V1, V2, V3', V4.
    pose proof (mixed3 T a0 a1 a2 a3 a7 a8 a9 a10 0 HT0) as M0. pose proof (mixed3 T a0 a1 a2 a3 a7 a8 a9 a10 (1 / 2) HT0) as M1.
    pose proof (mixed3 T a0 a1 a2 a3 a7 a8 a9 a10 1 HT0) as M2. cbv zeta in M0, M1, M2. fold e in M0, M1, M2.
    pose proof (fun j => dsum_mixed (fun a x => a * a * vnorm2 x) e (fc (W j)) (fun a => proj1 (zero_forms a vzero)) (LF j)) as D1.
    pose proof (fun j => dsum_mixed (fun a x => a * vdot (wn_pt (W j)) x) e (fc (W j)) (fun a => proj2 (zero_forms a _)) (LF j)) as D2.
    pose proof (D1 0%nat). pose proof (D1 1%nat). pose proof (D1 2%nat). pose proof (D2 0%nat). pose proof (D2 1%nat). pose proof (D2 2%nat).
    cbn beta in *.
    match type of M1 with ?l = ?r => assert (N1 : r = - (2 * (105 / 128) * (105 / 128)) * (/ T * / T)) by (field; exact HT0) end. rewrite N1 in M1.
    match type of M0 with ?l = ?r => assert (N0 : r = 0) by (field; exact HT0) end. rewrite N0 in M0.
    match type of M2 with ?l = ?r => assert (N2 : r = 0) by (field; exact HT0) end. rewrite N2 in M2.
    match type of V1 with k * ?x + K = _ => set (J1 := x) in * end. match type of V2 with k * ?x + K = _ => set (J2 := x) in * end.
    match type of V3' with k * ?x + K = _ => set (J3 := x) in * end. match type of V4 with k * ?x + K = _ => set (J4 := x) in * end.
    assert (HJ : J1 - J2 - J3 + J4 = 0) by (unfold J1, J2, J3, J4; lra).
    assert (Z : k * (J1 - J2 - J3 + J4) = - (2 * (105 / 128) * (105 / 128)) * (/ T * / T)) by (clearbody J1 J2 J3 J4; lra).
    rewrite HJ in Z. lra.
  - rewrite F in HQ, HV, LF. change (eff_free F_x5) with 5%nat in HQ, HV, LF. subst pi. clear Hs.
    pose proof (fun x y => HV [x;vzero;vzero;vzero;y] _ (es_x5 pData T x vzero vzero vzero y _ _ _ _ _ _ _ _ _ F Hcc eq_refl) eq_refl) as V.
    pose proof (V e e) as V1. pose proof (V e vzero) as V2. pose proof (V vzero e) as V3'. pose proof (V vzero vzero) as V4.
    rewrite HQ, sum_sq3, S0, S1, S2 in V1, V2, V3', V4 by reflexivity. rewrite wsum3 in V1, V2, V3', V4.
    pose proof (mixed5 T a0 a1 a2 a3 a9 a10 a11 a12 0 HT0) as M0. pose proof (mixed5 T a0 a1 a2 a3 a9 a10 a11 a12 (1 / 2) HT0) as M1.
    pose proof (mixed5 T a0 a1 a2 a3 a9 a10 a11 a12 1 HT0) as M2. cbv zeta in M0, M1, M2. fold e in M0, M1, M2.
    pose proof (fun j => dsum_mixed5 (fun a x => a * a * vnorm2 x) e (fc (W j)) (fun a => proj1 (zero_forms a vzero)) (LF j)) as D1.
    pose proof (fun j => dsum_mixed5 (fun a x => a * vdot (wn_pt (W j)) x) e (fc (W j)) (fun a => proj2 (zero_forms a _)) (LF j)) as D2.
    pose proof (D1 0%nat). pose proof (D1 1%nat). pose proof (D1 2%nat). pose proof (D2 0%nat). pose proof (D2 1%nat). pose proof (D2 2%nat).
    cbn beta in *.
    match type of M1 with ?l = ?r => assert (N1 : r = - (2 * (495 / 512) * (495 / 512)) * (/ T * / T)) by (field; exact HT0) end. rewrite N1 in M1.
    match type of M0 with ?l = ?r => assert (N0 : r = 0) by (field; exact HT0) end. rewrite N0 in M0.
    match type of M2 with ?l = ?r => assert (N2 : r = 0) by (field; exact HT0) end. rewrite N2 in M2.
    match type of V1 with k * ?x + K = _ => set (J1 := x) in * end. match type of V2 with k * ?x + K = _ => set (J2 := x) in * end.
    match type of V3' with k * ?x + K = _ => set (J3 := x) in * end. match type of V4 with k * ?x + K = _ => set (J4 := x) in * end.
    assert (HJ : J1 - J2 - J3 + J4 = 0) by (unfold J1, J2, J3, J4; lra).
    assert (Z : k * (J1 - J2 - J3 + J4) = - (2 * (495 / 512) * (495 / 512)) * (/ T * / T)) by (clearbody J1 J2 J3 J4; lra).
    rewrite HJ in Z. lra.
Qed.
