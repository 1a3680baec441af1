(** C93: a problem run backwards. *)
From Coq Require Import List Lia Lra.
From Verif Require Import Vec SpecBezier SpecTime ModelData ModelDispatch ModelWaypoints ModelWaypointsJerk ModelUtils ModelCont ModelSolver ModelTraj
  SpecCom SpecWp SpecCtr SpecTraj SpecEnd SpecBest SpecReverse ProofBezier ProofCurve ProofTime ProofWaypoints ProofWaypoints2 ProofCom ProofCom2 ProofCom3 ProofTraj ProofTraj2 ProofTraj3 ProofBest ProofBest2 ProofMove.
Import ListNotations.
Open Scope R_scope.

(** ** Samples *)
Lemma total_rev l : total (rev l) = total l.
Proof. induction l as [|a l IH]; [reflexivity|]. cbn [rev total]. rewrite total_app, IH. cbn. ring. Qed.
Lemma rev_seq n : rev (seq 0 n) = map (fun k => n - k)%nat (seq 1 n).
Proof.
  induction n as [|n IH]; [reflexivity|]. rewrite seq_S, rev_app_distr, IH. cbn [rev app seq map]. f_equal; [lia|].
  rewrite <- (seq_shift n 1), map_map. apply map_ext. intros k. lia.
Qed.
Lemma blocks_app p A : forall B t, fixed_blocks (A ++ B) p t = fixed_blocks A p t ++ fixed_blocks B p (t + total A).
Proof.
  induction A as [|a A IH]; intros B t; cbn [app fixed_blocks total]; [f_equal; ring|]. rewrite IH. f_equal. f_equal. f_equal. ring.
Qed.
Lemma grid_rev p : (1 <= p)%nat -> forall Ts t c,
  rev (map (fun s => c - s) (t :: concat (fixed_blocks Ts p t))) = (c - t - total Ts) :: concat (fixed_blocks (rev Ts) p (c - t - total Ts)).
Proof.
  intros Hp. assert (HP : INR p <> 0) by (apply not_0_INR; lia). induction Ts as [|d Ts IH]; intros t c.
  - cbn. f_equal. ring.
  - cbn [fixed_blocks concat].
    assert (E : t :: frac_samples t d p ++ concat (fixed_blocks Ts p (t + d)) =
      map (fun k => t + INR k / INR p * d) (seq 0 p) ++ (t + d) :: concat (fixed_blocks Ts p (t + d))).
    { unfold frac_samples. change (t + d :: concat (fixed_blocks Ts p (t + d))) with ([t + d] ++ concat (fixed_blocks Ts p (t + d))).
      rewrite app_assoc. rewrite app_comm_cons. f_equal.
      transitivity (map (fun k => t + INR k / INR p * d) (seq 0 (S p))).
      - cbn [seq map]. f_equal. cbn. field. exact HP.
      - rewrite seq_S, map_app. cbn [map plus]. f_equal. f_equal. field. exact HP. }
    rewrite E, map_app, rev_app_distr, IH. cbn [rev total]. rewrite blocks_app, concat_app, total_rev.
    replace (c - (t + d) - total Ts) with (c - t - (d + total Ts)) by ring. cbn [app]. f_equal. f_equal.
    cbn [fixed_blocks concat]. rewrite app_nil_r. unfold frac_samples. rewrite map_map, <- map_rev, rev_seq, map_map.
    apply map_ext_in. intros k Hk. apply in_seq in Hk. rewrite minus_INR by lia. field. exact HP.
Qed.
Lemma fst_tagged bs : forall i, map fst (tagged_from i bs) = concat bs.
Proof. induction bs as [|b bs IH]; intros i; [reflexivity|]. cbn [tagged_from concat]. rewrite map_app, IH, map_map. cbn [fst]. rewrite map_id. reflexivity. Qed.
Lemma times_rev p Ts : (1 <= p)%nat -> Ts <> [] ->
  map fst (computeDiscretizedTimeFixed (rev Ts) p) = rev (map (fun s => total Ts - s) (map fst (computeDiscretizedTimeFixed Ts p))).
Proof.
  intros Hp NE. assert (NR : rev Ts <> []) by (intros E; apply NE; rewrite <- (rev_involutive Ts), E; reflexivity).
  rewrite (fixed_eq _ p Hp NE), (fixed_eq _ p Hp NR). cbn [map fst]. rewrite !fst_tagged.
  change (total Ts - 0 :: map (fun s => total Ts - s) (concat (fixed_blocks Ts p 0))) with (map (fun s => total Ts - s) (0 :: concat (fixed_blocks Ts p 0))).
  rewrite (grid_rev p Hp). replace (total Ts - 0 - total Ts) with 0 by ring. reflexivity.
Qed.
Lemma nth_rev {A} (l : list A) i : (i < length l)%nat -> nth_error (rev l) i = nth_error l (length l - 1 - i).
Proof.
  revert i. induction l as [|a l IH] using rev_ind; intros i H; [cbn in H; lia|]. rewrite rev_app_distr, app_length in *. cbn [rev app length] in *.
  destruct i as [|i]; cbn [nth_error].
  - rewrite nth_error_app2 by lia. replace (length l + 1 - 1 - 0 - length l)%nat with 0%nat by lia. reflexivity.
  - rewrite IH by lia. rewrite nth_error_app1 by lia. f_equal. lia.
Qed.
Lemma start_rev Ts i : (i <= length Ts)%nat -> phase_start (rev Ts) i = total Ts - phase_start Ts (length Ts - i).
Proof.
  intros H. unfold phase_start. rewrite firstn_rev, total_rev. pose proof (total_app (firstn (length Ts - i) Ts) (skipn (length Ts - i) Ts)) as E.
  rewrite firstn_skipn in E. lra.
Qed.
Lemma sampled_rev Ts p i t : (1 <= p)%nat -> sampled_fixed Ts p i t -> sampled_fixed (rev Ts) p (length Ts - 1 - i) (total Ts - t).
Proof.
  intros Hp (j & d & Hj & Hd & ->). assert (L : (i < length Ts)%nat) by (apply nth_error_Some; congruence).
  assert (HP : INR p <> 0) by (apply not_0_INR; lia).
  exists (p - j)%nat, d. split; [lia|]. split.
  - rewrite nth_rev by lia. replace (length Ts - 1 - (length Ts - 1 - i))%nat with i by lia. exact Hd.
  - rewrite start_rev by lia. replace (length Ts - (length Ts - 1 - i))%nat with (S i) by lia. rewrite phase_start_S, (phase_end_nth _ _ _ Hd), minus_INR by lia. field. exact HP.
Qed.

(** ** Motions *)
Definition rev_curve (cv : bcurve) : bcurve := BCurve (rev (bc_pts cv)) (bc_T cv).
Lemma bezl_rev P s : bezl (rev P) s = bezl P (1 - s).
Proof.
  unfold bezl. rewrite rev_length. destruct P as [|a P]; [cbn; unfold bez; cbn; ring|].
  rewrite <- bez_rev. apply bez_ext. intros i Hi. rewrite rev_nth by (cbn in *; lia). f_equal; cbn [length] in *; lia.
Qed.
Lemma curve_rev P T t : T <> 0 -> curve (rev P) T t = curve P T (T - t).
Proof.
  intros HT. unfold curve, bez3. rewrite !map_rev, !bezl_rev. replace (1 - t / T) with ((T - t) / T) by (field; exact HT). reflexivity.
Qed.
Lemma deriv_rev f T t l : is_deriv f (T - t) l -> is_deriv (fun u => f (T - u)) t (vopp l).
Proof.
  intros (A & B & C).
  assert (G : forall (g : R -> R) d, derivable_pt_lim g (T - t) d -> derivable_pt_lim (fun u => g (T - u)) t (- d)).
  { intros g d D. replace (- d) with (d * -1) by ring. apply (derivable_pt_lim_comp (fun u => T - u) g t (-1) d); [|exact D].
    replace (-1) with (0 - 1) by ring. apply (derivable_pt_lim_minus (fun _ => T) (fun u => u)); [apply derivable_pt_lim_const|apply derivable_pt_lim_id]. }
  split; [exact (G _ _ A)|]. split; [exact (G _ _ B)|exact (G _ _ C)].
Qed.
Lemma deriv_opp f t l : is_deriv f t l -> is_deriv (fun u => vopp (f u)) t (vopp l).
Proof.
  intros (A & B & C). repeat split; cbn [vopp vx vy vz]; [apply (derivable_pt_lim_opp (fun u => vx (f u)))|apply (derivable_pt_lim_opp (fun u => vy (f u)))|apply (derivable_pt_lim_opp (fun u => vz (f u)))]; assumption.
Qed.
Lemma opp_opp a : vopp (vopp a) = a.
Proof. apply v3_eq; cbn; ring. Qed.
Lemma deriv2_rev f T t l : is_deriv_n 2 f (T - t) l -> is_deriv_n 2 (fun u => f (T - u)) t l.
Proof.
  intros (f' & D1 & f2 & D2 & E). exists (fun u => vopp (f' (T - u))). split; [intros u; apply deriv_rev; apply D1|].
  exists (fun u => vopp (vopp (f2 (T - u)))). split; [intros u; exact (deriv_opp (fun w => f' (T - w)) u _ (deriv_rev f' T u _ (D2 (T - u))))|].
  cbn. rewrite opp_opp. exact E.
Qed.

Section Reverse.
  Variable p : problem.
  Variable Ts : list R.
  Hypothesis PL : plannable p Ts.
  Hypothesis FL : flag_of p = F_dc1_c1.
  Let q := reverse p.
  Lemma rev_wp : well_posed p Ts. Proof. apply PL. Qed.
  Lemma rev_plannable : plannable q (rev Ts).
  Proof.
    destruct PL as ((F & C & N & P & L & W) & (g & SG) & Hf). split; [|split; [|exact Hf]].
    - split; [exact F|]. split; [intros E; change (flag_of q) with (flag_of p) in E; rewrite FL in E; discriminate|].
      split; [intros E; apply N; rewrite <- (rev_involutive Ts), E; reflexivity|].
      split; [apply Forall_rev; exact P|]. split; [unfold q, reverse; cbn [contacts]; rewrite !rev_length; exact L|]. apply Forall_rev; exact W.
    - exists g. intros c ph Hc. apply (SG c ph). apply in_rev. exact Hc.
  Qed.
  Lemma rev_com x cv : com_curve p (total Ts) x = Ok cv -> com_curve q (total (rev Ts)) x = Ok (rev_curve cv).
  Proof.
    rewrite total_rev. intros H. pose proof (total_posd p Ts rev_wp) as HT. set (T := total Ts) in *.
    destruct (com_curve_inv p T x cv (proj1 rev_wp) H) as (pi & pts & Hs & _ & _ & -> & _).
    destruct Hs as [pi E|pi E|pi E Hc a b c d e Ep|pi E|pi E|pi E|pi E]; try (rewrite FL in E; discriminate E).
    subst pi. unfold com_curve. change (flag_of q) with (flag_of p). rewrite (ccw_dc1_c1 q T E), E. unfold c0_dc0_dc1_c1_computeConstantWaypoints in *.
    injection Hc as; subst. cbn [bind]. rewrite bez_dc1_c1, mk_bezier_ok by assumption. unfold rev_curve; cbn [bc_pts bc_T rev app c0 dc0 c1 dc1 q reverse].
    repeat f_equal; apply opp_opp.
  Qed.
  Lemma rev_fun cv x t : com_curve p (total Ts) x = Ok cv -> cv_fun (rev_curve cv) t = cv_fun cv (total Ts - t).
  Proof.
    intros H. pose proof (total_posd p Ts rev_wp) as HT. destruct (com_curve_inv p _ x cv (proj1 rev_wp) H) as (pi & pts & _ & _ & _ & -> & _).
    unfold cv_fun, rev_curve; cbn [bc_pts bc_T]. apply curve_rev. lra.
  Qed.
  Lemma rev_acc cv x t a : com_curve p (total Ts) x = Ok cv -> is_deriv_n 2 (cv_fun cv) (total Ts - t) a -> is_deriv_n 2 (cv_fun (rev_curve cv)) t a.
  Proof. intros H D. eapply is_deriv_n_ext; [intros u; symmetry; apply (rev_fun cv x u H)|]. apply deriv2_rev. exact D. Qed.
  Lemma rev_acc_iff cv x t a : com_curve p (total Ts) x = Ok cv -> (is_deriv_n 2 (cv_fun cv) (total Ts - t) a <-> is_deriv_n 2 (cv_fun (rev_curve cv)) t a).
  Proof.
    intros H. split; [exact (rev_acc cv x t a H)|]. intros D. destruct (com_acc cv (total Ts - t)) as [a0 D0].
    rewrite (is_deriv_n_unique 2 _ _ _ _ _ (fun _ => eq_refl) D (rev_acc cv x t a0 H D0)). exact D0.
  Qed.
  Lemma rev_contact c x cv t : com_curve p (total Ts) x = Ok cv -> (contact_ok p 0 c (cv_fun cv) (total Ts - t) <-> contact_ok q 0 c (cv_fun (rev_curve cv)) t).
  Proof.
    intros H. unfold contact_ok. rewrite (rev_fun cv x t H). change (margin q) with (margin p).
    split; intros (K & ph & a & E & D & C); (split; [exact K|]); exists ph, a; (split; [exact E|]); (split; [|exact C]); apply (rev_acc_iff cv x t a H); exact D.
  Qed.
  Lemma rev_accel x cv t : com_curve p (total Ts) x = Ok cv -> (accel_ok p (cv_fun cv) (total Ts - t) <-> accel_ok q (cv_fun (rev_curve cv)) t).
  Proof.
    intros H. unfold accel_ok. change (constr q) with (constr p).
    split; intros A B; destruct (A B) as (a & D & W); exists a; (split; [|exact W]); apply (rev_acc_iff cv x t a H); exact D.
  Qed.
  Lemma rev_feasible n x cv : (1 <= n)%nat -> com_curve p (total Ts) x = Ok cv ->
    (plan_feasible p (sampled_fixed Ts n) (cv_fun cv) <-> plan_feasible q (sampled_fixed (rev Ts) n) (cv_fun (rev_curve cv))).
  Proof.
    intros Hn H. destruct rev_wp as (_ & _ & _ & _ & L & _). split; intros F i c t Hc Hs.
    - unfold q, reverse in Hc; cbn [contacts] in Hc. assert (Li : (i < length (contacts p))%nat) by (rewrite <- (rev_length (contacts p)); apply nth_error_Some; congruence).
      rewrite nth_rev in Hc by exact Li. pose proof (sampled_rev (rev Ts) n i t Hn Hs) as S. rewrite rev_involutive, rev_length, total_rev, <- L in S.
      destruct (F _ c (total Ts - t) Hc S) as [A B]. split; [apply (rev_contact c x cv t H); exact A|apply (rev_accel x cv t H); exact B].
    - assert (Li : (i < length (contacts p))%nat) by (apply nth_error_Some; congruence). pose proof (sampled_rev Ts n i t Hn Hs) as S. rewrite <- L in S.
      assert (Hc' : nth_error (contacts q) (length (contacts p) - 1 - i) = Some c).
      { unfold q, reverse; cbn [contacts]. rewrite nth_rev by lia. replace (length (contacts p) - 1 - (length (contacts p) - 1 - i))%nat with i by lia. exact Hc. }
      destruct (F _ c _ Hc' S) as [A B]. replace t with (total Ts - (total Ts - t)) by ring.
      split; [apply (rev_contact c x cv _ H); exact A|apply (rev_accel x cv _ H); exact B].
  Qed.
  Lemma Forall2_rev' {A B} (P : A -> B -> Prop) l l' : Forall2 P l l' -> Forall2 P (rev l) (rev l').
  Proof. intros F. induction F; cbn; [constructor|]. apply Forall2_app; [assumption|constructor; [assumption|constructor]]. Qed.
  Lemma Forall2_map_l {A A' B} (P : A' -> B -> Prop) (f : A -> A') l l' : Forall2 P (map f l) l' <-> Forall2 (fun a b => P (f a) b) l l'.
  Proof.
    revert l'. induction l as [|a l IH]; intros l'; cbn; (split; intros F; inversion F; subst; constructor); try assumption; apply IH; assumption.
  Qed.
  Lemma sum_list_app a b : sum_list (a ++ b) = sum_list a + sum_list b.
  Proof. unfold sum_list. induction a as [|x a IH]; cbn [app fold_right]; [ring|]. rewrite IH. ring. Qed.
  Lemma sum_list_rev l : sum_list (rev l) = sum_list l.
  Proof. induction l as [|a l IH]; [reflexivity|]. cbn [rev]. rewrite sum_list_app, IH. unfold sum_list; cbn [fold_right]. ring. Qed.
  Lemma rev_sum n x cv s : (1 <= n)%nat -> com_curve p (total Ts) x = Ok cv ->
    (sum_acc2 (cv_fun cv) (computeDiscretizedTimeFixed Ts n) s <-> sum_acc2 (cv_fun (rev_curve cv)) (computeDiscretizedTimeFixed (rev Ts) n) s).
  Proof.
    intros Hn H. set (ta := computeDiscretizedTimeFixed Ts n). set (ua := computeDiscretizedTimeFixed (rev Ts) n).
    assert (EU : map fst ua = rev (map (fun u => total Ts - u) (map fst ta))) by exact (times_rev n Ts Hn (proj1 (proj2 (proj2 rev_wp)))).
    assert (G : forall accs, Forall2 (fun tp a => is_deriv_n 2 (cv_fun cv) (fst tp) a) ta accs -> sum_acc2 (cv_fun (rev_curve cv)) ua (sum_list (map vnorm2 accs))).
    { intros accs F. exists (rev accs). split; [|rewrite map_rev, sum_list_rev; reflexivity].
      apply (Forall2_map_l (fun u a => is_deriv_n 2 (cv_fun (rev_curve cv)) u a) fst). rewrite EU. apply Forall2_rev'. rewrite map_map. apply Forall2_map_l.
      clear EU. induction F as [|tp a l l' D F IH]; constructor; [|exact IH]. apply (rev_acc cv x _ a H). replace (total Ts - (total Ts - fst tp)) with (fst tp) by ring. exact D. }
    split.
    - intros (accs & F & ->). exact (G accs F).
    - intros S. assert (X : exists accs, Forall2 (fun tp a => is_deriv_n 2 (cv_fun cv) (fst tp) a) ta accs).
      { clear. induction ta as [|tp l [accs IH]]; [exists []; constructor|]. destruct (com_acc cv (fst tp)) as [a D]. exists (a :: accs). constructor; assumption. }
      destruct X as [accs F]. exists accs. split; [exact F|]. exact (sum_acc2_unique _ _ _ _ S (G accs F)).
  Qed.
  Lemma rev_cost n x cv s : (1 <= n)%nat -> com_curve p (total Ts) x = Ok cv ->
    (plan_cost p (computeDiscretizedTimeFixed Ts n) x (cv_fun cv) s <-> plan_cost q (computeDiscretizedTimeFixed (rev Ts) n) x (cv_fun (rev_curve cv)) s).
  Proof.
    intros Hn H. unfold plan_cost. change (costFunction q) with (costFunction p). rewrite <- (rev_sum n x cv s Hn H).
    assert (M : mid_of q = mid_of p) by (unfold mid_of, q, reverse; cbn [c0 c1]; apply v3_eq; cbn; ring). rewrite M. tauto.
  Qed.
  Lemma rev_decides n : (1 <= n)%nat -> cost_decides p Ts (computeDiscretizedTimeFixed Ts n) -> cost_decides q (rev Ts) (computeDiscretizedTimeFixed (rev Ts) n).
  Proof.
    intros Hn [C|[C (tp & x & y & cvx & cvy & ax & ay & I & Hx & Hy & Dx & Dy & N)]]; [left; exact C|right]. split; [exact C|].
    assert (I' : In (total Ts - fst tp) (map fst (computeDiscretizedTimeFixed (rev Ts) n))).
    { rewrite (times_rev n Ts Hn (proj1 (proj2 (proj2 rev_wp)))). rewrite <- in_rev. apply (in_map (fun u => total Ts - u)). apply in_map. exact I. }
    apply in_map_iff in I'. destruct I' as (tp' & E & I'). exists tp', x, y, (rev_curve cvx), (rev_curve cvy), ax, ay.
    split; [exact I'|]. split; [exact (rev_com x cvx Hx)|]. split; [exact (rev_com y cvy Hy)|]. rewrite E.
    split; [apply (rev_acc cvx x _ _ Hx)|split; [apply (rev_acc cvy y _ _ Hy)|exact N]]; replace (total Ts - (total Ts - fst tp)) with (fst tp) by ring; assumption.
  Qed.
  Lemma rev_best n x cv : (1 <= n)%nat -> best p Ts (PerPhase n) (computeDiscretizedTimeFixed Ts n) x cv ->
    best q (rev Ts) (PerPhase n) (computeDiscretizedTimeFixed (rev Ts) n) x (rev_curve cv).
  Proof.
    intros Hn. apply (best_transfer p q Ts (rev Ts) (PerPhase n) (PerPhase n) _ _ (fun y => y) (fun y => y) rev_curve x cv); [|reflexivity|exact (p_total p Ts PL)].
    intros y cvy Hy. split; [exact (rev_com y cvy Hy)|]. split; [exact (rev_feasible n y cvy Hn Hy)|]. intros s. exact (rev_cost n y cvy s Hn Hy).
  Qed.
End Reverse.

Lemma c93_plan scaled wg quadprog glpk : qp_solves quadprog -> qp_sound quadprog -> lp_sound glpk -> forall p Ts n r,
  plannable p Ts -> flag_of p = F_dc1_c1 -> (1 <= n)%nat -> cost_decides p Ts (computeDiscretizedTimeFixed Ts n) ->
  computeCOMTrajFixedSize scaled wg quadprog glpk p Ts n = Ok r -> rc_success r = true ->
  exists r', computeCOMTrajFixedSize scaled wg quadprog glpk (reverse p) (rev Ts) n = Ok r' /\ rc_success r' = true /\
    rc_x r' = rc_x r /\ bc_T (rc_c r') = bc_T (rc_c r) /\ forall t, cv_fun (rc_c r') t = cv_fun (rc_c r) (total Ts - t).
Proof.
  intros QO QS LS p Ts n r PL FL Hn CD E S.
  destruct (c90_returned scaled wg quadprog glpk QO p Ts PL QS LS (PerPhase n) _ r Hn eq_refl CD E S) as (x & Ex & B).
  destruct (c90_found scaled wg quadprog glpk QO (reverse p) (rev Ts) (rev_plannable p Ts PL FL) (PerPhase n) _ _ _ Hn eq_refl (rev_decides p Ts PL FL n Hn CD) (rev_best p Ts PL FL n x _ Hn B)) as (r' & E' & S' & X' & C').
  exists r'. split; [exact E'|]. split; [exact S'|]. split; [congruence|]. rewrite C'. split; [reflexivity|]. intros t. exact (rev_fun p Ts PL _ x t (proj1 B)).
Qed.
Lemma reverse_twice p : reverse (reverse p) = p.
Proof. destruct p. unfold reverse; cbn. rewrite rev_involutive, !opp_opp. reflexivity. Qed.
