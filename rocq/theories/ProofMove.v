(** C92: a problem moved to another place. *)
From Coq Require Import List Lia Lra.
From Verif Require Import Vec SpecBezier SpecTime ModelData ModelDispatch ModelWaypoints ModelWaypointsJerk ModelUtils ModelCont ModelSolver ModelTraj
  SpecCom SpecWp SpecCtr SpecTraj SpecEnd SpecBest SpecMove ProofBezier ProofCurve ProofWaypoints ProofWaypoints2 ProofCom ProofCom2 ProofCom3 ProofTraj ProofTraj2 ProofTraj3 ProofBest ProofBest2.
Import ListNotations.
Open Scope R_scope.

(** ** Problems whose motions correspond *)
Lemma best_transfer p q Ts Us m n ta ua phi phi' psi x cv :
  (forall x cv, com_curve p (total Ts) x = Ok cv -> com_curve q (total Us) (phi x) = Ok (psi cv) /\
    (plan_feasible p (sampled Ts m) (cv_fun cv) <-> plan_feasible q (sampled Us n) (cv_fun (psi cv))) /\
    forall s, plan_cost p ta x (cv_fun cv) s <-> plan_cost q ua (phi x) (cv_fun (psi cv)) s) ->
  (forall y, phi (phi' y) = y) -> (forall y, exists cv, com_curve p (total Ts) y = Ok cv) ->
  best p Ts m ta x cv -> best q Us n ua (phi x) (psi cv).
Proof.
  intros HC HI HT (Hx & Fx & Ox). destruct (HC x cv Hx) as (C & F & K). split; [exact C|]. split; [apply F; exact Fx|].
  intros y cvy s s' Hy Fy K1 K2. destruct (HT (phi' y)) as [cv' Hy']. destruct (HC (phi' y) cv' Hy') as (C' & F' & K'). rewrite HI in C', K'.
  rewrite Hy in C'. injection C' as ->. apply (Ox (phi' y) cv' s s' Hy'); [apply F'; exact Fy|apply K; exact K1|apply K'; exact K2].
Qed.

(** ** Linear maps *)
Ltac qlin := apply v3_eq; unfold mvmul, vdot, vadd, vsub, vscal, vdivs, vopp, vzero, Rdiv; cbn [vx vy vz]; ring.
Section Lin.
  Variable Q : mat3.
  Lemma q_add a b : mvmul Q (vadd a b) = vadd (mvmul Q a) (mvmul Q b).
  Proof. qlin. Qed.
  Lemma q_sub a b : mvmul Q (vsub a b) = vsub (mvmul Q a) (mvmul Q b).
  Proof. qlin. Qed.
  Lemma q_scal k a : mvmul Q (vscal k a) = vscal k (mvmul Q a).
  Proof. qlin. Qed.
  Lemma q_divs k a : mvmul Q (vdivs a k) = vdivs (mvmul Q a) k.
  Proof. qlin. Qed.
  Lemma q_opp a : mvmul Q (vopp a) = vopp (mvmul Q a).
  Proof. qlin. Qed.
  Lemma q_zero : mvmul Q vzero = vzero.
  Proof. qlin. Qed.
End Lin.

Lemma bezl_lin3 (P : list vec3) (h : vec3 -> R) a b c d s :
  P <> [] -> (forall p, h p = a * vx p + b * vy p + c * vz p + d) ->
  bezl (map h P) s = a * bezl (map vx P) s + b * bezl (map vy P) s + c * bezl (map vz P) s + d.
Proof.
  intros NE Hh. unfold bezl. rewrite !map_length. set (n := pred (length P)).
  rewrite (bez_ext n (fun i => nth i (map h P) 0) (fun i => 1 * (a * nth i (map vx P) 0 + b * nth i (map vy P) 0) + 1 * (c * nth i (map vz P) 0 + d * 1))).
  - rewrite (bez_lin n 1 1 (fun i => a * nth i (map vx P) 0 + b * nth i (map vy P) 0) (fun i => c * nth i (map vz P) 0 + d * 1)).
    rewrite (bez_lin n a b (fun i => nth i (map vx P) 0) (fun i => nth i (map vy P) 0)), (bez_lin n c d (fun i => nth i (map vz P) 0) (fun _ => 1)), bez_const. ring.
  - intros i Hi. assert (L : (i < length P)%nat) by (unfold n in Hi; destruct P; [contradiction|cbn in *; lia]).
    assert (G : forall g : vec3 -> R, nth i (map g P) 0 = g (nth i P vzero)).
    { intros g. rewrite (nth_indep (map g P) 0 (g vzero)) by (rewrite map_length; exact L). apply map_nth. }
    rewrite !G, Hh. ring.
Qed.
Lemma curve_place Q v P T t : P <> [] -> curve (map (place Q v) P) T t = place Q v (curve P T t).
Proof.
  intros NE. unfold curve, bez3, place. rewrite !map_map.
  apply v3_eq; unfold mvmul, vadd, vdot; cbn [vx vy vz].
  - rewrite (bezl_lin3 P _ (vx (row0 Q)) (vy (row0 Q)) (vz (row0 Q)) (vx v) _ NE); [reflexivity|]. intros p; ring.
  - rewrite (bezl_lin3 P _ (vx (row1 Q)) (vy (row1 Q)) (vz (row1 Q)) (vy v) _ NE); [reflexivity|]. intros p; ring.
  - rewrite (bezl_lin3 P _ (vx (row2 Q)) (vy (row2 Q)) (vz (row2 Q)) (vz v) _ NE); [reflexivity|]. intros p; ring.
Qed.

Lemma lim_ext f g t l : (forall u, f u = g u) -> derivable_pt_lim f t l -> derivable_pt_lim g t l.
Proof. intros E H e He. destruct (H e He) as [d Hd]. exists d. intros h H1 H2. rewrite <- !E. apply Hd; assumption. Qed.
Lemma lim_lin3 (f : R -> vec3) t l a b c d : is_deriv f t l ->
  derivable_pt_lim (fun u => a * vx (f u) + b * vy (f u) + c * vz (f u) + d) t (a * vx l + b * vy l + c * vz l).
Proof.
  intros (D1 & D2 & D3). replace (a * vx l + b * vy l + c * vz l) with (a * vx l + b * vy l + c * vz l + 0) by ring.
  apply (derivable_pt_lim_plus (fun u => a * vx (f u) + b * vy (f u) + c * vz (f u)) (fun _ => d)); [|apply derivable_pt_lim_const].
  apply (derivable_pt_lim_plus (fun u => a * vx (f u) + b * vy (f u)) (fun u => c * vz (f u))).
  - apply (derivable_pt_lim_plus (fun u => a * vx (f u)) (fun u => b * vy (f u))); [apply (derivable_pt_lim_scal (fun u => vx (f u)))|apply (derivable_pt_lim_scal (fun u => vy (f u)))]; assumption.
  - apply (derivable_pt_lim_scal (fun u => vz (f u))); assumption.
Qed.
Lemma deriv_place Q v f t l : is_deriv f t l -> is_deriv (fun u => place Q v (f u)) t (mvmul Q l).
Proof.
  intros D. unfold place, mvmul, vadd, vdot. repeat split; cbn [vx vy vz].
  - exact (lim_ext _ _ t _ (fun u => eq_refl) (lim_lin3 f t l _ _ _ (vx v) D)).
  - exact (lim_ext _ _ t _ (fun u => eq_refl) (lim_lin3 f t l _ _ _ (vy v) D)).
  - exact (lim_ext _ _ t _ (fun u => eq_refl) (lim_lin3 f t l _ _ _ (vz v) D)).
Qed.
Lemma place_0 Q c : place Q vzero c = mvmul Q c.
Proof. unfold place. apply v3_eq; cbn; ring. Qed.
Lemma deriv2_place Q v f t l : is_deriv_n 2 f t l -> is_deriv_n 2 (fun u => place Q v (f u)) t (mvmul Q l).
Proof.
  intros (f' & D1 & f2 & D2 & E). exists (fun u => mvmul Q (f' u)). split; [intros u; apply deriv_place; apply D1|].
  exists (fun u => mvmul Q (f2 u)). split; [|cbn; now rewrite E].
  intros u. pose proof (deriv_place Q vzero f' u _ (D2 u)) as D. destruct D as (A & B & C).
  repeat split; [eapply lim_ext; [|exact A]|eapply lim_ext; [|exact B]|eapply lim_ext; [|exact C]]; intros w; cbv beta; now rewrite <- place_0.
Qed.

(** ** The motions of a moved problem *)
Definition move_curve (Q : mat3) (v : vec3) (cv : bcurve) : bcurve := BCurve (map (place Q v) (bc_pts cv)) (bc_T cv).

Section Move.
  Variable Q : mat3.
  Variable v : vec3.
  Hypothesis RQ : rotation Q.
  Variable p : problem.
  Variable Ts : list R.
  Hypothesis PL : plannable p Ts.
  Hypothesis TF : turns_freely p Q.
  Hypothesis SF : shifts_freely p v.
  Let q := move Q v p.

  Lemma dotQ a b : vdot (mvmul Q a) (mvmul Q b) = vdot a b.
  Proof. apply RQ. Qed.
  Lemma crossQ a b : mvmul Q (vcross a b) = vcross (mvmul Q a) (mvmul Q b).
  Proof. apply RQ. Qed.
  Lemma q_inj a : mvmul Q a = vzero -> a = vzero.
  Proof.
    intros E. apply vnorm_0. unfold vnorm, vnorm2. rewrite <- dotQ, E. unfold vdot, vzero; cbn. replace (0 * 0 + 0 * 0 + 0 * 0) with 0 by ring. apply sqrt_0.
  Qed.

  Lemma move_plannable : plannable q Ts.
  Proof.
    destruct PL as ((F & C & N & P & L & W) & (g & SG) & Hf). split; [|split; [|exact Hf]].
    - split; [exact F|]. split; [intros E; unfold q, move; cbn [dc1]; rewrite (C E); apply q_zero|]. split; [exact N|]. split; [exact P|].
      split; [unfold q, move; cbn [contacts]; rewrite map_length; exact L|]. unfold q, move; cbn [contacts]. apply Forall_map.
      rewrite Forall_forall in *. intros c Hc. destruct (W c Hc) as (ph & E & M & Z & K). exists (move_phase Q v ph).
      split; [unfold move_contact; cbn [cd_phase]; rewrite E; reflexivity|]. split; [exact M|]. split.
      + unfold move_phase; cbn [cp_poly]. apply Forall_map. rewrite Forall_forall in *. intros Hh IH E'. apply (Z Hh IH).
        cbn [fst] in E'. unfold move_row in E'.
        pose proof (f_equal snd E') as E2. pose proof (f_equal fst E') as E1. cbn [fst snd] in E1, E2. rewrite E2 in E1.
        apply q_inj in E2. assert (E3 : mvmul Q (fst (fst Hh)) = vzero). { rewrite <- E1. apply v3_eq; cbn; ring. }
        apply q_inj in E3. transitivity (fst (fst Hh), snd (fst Hh)); [apply surjective_pairing|now rewrite E3, E2].
      + unfold move_contact; cbn [cd_kin cd_Kin]. rewrite !map_length, combine_length. lia.
    - exists (mvmul Q g). intros c ph Hc E. unfold q, move in Hc; cbn [contacts] in Hc. apply in_map_iff in Hc. destruct Hc as (c' & <- & Hc).
      unfold move_contact in E; cbn [cd_phase] in E. destruct (cd_phase c') as [ph'|] eqn:E'; [|discriminate]. injection E as <-.
      unfold move_phase; cbn [cp_gravity]. now rewrite (SG c' ph' Hc E').
  Qed.
  Lemma p_wp : well_posed p Ts. Proof. apply PL. Qed.
  Lemma p_total x : exists cv, com_curve p (total Ts) x = Ok cv.
  Proof. exact (com_curve_total p (total Ts) x (proj1 p_wp) (proj1 (proj2 p_wp)) (total_posd p Ts p_wp)). Qed.

  Ltac pts := repeat f_equal; unfold place; repeat first [rewrite q_add | rewrite q_sub | rewrite q_opp | rewrite q_divs | rewrite q_scal | rewrite q_zero];
    apply v3_eq; cbn [vx vy vz vadd vsub vscal vdivs vopp vzero place]; try (field; lra).
  Lemma move_com x cv : com_curve p (total Ts) x = Ok cv -> com_curve q (total Ts) (place Q v x) = Ok (move_curve Q v cv).
  Proof.
    intros H. pose proof (total_posd p Ts p_wp) as HT. set (T := total Ts) in *. assert (HT0 : T <> 0) by lra.
    destruct (com_curve_inv p T x cv (proj1 p_wp) H) as (pi & pts & Hs & _ & _ & -> & Hcap).
    unfold com_curve. change (flag_of q) with (flag_of p).
    destruct Hs as [pi E Hc a b c d Ep|pi E Hc a b c d Ep|pi E Hc a b c d e Ep|pi E Hc a b c d Ep
      |pi E Hc a b c d e Ep|pi E Hc a b c d e f Ep|pi E Hc a b c d e f h Ep]; subst pi.
    - rewrite (ccw_c1 q T E), E. unfold c0_dc0_c1_computeConstantWaypoints in *. injection Hc as; subst. cbn [bind]. rewrite bez_c1, mk_bezier_ok by assumption.
      unfold move_curve; cbn [bc_pts bc_T map c0 dc0 ddc0 c1 dc1 ddc1 q move]. pts.
    - rewrite (ccw_capture q T E), E. unfold c0_dc0_dc1_computeConstantWaypoints in *. destruct (Req_EM_T (vnorm (dc1 p)) 0); [|discriminate]. destruct (Req_EM_T (vnorm (dc1 q)) 0) as [_|NZ];
      [|exfalso; apply NZ; apply vnorm_0; unfold q, move; cbn [dc1]; rewrite (Hcap E); apply q_zero]. injection Hc as; subst. cbn [bind]. rewrite bez_capture, mk_bezier_ok by assumption.
      unfold move_curve; cbn [bc_pts bc_T map c0 dc0 ddc0 c1 dc1 ddc1 q move]. pts.
    - rewrite (ccw_dc1_c1 q T E), E. unfold c0_dc0_dc1_c1_computeConstantWaypoints in *. injection Hc as; subst. cbn [bind]. rewrite bez_dc1_c1, mk_bezier_ok by assumption.
      unfold move_curve; cbn [bc_pts bc_T map c0 dc0 ddc0 c1 dc1 ddc1 q move]. pts.
    - rewrite (ccw_acc q T E), E. unfold c0_dc0_ddc0_computeConstantWaypoints in *. injection Hc as; subst. cbn [bind]. rewrite bez_acc, mk_bezier_ok by assumption.
      unfold move_curve; cbn [bc_pts bc_T map c0 dc0 ddc0 c1 dc1 ddc1 q move]. pts.
    - rewrite (ccw_acc_c1 q T E), E. unfold c0_dc0_ddc0_c1_computeConstantWaypoints in *. injection Hc as; subst. cbn [bind]. rewrite bez_acc_c1, mk_bezier_ok by assumption.
      unfold move_curve; cbn [bc_pts bc_T map c0 dc0 ddc0 c1 dc1 ddc1 q move]. pts.
    - rewrite (ccw_acc_dc1_c1 q T E), E. unfold c0_dc0_ddc0_dc1_c1_computeConstantWaypoints in *. injection Hc as; subst. cbn [bind]. rewrite bez_acc_dc1_c1, mk_bezier_ok by assumption.
      unfold move_curve; cbn [bc_pts bc_T map c0 dc0 ddc0 c1 dc1 ddc1 q move]. pts.
    - rewrite (ccw_acc_all q T E), E. unfold c0_dc0_ddc0_ddc1_dc1_c1_computeConstantWaypoints in *. injection Hc as; subst. cbn [bind]. rewrite bez_acc_all, mk_bezier_ok by assumption.
      unfold move_curve; cbn [bc_pts bc_T map c0 dc0 ddc0 c1 dc1 ddc1 q move]. pts.
  Qed.

  Lemma move_fun cv x t : com_curve p (total Ts) x = Ok cv -> cv_fun (move_curve Q v cv) t = place Q v (cv_fun cv t).
  Proof.
    intros H. destruct (com_curve_inv p _ x cv (proj1 p_wp) H) as (pi & pts & Hs & _ & _ & -> & _).
    unfold cv_fun, move_curve; cbn [bc_pts bc_T]. apply curve_place. destruct Hs; discriminate.
  Qed.
  Lemma move_acc cv x t a : com_curve p (total Ts) x = Ok cv -> is_deriv_n 2 (cv_fun cv) t a -> is_deriv_n 2 (cv_fun (move_curve Q v cv)) t (mvmul Q a).
  Proof.
    intros H D. eapply is_deriv_n_ext; [intros u; symmetry; apply (move_fun cv x u H)|]. apply deriv2_place. exact D.
  Qed.

  Lemma move_dot6 H m g c a : dot6 (move_row Q v H) (giw m (mvmul Q g) (place Q v c) (mvmul Q a)) = dot6 H (giw m g c a).
  Proof.
    assert (E1 : vsub (mvmul Q g) (mvmul Q a) = mvmul Q (vsub g a)) by (symmetry; apply q_sub).
    unfold giw, dot6, move_row; cbn [fst snd]. rewrite E1. set (F := vsub g a).
    assert (E2 : vcross (place Q v c) (mvmul Q F) = vadd (mvmul Q (vcross c F)) (vcross v (mvmul Q F))).
    { rewrite crossQ. unfold place. apply v3_eq; unfold vcross, vadd; cbn [vx vy vz]; ring. }
    rewrite E2, <- q_scal.
    transitivity (vdot (mvmul Q (fst H)) (mvmul Q (vscal m F)) + vdot (mvmul Q (snd H)) (mvmul Q (vscal m (vcross c F)))); [|now rewrite !dotQ].
    rewrite !q_scal. set (f := mvmul Q F). set (h := mvmul Q (snd H)). set (k := mvmul Q (vcross c F)). set (e := mvmul Q (fst H)).
    unfold vdot, vsub, vadd, vscal, vcross; cbn [vx vy vz]. ring.
  Qed.
  Lemma move_norm H : v = vzero -> norm6 (move_row Q v H) = norm6 H.
  Proof.
    intros ->. unfold norm6. f_equal. unfold dot6, move_row; cbn [fst snd].
    assert (E : vsub (mvmul Q (fst H)) (vcross (mvmul Q (snd H)) vzero) = mvmul Q (fst H)).
    { apply v3_eq; unfold vsub, vcross, vzero; cbn [vx vy vz]; ring. }
    rewrite E, !dotQ. reflexivity.
  Qed.
  Lemma move_kin c x : contact_wf c -> (kin_ok (move_contact Q v c) (place Q v x) <-> kin_ok c x).
  Proof.
    intros (ph & _ & _ & _ & L). unfold kin_ok, move_contact; cbn [cd_Kin cd_kin].
    assert (E : forall K, vdot (mvmul Q K) (place Q v x) = vdot K x + vdot (mvmul Q K) v).
    { intros K. rewrite <- (dotQ K x). unfold place, vdot, vadd; cbn [vx vy vz]. ring. }
    assert (NC : forall (Ks : list vec3) (ks : list R) i K k, nth_error Ks i = Some K -> nth_error ks i = Some k -> nth_error (combine Ks ks) i = Some (K, k)).
    { induction Ks as [|K0 Ks IH]; intros [|k0 ks] [|i] K k H1 H2; cbn in *; try discriminate; [now injection H1 as ->; injection H2 as ->|now apply IH]. }
    assert (CN : forall (Ks : list vec3) (ks : list R) i K k, nth_error (combine Ks ks) i = Some (K, k) -> nth_error Ks i = Some K /\ nth_error ks i = Some k).
    { induction Ks as [|K0 Ks IH]; intros [|k0 ks] [|i] K k H; cbn in *; try discriminate; [now injection H as -> ->|now apply IH]. }
    split.
    - intros H i K k H1 H2. specialize (H i (mvmul Q K) (k + vdot (mvmul Q K) v)). rewrite E in H.
      assert (vdot K x + vdot (mvmul Q K) v <= k + vdot (mvmul Q K) v); [|lra]. apply H.
      + exact (map_nth_error (mvmul Q) i _ H1).
      + exact (map_nth_error (fun Kk : vec3 * R => snd Kk + vdot (mvmul Q (fst Kk)) v) i _ (NC _ _ i K k H1 H2)).
    - intros H i K k H1 H2. rewrite nth_error_map in H1, H2. destruct (nth_error (combine (cd_Kin c) (cd_kin c)) i) as [[K0 k0]|] eqn:EC; [|discriminate].
      destruct (CN _ _ _ _ _ EC) as [A B]. rewrite A in H1. cbn in H1, H2. injection H1 as <-. injection H2 as <-. rewrite E. specialize (H i K0 k0 A B). lra.
  Qed.
  Lemma move_cone ph c x a : In c (contacts p) -> cd_phase c = Some ph ->
    (cone_ok (margin q) 0 (move_phase Q v ph) (giw (cp_mass ph) (mvmul Q (cp_gravity ph)) (place Q v x) (mvmul Q a)) <->
     cone_ok (margin p) 0 ph (giw (cp_mass ph) (cp_gravity ph) x a)).
  Proof.
    intros IC EC. change (margin q) with (margin p). unfold cone_ok, move_phase; cbn [cp_poly cp_mass]. rewrite Forall_map. rewrite !Forall_forall.
    assert (G : forall Hh, In Hh (cp_poly ph) -> norm6 (move_row Q v (fst Hh)) * (snd Hh - margin p + 0) = norm6 (fst Hh) * (snd Hh - margin p + 0)).
    { intros Hh IH. destruct SF as [Z|Z]; [now rewrite move_norm|]. rewrite (Z c ph Hh IC EC IH). ring. }
    split; intros H Hh IH; specialize (H Hh IH); cbn [fst snd] in *; rewrite move_dot6 in *; rewrite Rmult_assoc in *; rewrite (G Hh IH) in *; exact H.
  Qed.
  Lemma move_contact_ok c x cv t : In c (contacts p) -> com_curve p (total Ts) x = Ok cv ->
    (contact_ok q 0 (move_contact Q v c) (cv_fun (move_curve Q v cv)) t <-> contact_ok p 0 c (cv_fun cv) t).
  Proof.
    intros IC H. pose proof (proj1 (Forall_forall _ _) (proj2 (proj2 (proj2 (proj2 (proj2 p_wp))))) c IC) as W.
    unfold contact_ok. rewrite (move_fun cv x t H), (move_kin c _ W). split; intros (K & ph & a & E & D & C); (split; [exact K|]).
    - unfold move_contact in E; cbn [cd_phase] in E. destruct (cd_phase c) as [ph0|] eqn:E0; [|discriminate]. injection E as <-.
      destruct (com_acc cv t) as [a0 D0]. exists ph0, a0. split; [reflexivity|]. split; [exact D0|].
      rewrite (is_deriv_n_unique 2 _ _ _ _ _ (fun _ => eq_refl) D (move_acc cv x t a0 H D0)) in C. apply (move_cone ph0 c _ _ IC E0). exact C.
    - exists (move_phase Q v ph), (mvmul Q a). split; [unfold move_contact; cbn [cd_phase]; rewrite E; reflexivity|]. split; [exact (move_acc cv x t a H D)|].
      apply (move_cone ph c _ _ IC E). exact C.
  Qed.
  Lemma move_accel x cv t : com_curve p (total Ts) x = Ok cv -> (accel_ok q (cv_fun (move_curve Q v cv)) t <-> accel_ok p (cv_fun cv) t).
  Proof.
    intros H. unfold accel_ok. change (constr q) with (constr p). split; intros A B; destruct (A B) as (a & D & W).
    - destruct (com_acc cv t) as [a0 D0]. exists a0. split; [exact D0|].
      rewrite (is_deriv_n_unique 2 _ _ _ _ _ (fun _ => eq_refl) D (move_acc cv x t a0 H D0)), (TF B) in W. exact W.
    - exists (mvmul Q a). split; [exact (move_acc cv x t a H D)|]. rewrite (TF B). exact W.
  Qed.
  Lemma move_feasible m x cv : com_curve p (total Ts) x = Ok cv ->
    (plan_feasible p (sampled Ts m) (cv_fun cv) <-> plan_feasible q (sampled Ts m) (cv_fun (move_curve Q v cv))).
  Proof.
    intros H. unfold plan_feasible, q, move; cbn [contacts]. fold (move Q v p). fold q. split; intros F i c t Hc Hs.
    - rewrite nth_error_map in Hc. destruct (nth_error (contacts p) i) as [c0'|] eqn:E; [|discriminate]. injection Hc as <-. destruct (F i c0' t E Hs) as [A B].
      split; [apply (move_contact_ok c0' x cv t (nth_error_In _ _ E) H); exact A|apply (move_accel x cv t H); exact B].
    - destruct (F i (move_contact Q v c) t (map_nth_error _ _ _ Hc) Hs) as [A B].
      split; [apply (move_contact_ok c x cv t (nth_error_In _ _ Hc) H); exact A|apply (move_accel x cv t H); exact B].
  Qed.
  Lemma move_cost ta x cv s : com_curve p (total Ts) x = Ok cv ->
    (plan_cost p ta x (cv_fun cv) s <-> plan_cost q ta (place Q v x) (cv_fun (move_curve Q v cv)) s).
  Proof.
    intros H. unfold plan_cost. change (costFunction q) with (costFunction p).
    assert (E1 : vnorm2 (vsub (place Q v x) (mid_of q)) = vnorm2 (vsub x (mid_of p))).
    { unfold vnorm2. rewrite <- (dotQ (vsub x (mid_of p))). f_equal; rewrite q_sub; unfold mid_of, place, q, move; cbn [c0 c1]; rewrite q_scal, q_add;
        apply v3_eq; unfold vsub, vadd, vscal, place, vadd; cbn [vx vy vz]; field. }
    rewrite E1.
    assert (E2 : sum_acc2 (cv_fun cv) ta s <-> sum_acc2 (cv_fun (move_curve Q v cv)) ta s).
    { assert (G : forall accs, Forall2 (fun tp a => is_deriv_n 2 (cv_fun cv) (fst tp) a) ta accs ->
        Forall2 (fun tp a => is_deriv_n 2 (cv_fun (move_curve Q v cv)) (fst tp) a) ta (map (mvmul Q) accs) /\
        sum_list (map vnorm2 (map (mvmul Q) accs)) = sum_list (map vnorm2 accs)).
      { intros accs F. induction F as [|tp a l l' D F IH]; cbn [map]; [split; [constructor|reflexivity]|]. destruct IH as [IH1 IH2].
        split; [constructor; [exact (move_acc cv x _ a H D)|exact IH1]|]. cbn [sum_list fold_right]. unfold sum_list in *. cbn [fold_right]. rewrite IH2. unfold vnorm2 at 1. rewrite dotQ. reflexivity. }
      split.
      - intros (accs & F & ->). destruct (G accs F) as [G1 G2]. exists (map (mvmul Q) accs). split; [exact G1|now rewrite G2].
      - intros HS. assert (X : exists accs, Forall2 (fun tp a => is_deriv_n 2 (cv_fun cv) (fst tp) a) ta accs).
        { clear. induction ta as [|tp l [accs IH]]; [exists []; constructor|]. destruct (com_acc cv (fst tp)) as [a D]. exists (a :: accs). constructor; assumption. }
        destruct X as [accs F]. destruct (G accs F) as [G1 G2]. exists accs. split; [exact F|]. rewrite <- G2. apply (sum_acc2_unique _ _ _ _ HS). exists (map (mvmul Q) accs). split; [exact G1|reflexivity]. }
    tauto.
  Qed.
  Lemma move_decides ta : cost_decides p Ts ta -> cost_decides q Ts ta.
  Proof.
    intros [C|[C (tp & x & y & cvx & cvy & ax & ay & I & Hx & Hy & Dx & Dy & N)]]; [left; exact C|right]. split; [exact C|].
    exists tp, (place Q v x), (place Q v y), (move_curve Q v cvx), (move_curve Q v cvy), (mvmul Q ax), (mvmul Q ay).
    split; [exact I|]. split; [exact (move_com x cvx Hx)|]. split; [exact (move_com y cvy Hy)|]. split; [exact (move_acc cvx x _ _ Hx Dx)|]. split; [exact (move_acc cvy y _ _ Hy Dy)|].
    intros E. apply N. apply vsub_zero. apply q_inj. rewrite q_sub, E. apply v3_eq; unfold vsub, vzero; cbn [vx vy vz]; ring.
  Qed.
  Lemma place_back : exists back, forall y, place Q v (back y) = y.
  Proof.
    destruct RQ as (_ & _ & Q' & HQ). exists (fun y => mvmul Q' (vsub y v)). intros y. unfold place. rewrite HQ. apply v3_eq; unfold vsub, vadd; cbn [vx vy vz]; ring.
  Qed.
  Lemma move_best m ta x cv : best p Ts m ta x cv -> best q Ts m ta (place Q v x) (move_curve Q v cv).
  Proof.
    destruct place_back as [back HB].
    apply (best_transfer p q Ts Ts m m ta ta (place Q v) back (move_curve Q v) x cv); [|exact HB|exact p_total].
    intros y cvy Hy. split; [exact (move_com y cvy Hy)|]. split; [exact (move_feasible m y cvy Hy)|]. intros s. exact (move_cost ta y cvy s Hy).
  Qed.

  Variable scaled wg : bool.
  Variable quadprog : qp -> list R -> outcome (Z * list R * R).
  Variable glpk : lp -> outcome (Z * R * list R).
  Hypothesis QO : qp_solves quadprog.
  Hypothesis QS : qp_sound quadprog.
  Hypothesis LS : lp_sound glpk.
  Lemma c92_move m ta r : proper m -> cost_times Ts m ta -> cost_decides p Ts ta ->
    call scaled wg quadprog glpk p Ts m = Ok r -> rc_success r = true ->
    exists r' x, call scaled wg quadprog glpk q Ts m = Ok r' /\ rc_success r' = true /\
      rc_x r = l3 x /\ rc_x r' = l3 (place Q v x) /\
      bc_T (rc_c r') = bc_T (rc_c r) /\ (forall t, cv_fun (rc_c r') t = place Q v (cv_fun (rc_c r) t)) /\
      forall s, plan_cost p ta x (cv_fun (rc_c r)) s -> plan_cost q ta (place Q v x) (cv_fun (rc_c r')) s.
  Proof.
    intros PR CT CD E S. destruct (c90_returned scaled wg quadprog glpk QO p Ts PL QS LS m ta r PR CT CD E S) as (x & Ex & B).
    destruct (c90_found scaled wg quadprog glpk QO q Ts move_plannable m ta _ _ PR CT (move_decides ta CD) (move_best m ta x _ B)) as (r' & E' & S' & X' & C').
    pose proof (proj1 B) as H. exists r', x. split; [exact E'|]. split; [exact S'|]. split; [exact Ex|]. split; [exact X'|]. rewrite C'.
    split; [reflexivity|]. split; [intros t; exact (move_fun _ x t H)|]. intros s K. apply (move_cost ta x _ s H). exact K.
  Qed.
End Move.

(** the other way: a plan for the moved problem gives one for the problem *)
Lemma c92_back Q v p Ts : rotation Q -> plannable p Ts -> turns_freely p Q -> shifts_freely p v ->
  forall scaled wg quadprog glpk, qp_solves quadprog -> qp_sound quadprog -> lp_sound glpk ->
  forall m ta r', proper m -> cost_times Ts m ta -> cost_decides p Ts ta ->
  call scaled wg quadprog glpk (move Q v p) Ts m = Ok r' -> rc_success r' = true ->
  exists r, call scaled wg quadprog glpk p Ts m = Ok r /\ rc_success r = true.
Proof.
  intros RQ PL TF SF scaled wg quadprog glpk QO QS LS m ta r' PR CT CD E S.
  destruct (call_feasible scaled wg quadprog glpk (move Q v p) Ts (move_plannable Q v RQ p Ts PL) QS LS m r' PR E S) as ((_ & (y & Ey & Hcv) & _) & FE).
  destruct (place_back Q v RQ) as [back HB]. destruct (p_total p Ts PL (back y)) as [cv H].
  pose proof (move_com Q v p Ts PL _ _ H) as H'. rewrite HB, Hcv in H'. injection H' as H'. rewrite H' in FE.
  apply (move_feasible Q v RQ p Ts PL TF SF m _ _ H) in FE.
  destruct (call_opt scaled wg quadprog glpk QO p Ts PL m ta _ _ PR CT CD H FE) as (r & _ & _ & _ & _ & E' & S' & _). exists r. split; assumption.
Qed.
