(** The inequalities of the zero-step problem (C25, C26, C28). *)
From Verif Require Import Vec SpecBezier ModelData ModelDispatch ModelUtils ModelRows ModelCom ModelNd ModelCont ModelSolver ModelTraj Model0Step
  SpecCom SpecWp SpecCtr SpecCont SpecSolver SpecTraj Spec0Step ProofBezier ProofCurve ProofWaypoints ProofWaypoints2 ProofWaypoints3 ProofRows ProofCom
  ProofNd ProofCont ProofCont3 ProofCont10 ProofTraj.
Open Scope R_scope.

(** ** The waypoints are the control points of the wrench *)
Definition z_ws (p0 p1 g : vec3) (a : R) : list wp6 :=
  [z_w0 p0 p1 g a; z_w1 p0 p1 g a; z_w2 p0 p1 g a; z_w3 p0 p1 g a; z_w4 p0 p1 g a].
Definition z_us (l0 : vec3) (a : R) : list wp6 := [z_u0 l0 a; z_u1 l0 a; z_u2 l0 a; z_u3 l0 a; z_u4 l0 a].
Definition z_us0 : list wp6 := repeat w6_zero 5.
(** wrench for the waypoints [w], [u] *)
Definition z_pt (m : R) (g x xL : vec3) (wu : wp6 * wp6) : v6 :=
  v6sub (v6_scal m (v6sub (g, vzero) (ev_w6 (fst wu) x))) (ev_w6 (snd wu) xL).

Ltac zunf := unfold vcross, mvmul, madd, msub, mopp, mscal, mdivs, mzero, mid, skew, vadd, vsub, vopp, vscal, vdivs, vzero, vdot;
  cbn [vx vy vz row0 row1 row2].

Lemma z_lin_pts m g ws us x xL T t : length ws = 5%nat -> length us = 5%nat ->
  curve6 (map (z_pt m g x xL) (combine ws us)) T t
  = v6sub (v6_scal m (v6sub (g, vzero) (curve6 (map (fun w => ev_w6 w x) ws) T t))) (curve6 (map (fun w => ev_w6 w xL) us) T t).
Proof.
  intros H1 H2. unfold z_pt.
  destruct ws as [|w0 [|w1 [|w2 [|w3 [|w4 [|]]]]]]; try discriminate H1.
  destruct us as [|u0 [|u1 [|u2 [|u3 [|u4 [|]]]]]]; try discriminate H2.
  cbn [combine map fst snd]. repeat match goal with |- context [ev_w6 ?w ?y] => generalize (ev_w6 w y); intros [[? ? ?] [? ? ?]] end.
  destruct g. unfold curve6, v6sub, v6_scal, curve; cbn [map fst snd]. generalize (t / T). intros s. bez_norm.
  f_equal; apply v3_eq; wsimp; ring.
Qed.
Ltac z_goal HT :=
  unfold curve6, wrench, ev_w6; wsimp; f_equal;
  hodo_vals; unfold curve;
  match goal with |- context [bez3 _ (?t / ?T)] => generalize (t / T); intros s end;
  bez_norm; apply v3_eq; wsimp; unfold vdot; wsimp; field; exact HT.
Lemma z_ws_ok p0 p1 g T x t : T <> 0 ->
  curve6 (map (fun w => ev_w6 w x) (z_ws p0 p1 g (1 / (T * T)))) T t
  = wrench g (curve [p0; p1; x; x] T t) (curve (hodo_n 2 T [p0; p1; x; x]) T t).
Proof. intros HT. unfold z_ws, z_w0, z_w1, z_w2, z_w3, z_w4, mx3. z_goal HT. Qed.
Lemma z_us_ok l0 T xL t : T <> 0 ->
  curve6 (map (fun w => ev_w6 w xL) (z_us l0 (1 / T))) T t = (vzero, curve (hodo_n 1 T [l0; xL; vzero; vzero]) T t).
Proof. intros HT. unfold z_us, z_u0, z_u1, z_u2, z_u3, z_u4, mx3, w6_zero. z_goal HT. Qed.
Lemma z_us0_ok T xL t : curve6 (map (fun w => ev_w6 w xL) z_us0) T t = (vzero, vzero).
Proof.
  unfold z_us0, w6_zero. cbn [repeat map]. unfold curve6, ev_w6, curve; wsimp. generalize (t / T). intros s. bez_norm.
  f_equal; apply v3_eq; wsimp; unfold vdot; wsimp; ring.
Qed.
Lemma wrench_giwL m g c acc dl : v6sub (v6_scal m (v6sub (g, vzero) (wrench g c acc))) (vzero, dl) = giwL m g c acc dl.
Proof.
  unfold v6sub, v6_scal, wrench, giwL. cbn [fst snd]. destruct g, c, acc, dl. f_equal; apply v3_eq; wsimp; ring.
Qed.

Lemma z_wrench m g c0 p1 l0 T x xL t : T <> 0 ->
  giwL m g (curve [c0; p1; x; x] T t) (curve (hodo_n 2 T [c0; p1; x; x]) T t) (curve (hodo_n 1 T [l0; xL; vzero; vzero]) T t)
  = curve6 (map (z_pt m g x xL) (combine (z_ws c0 p1 g (1 / (T * T))) (z_us l0 (1 / T)))) T t.
Proof. intros HT. rewrite z_lin_pts, z_ws_ok, z_us_ok, wrench_giwL by (try reflexivity; exact HT). reflexivity. Qed.
Lemma z_wrench0 m g c0 p1 T x xL t : T <> 0 ->
  giwL m g (curve [c0; p1; x; x] T t) (curve (hodo_n 2 T [c0; p1; x; x]) T t) vzero
  = curve6 (map (z_pt m g x xL) (combine (z_ws c0 p1 g (1 / (T * T))) z_us0)) T t.
Proof. intros HT. rewrite z_lin_pts, z_ws_ok, z_us0_ok, wrench_giwL by (try reflexivity; exact HT). reflexivity. Qed.

(** ** Discretisation *)
Definition z_comb (ws : list wp6) (u : R) : wp6 := okd w6_zero (combine_w 4 0 u ws w6_zero).
Lemma z_comb_ok ws u : length ws = 5%nat -> 0 <= u <= 1 -> combine_w 4 0 u ws w6_zero = Ok (z_comb ws u).
Proof.
  intros HL Hu. unfold z_comb. destruct (w_at ws u Hu) as (r & Hr & _). rewrite HL in Hr. cbn [Nat.sub] in Hr. rewrite Hr. reflexivity.
Qed.
Lemma z_comb_ev ws u x : length ws = 5%nat -> 0 <= u <= 1 -> ev_w6 (z_comb ws u) x = curve6 (map (fun w => ev_w6 w x) ws) 1 u.
Proof.
  intros HL Hu. unfold z_comb. destruct (w_at ws u Hu) as (r & Hr & H). rewrite HL in Hr. cbn [Nat.sub] in Hr. rewrite Hr. cbn [okd].
  rewrite H. unfold curve6, curve. rewrite !map_map. replace (u / 1) with u by field. reflexivity.
Qed.
Lemma z_comb_pt m g ws us u x xL : length ws = 5%nat -> length us = 5%nat -> 0 <= u <= 1 ->
  z_pt m g x xL (z_comb ws u, z_comb us u) = curve6 (map (z_pt m g x xL) (combine ws us)) 1 u.
Proof. intros H1 H2 Hu. rewrite z_lin_pts by assumption. unfold z_pt. cbn [fst snd]. rewrite !z_comb_ev by assumption. reflexivity. Qed.

(** ** Rows *)
Lemma patch_mid A B C fs : length fs = length B ->
  patch (A ++ B ++ C) (length A) fs = Ok (A ++ map (fun fr => fst fr (snd fr)) (combine fs B) ++ C).
Proof.
  intros H. unfold patch. rewrite !app_length. destruct (Nat.leb_spec (length A + length fs) (length A + (length B + length C))); [|lia].
  rewrite firstn_app, firstn_all, Nat.sub_diag, firstn_O, app_nil_r, skipn_app, skipn_all, Nat.sub_diag, skipn_O.
  cbn [app]. rewrite H, firstn_app, firstn_all, Nat.sub_diag, firstn_O, app_nil_r.
  rewrite (app_assoc A B C), <- app_length, skipn_app, skipn_all, Nat.sub_diag, skipn_O. reflexivity.
Qed.
Definition z_row (useAng : bool) (m : R) (g : vec3) (wu : wp6 * wp6) (H : v6) : zrow :=
  if useAng then z_ang (snd wu) H (z_lin m g (fst wu) H zrow0) else z_lin m g (fst wu) H zrow0.
Lemma patch_map {X} (f : X -> zrow -> zrow) (g : X -> zrow) l :
  map (fun fr => fst fr (snd fr)) (combine (map f l) (map g l)) = map (fun a => f a (g a)) l.
Proof. induction l as [|a l IH]; cbn; [reflexivity|]. rewrite IH. reflexivity. Qed.
Lemma map_cst {X Y} (c : Y) (l : list X) : map (fun _ => c) l = repeat c (length l).
Proof. induction l as [|a l IH]; cbn; [reflexivity|]. rewrite IH. reflexivity. Qed.

Lemma z_fill_ok (useAng : bool) m g Hs : forall wps wpL us i done rest,
  length us = length wps -> (useAng = true -> wpL = us) -> length done = (i * length Hs)%nat ->
  z_fill useAng m g Hs i wps wpL (done ++ repeat zrow0 (length Hs * length wps) ++ rest)
  = Ok (done ++ flat_map (fun wu => map (z_row useAng m g wu) Hs) (combine wps us) ++ rest).
Proof.
  induction wps as [|w wps IH]; intros wpL us i done rest HL Hu Hd.
  - destruct us; [|discriminate]. cbn. rewrite Nat.mul_0_r. reflexivity.
  - destruct us as [|u us]; [discriminate|]. cbn [z_fill length combine flat_map].
    rewrite Nat.mul_succ_r, (Nat.add_comm _ (length Hs)), repeat_app, <- (map_cst zrow0 Hs), <- app_assoc, <- Hd.
    rewrite (patch_mid done) by (rewrite !map_length; reflexivity). cbn [bind]. rewrite patch_map.
    assert (HD : forall f : v6 -> zrow, length (done ++ map f Hs) = (S i * length Hs)%nat) by (intros; rewrite app_length, map_length; lia).
    destruct useAng.
    + rewrite (Hu eq_refl). rewrite (patch_mid done) by (rewrite !map_length; reflexivity). cbn [bind]. rewrite patch_map.
      rewrite (app_assoc done). rewrite (IH us us (S i)); [|cbn in HL; lia|reflexivity|apply HD].
      rewrite <- !app_assoc. reflexivity.
    + rewrite (app_assoc done). rewrite (IH wpL us (S i)); [|cbn in HL; lia|discriminate|apply HD].
      rewrite <- !app_assoc. reflexivity.
Qed.

Definition z_h (Hh : v6 * R) : v6 := v6_scal (- / norm6 (fst Hh)) (fst Hh).
Lemma z_unit_ok (Hh : v6 * R) : fst Hh <> (vzero, vzero) -> z_unit Hh = Ok (z_h Hh).
Proof.
  intros Hne. unfold z_unit, z_h. pose proof (norm6_pos _ Hne) as Hn.
  assert (HN : v6_norm (v6_scal (-1) (fst Hh)) = norm6 (fst Hh)).
  { change (v6_norm ?a) with (norm6 a). rewrite norm6_scal, (Rabs_left (-1)) by lra. ring. }
  rewrite HN. destruct (Req_EM_T (norm6 (fst Hh)) 0) as [E|E]; [lra|].
  f_equal. unfold v6_div, v6_scal, vdivs, vscal; cbn. f_equal; apply v3_eq; cbn; field; lra.
Qed.

Lemma rdot_l6 a b x y : rdot (l3 a ++ l3 b) (l3 x ++ l3 y) = vdot a x + vdot b y.
Proof. rewrite rdot_app, !rdot_l3 by reflexivity. reflexivity. Qed.
Definition z_sat (useAng : bool) (x xL : vec3) (r : zrow) : Prop := rdot (z_row_list useAng r) (z_vec useAng x xL) <= zr_b r.
Lemma z_row_val (useAng : bool) m g wu (Hh : v6 * R) x xL : (useAng = false -> snd wu = w6_zero) ->
  zr_b (z_row useAng m g wu (z_h Hh)) - rdot (z_row_list useAng (z_row useAng m g wu (z_h Hh))) (z_vec useAng x xL)
  = - / norm6 (fst Hh) * dot6 (fst Hh) (z_pt m g x xL wu).
Proof.
  intros Hu. unfold z_row, z_row_list, z_vec. destruct useAng.
    - rewrite rdot_l6. unfold z_h. generalize (- / norm6 (fst Hh)). intros k. destruct Hh as [[h1 h2] hh], wu as [w u].
      unfold z_pt, z_ang, z_lin, zrow0, v6_mmul, vmmul, v6_dot, dot6, v6sub, v6_scal, ev_w6; cbn [zr_x zr_l zr_b fst snd]. zunf. ring.
    - rewrite rdot_l3. unfold z_h. generalize (- / norm6 (fst Hh)). intros k. destruct Hh as [[h1 h2] hh], wu as [w u].
      cbn [snd] in Hu. rewrite (Hu eq_refl).
      unfold z_pt, z_lin, zrow0, v6_mmul, vmmul, v6_dot, dot6, v6sub, v6_scal, ev_w6, w6_zero; cbn [zr_x zr_l zr_b fst snd w_top w_bot w_head w_tail]. zunf. ring.
Qed.
Lemma z_row_sat (useAng : bool) m g wu (Hh : v6 * R) x xL : fst Hh <> (vzero, vzero) -> (useAng = false -> snd wu = w6_zero) ->
  z_sat useAng x xL (z_row useAng m g wu (z_h Hh)) <-> dot6 (fst Hh) (z_pt m g x xL wu) <= 0.
Proof.
  intros Hne Hu. pose proof (norm6_pos _ Hne) as Hn. pose proof (z_row_val useAng m g wu Hh x xL Hu) as E.
  unfold z_sat. set (d := dot6 _ _) in *. assert (Hp : 0 < / norm6 (fst Hh)) by (apply Rinv_0_lt_compat; exact Hn).
  split; intros H; nra.
Qed.

(** ** The last rows *)
Definition z_tail (useAng : bool) (ct : contact) : list zrow :=
  let K := firstn (length (cd_kin ct)) (cd_Kin ct) in
  let na := if useAng then length (cd_ang ct) else 0%nat in
  let t0 := map (fun Kk => ZRow (fst Kk) vzero (snd Kk)) (combine K (cd_kin ct)) ++ repeat zrow0 na in
  if useAng then
    firstn na t0 ++ map (fun fr => ZRow (zr_x (snd fr)) (fst (fst fr)) (snd (fst fr))) (combine (combine K (cd_kin ct)) (skipn na t0))
  else t0.
Lemma combine_firstn_l {A B} (l : list A) (m : list B) : combine (firstn (length m) l) m = combine l m.
Proof. revert l. induction m as [|b m IH]; intros [|a l]; cbn; try reflexivity. rewrite IH. reflexivity. Qed.
Lemma patch_map2 {X} (f : X -> zrow -> zrow) l m :
  map (fun fr => fst fr (snd fr)) (combine (map f l) m) = map (fun ar => f (fst ar) (snd ar)) (combine l m).
Proof. revert m. induction l as [|a l IH]; intros [|b m]; cbn; try reflexivity. rewrite IH. reflexivity. Qed.
Lemma combine_repeat_map {X} (f : X -> zrow -> zrow) l :
  map (fun ar => f (fst ar) (snd ar)) (combine l (repeat zrow0 (length l))) = map (fun a => f a zrow0) l.
Proof. induction l as [|a l IH]; cbn; [reflexivity|]. rewrite IH. reflexivity. Qed.

Lemma addK_ne Kin kin other buf : kin <> [] -> addKinematic Kin kin other buf =
  if Nat.ltb (length Kin) (length kin) then UB else
  if Nat.ltb (length buf) (length kin + other) then UB else
  patch buf (length buf - length kin - other) (map (fun Kk r => ZRow (fst Kk) (zr_l r) (snd Kk)) (combine Kin kin)).
Proof. destruct kin; [congruence|reflexivity]. Qed.
Lemma addA_ne Ang ang buf : ang <> [] -> addAngularMomentum Ang ang buf =
  if Nat.ltb (length Ang) (length ang) then UB else
  if Nat.ltb (length buf) (length ang) then UB else
  patch buf (length buf - length ang) (map (fun Aa r => ZRow (zr_x r) (fst Aa) (snd Aa)) (combine Ang ang)).
Proof. destruct ang; [congruence|reflexivity]. Qed.
Lemma nil_dec {A} (l : list A) : l = [] \/ l <> [].
Proof. destruct l; [left; reflexivity|right; discriminate]. Qed.

Lemma z_tail_ok (useAng : bool) ct buf : (length (cd_kin ct) <= length (cd_Kin ct))%nat ->
  let na := if useAng then length (cd_ang ct) else 0%nat in
  (buf1 <- addKinematic (cd_Kin ct) (cd_kin ct) na (buf ++ repeat zrow0 (length (cd_kin ct) + na)) ;;
   if useAng then addAngularMomentum (cd_Kin ct) (cd_kin ct) buf1 else Ok buf1) = Ok (buf ++ z_tail useAng ct).
Proof.
  intros HK na. unfold z_tail. fold na. set (K := firstn (length (cd_kin ct)) (cd_Kin ct)). set (nk := length (cd_kin ct)) in *.
  assert (HKl : length K = nk) by (unfold K; rewrite firstn_length; lia).
  set (t0 := map (fun Kk : vec3 * R => ZRow (fst Kk) vzero (snd Kk)) (combine K (cd_kin ct)) ++ repeat zrow0 na).
  assert (E1 : addKinematic (cd_Kin ct) (cd_kin ct) na (buf ++ repeat zrow0 (nk + na)) = Ok (buf ++ t0)).
  { destruct (nil_dec (cd_kin ct)) as [EK|EK].
    - unfold t0, nk, addKinematic. rewrite EK. cbn. rewrite combine_nil. reflexivity.
    - rewrite (addK_ne _ _ _ _ EK). destruct (Nat.ltb_spec (length (cd_Kin ct)) (length (cd_kin ct))); [exfalso; subst nk; lia|].
      rewrite app_length, repeat_length. fold nk.
      destruct (Nat.ltb_spec (length buf + (nk + na)) (nk + na)); [lia|].
      replace (length buf + (nk + na) - nk - na)%nat with (length buf) by lia.
      rewrite repeat_app. rewrite patch_mid by (rewrite map_length, combine_length, repeat_length; fold nk; lia).
      rewrite patch_map2. unfold t0. do 3 f_equal.
      rewrite <- (combine_firstn_l (cd_Kin ct) (cd_kin ct)). fold nk K. rewrite <- (combine_repeat_map (fun Kk r => ZRow (fst Kk) (zr_l r) (snd Kk))).
      rewrite combine_length, HKl. fold nk. rewrite Nat.min_id. reflexivity. }
  rewrite E1. cbn [bind]. destruct useAng; [|reflexivity].
  assert (Ht0 : length t0 = (nk + na)%nat) by (unfold t0; rewrite app_length, map_length, combine_length, repeat_length; fold nk; lia).
  destruct (nil_dec (cd_kin ct)) as [EK|EK].
  - unfold addAngularMomentum. rewrite EK. rewrite combine_nil. cbn [map combine]. rewrite app_nil_r, firstn_all2; [reflexivity|].
    assert (nk = 0%nat) by (unfold nk; rewrite EK; reflexivity). lia.
  - rewrite (addA_ne _ _ _ EK). destruct (Nat.ltb_spec (length (cd_Kin ct)) (length (cd_kin ct))); [exfalso; subst nk; lia|].
    rewrite app_length, Ht0. fold nk.
    destruct (Nat.ltb_spec (length buf + (nk + na)) nk); [lia|].
    replace (length buf + (nk + na) - nk)%nat with (length (buf ++ firstn na t0)) by (rewrite app_length, firstn_length; lia).
    rewrite <- (firstn_skipn na t0) at 1. rewrite app_assoc.
    rewrite <- (app_nil_r ((buf ++ _) ++ skipn na t0)), <- (app_assoc (buf ++ _) (skipn na t0) []).
    rewrite patch_mid by (rewrite map_length, combine_length, skipn_length; fold nk; lia).
    rewrite app_nil_r, <- app_assoc. do 3 f_equal. rewrite patch_map2. rewrite <- (combine_firstn_l (cd_Kin ct) (cd_kin ct)). fold nk K. reflexivity.
Qed.

(** ** The whole matrix *)
Definition z_all (useAng : bool) (ct : contact) (ph : cphase) (wus : list (wp6 * wp6)) : list zrow :=
  flat_map (fun wu => map (z_row useAng (cp_mass ph) (cp_gravity ph) wu) (map z_h (cp_poly ph))) wus ++ z_tail useAng ct.
Lemma compute6d_ok (useAng : bool) ct ph wps wpL us : contact_wf ct -> cd_phase ct = Some ph ->
  length us = length wps -> (useAng = true -> wpL = us) ->
  compute6d ct wps wpL useAng = Ok (z_all useAng ct ph (combine wps us)).
Proof.
  intros (ph' & Hph & Hm & Hrows & HK) Hph' HL Hu. rewrite Hph in Hph'. injection Hph' as <-.
  unfold compute6d. rewrite Hph. cbn [deref bind].
  rewrite (mapM_ok _ z_h) by (intros a Ha; apply z_unit_ok; rewrite Forall_forall in Hrows; apply Hrows, Ha). cbn [bind]. cbv zeta.
  rewrite (repeat_app zrow0 (length (map z_h (cp_poly ph')) * length wps)).
  pose proof (z_fill_ok useAng (cp_mass ph') (cp_gravity ph') (map z_h (cp_poly ph')) wps wpL us 0 []) as HF. cbn [app] in HF.
  rewrite HF; [|exact HL|exact Hu|reflexivity]. cbn [bind]. rewrite z_tail_ok by exact HK. reflexivity.
Qed.
Lemma z_all_sat (useAng : bool) ct ph wus x xL : contact_wf ct -> cd_phase ct = Some ph ->
  (useAng = false -> Forall (fun wu => snd wu = w6_zero) wus) ->
  (satX (z_ineqs useAng (z_all useAng ct ph wus)) (z_vec useAng x xL) <->
   Forall (fun wu => cone0 ph (z_pt (cp_mass ph) (cp_gravity ph) x xL wu)) wus /\ Forall (z_sat useAng x xL) (z_tail useAng ct)).
Proof.
  intros (ph' & Hph & Hm & Hrows & HK) Hph' Hu. rewrite Hph in Hph'. injection Hph' as <-.
  assert (E : satX (z_ineqs useAng (z_all useAng ct ph' wus)) (z_vec useAng x xL) <-> Forall (z_sat useAng x xL) (z_all useAng ct ph' wus)).
  { unfold satX, z_ineqs. rewrite Forall_map. reflexivity. }
  rewrite E. unfold z_all. rewrite Forall_app. apply and_iff_compat_r. clear E.
  rewrite Forall_flat_map. rewrite !Forall_forall. split; intros H wu Hwu.
  - specialize (H wu Hwu). rewrite !Forall_map in H. unfold cone0. rewrite Forall_forall in H, Hrows |- *. intros Hh Hin.
    apply (z_row_sat useAng _ _ _ Hh); [apply Hrows, Hin| |apply H, Hin].
    intros EA. specialize (Hu EA). rewrite Forall_forall in Hu. apply Hu, Hwu.
  - specialize (H wu Hwu). rewrite !Forall_map. unfold cone0 in H. rewrite Forall_forall in H, Hrows |- *. intros Hh Hin.
    apply z_row_sat; [apply Hrows, Hin| |apply H, Hin].
    intros EA. specialize (Hu EA). rewrite Forall_forall in Hu. apply Hu, Hwu.
Qed.

(** The last rows mean what is specified. *)
Lemma forall_nth_iff {A} (P : A -> Prop) l d : Forall P l <-> forall j, (j < length l)%nat -> P (nth j l d).
Proof.
  split.
  - intros H j Hj. rewrite Forall_forall in H. apply H, nth_In, Hj.
  - intros H. apply Forall_forall. intros a Ha. destruct (In_nth l a d Ha) as (j & Hj & <-). apply H, Hj.
Qed.
Lemma z_tail_sat (useAng : bool) ct x xL : (length (cd_kin ct) <= length (cd_Kin ct))%nat ->
  Forall (z_sat useAng x xL) (z_tail useAng ct) <-> z_geom useAng ct x xL.
Proof.
  intros HK. unfold z_tail, z_geom. set (K := firstn (length (cd_kin ct)) (cd_Kin ct)). set (nk := length (cd_kin ct)) in *.
  assert (HKl : length K = nk) by (unfold K; rewrite firstn_length; lia).
  assert (HKn : forall j, (j < nk)%nat -> nth j K vzero = nth j (cd_Kin ct) vzero).
  { intros j Hj. unfold K. rewrite <- (firstn_skipn nk (cd_Kin ct)) at 2. rewrite app_nth1; [reflexivity|]. fold K. lia. }
  assert (HC : forall j, (j < nk)%nat -> nth j (combine K (cd_kin ct)) (vzero, 0) = (nth j (cd_Kin ct) vzero, nth j (cd_kin ct) 0)).
  { intros j Hj. rewrite combine_nth by (fold nk; lia). rewrite HKn by exact Hj. reflexivity. }
  assert (HCl : length (combine K (cd_kin ct)) = nk) by (rewrite combine_length; fold nk; lia).
  destruct useAng.
  - set (na := length (cd_ang ct)). cbv zeta. set (f0 := fun Kk : vec3 * R => ZRow (fst Kk) vzero (snd Kk)). set (t0 := map f0 (combine K (cd_kin ct)) ++ repeat zrow0 na).
    assert (Ht0 : length t0 = (nk + na)%nat) by (unfold t0; rewrite app_length, map_length, HCl, repeat_length; lia).
    assert (Ht0n : forall j, (j < nk + na)%nat -> nth j t0 zrow0 =
      if Nat.ltb j nk then ZRow (nth j (cd_Kin ct) vzero) vzero (nth j (cd_kin ct) 0) else zrow0).
    { intros j Hj. unfold t0. destruct (Nat.ltb_spec j nk).
      - rewrite app_nth1 by (rewrite map_length; lia). rewrite (nth_indep _ zrow0 (f0 (vzero, 0))) by (rewrite map_length; lia).
        rewrite map_nth, HC by assumption. reflexivity.
      - rewrite app_nth2 by (rewrite map_length; lia). rewrite map_length, HCl. apply nth_repeat. }
    set (f1 := fun fr : (vec3 * R) * zrow => ZRow (zr_x (snd fr)) (fst (fst fr)) (snd (fst fr))).
    rewrite (forall_nth_iff _ _ zrow0). unfold z_mixed. fold nk na.
    rewrite app_length, firstn_length, map_length, combine_length, HCl, skipn_length, Ht0.
    replace (Init.Nat.min na (nk + na) + Init.Nat.min nk (nk + na - na))%nat with (nk + na)%nat by lia.
    assert (EQ : forall j, (j < nk + na)%nat ->
      (z_sat true x xL (nth j (firstn na t0 ++ map f1 (combine (combine K (cd_kin ct)) (skipn na t0))) zrow0) <->
      (if Nat.ltb j nk then vdot (nth j (cd_Kin ct) vzero) x else 0) + (if Nat.leb na j then vdot (nth (j - na) (cd_Kin ct) vzero) xL else 0)
      <= if Nat.leb na j then nth (j - na) (cd_kin ct) 0 else if Nat.ltb j nk then nth j (cd_kin ct) 0 else 0)).
    { intros j Hj. unfold z_sat, z_row_list, z_vec. rewrite rdot_l6.
      assert (Hf : forall i, (i < na)%nat -> nth i (firstn na t0) zrow0 = nth i t0 zrow0).
      { intros i Hi. rewrite <- (firstn_skipn na t0) at 2. rewrite app_nth1; [reflexivity|]. rewrite firstn_length; lia. }
      assert (Hs : forall i, nth i (skipn na t0) zrow0 = nth (na + i) t0 zrow0).
      { intros i. rewrite <- (firstn_skipn na t0) at 2. rewrite app_nth2; rewrite firstn_length; [|lia].
        f_equal. lia. }
      destruct (Nat.leb_spec na j) as [Hna|Hna].
      - rewrite app_nth2 by (rewrite firstn_length; lia). rewrite firstn_length, Ht0. replace (Init.Nat.min na (nk + na)) with na by lia.
        rewrite (nth_indep _ zrow0 (f1 ((vzero, 0), zrow0))) by (rewrite map_length, combine_length, HCl, skipn_length; lia).
        rewrite map_nth, combine_nth by (rewrite HCl, skipn_length; lia). rewrite HC, Hs by lia. replace (na + (j - na))%nat with j by lia.
        rewrite Ht0n by lia. unfold f1; cbn [zr_x zr_l zr_b fst snd].
        destruct (Nat.ltb j nk); cbn [zr_x zrow0]; unfold vdot, vzero; cbn [vx vy vz]; lra.
      - rewrite app_nth1 by (rewrite firstn_length; lia). rewrite Hf, Ht0n by lia.
        destruct (Nat.ltb j nk); cbn [zr_x zr_l zr_b zrow0]; unfold vdot, vzero; cbn [vx vy vz]; lra. }
    split; intros H j Hj; apply EQ; auto.
  - cbn [repeat]. rewrite app_nil_r, Forall_map. rewrite (forall_nth_iff _ _ (vzero, 0)), HCl. unfold kin_ok.
    assert (EQ : forall j, (j < nk)%nat -> (z_sat false x xL ((fun Kk => ZRow (fst Kk) vzero (snd Kk)) (nth j (combine K (cd_kin ct)) (vzero, 0))) <->
      vdot (nth j (cd_Kin ct) vzero) x <= nth j (cd_kin ct) 0)).
    { intros j Hj. rewrite HC by exact Hj. unfold z_sat, z_row_list, z_vec. cbn [zr_x zr_b fst snd]. rewrite rdot_l3. reflexivity. }
    split.
    + intros H j Kj kj H1 H2. assert (Hj : (j < nk)%nat) by (apply nth_error_Some; congruence).
      specialize (H j Hj). apply EQ in H; [|exact Hj]. rewrite (nth_error_nth _ _ _ H1), (nth_error_nth _ _ _ H2) in H. exact H.
    + intros H j Hj. apply EQ; [exact Hj|]. apply (H j); apply nth_error_nth'; lia.
Qed.

(** ** Number of steps *)
Lemma to_int_ok v (N : nat) : INR N <= v < INR N + 1 -> (Z.of_nat N <= 2147483647)%Z -> to_int v = Ok (Z.of_nat N).
Proof.
  intros Hv HN. unfold to_int. pose proof (pos_INR N). destruct (Rle_dec 0 v); [|lra].
  assert (E : Int_part v = Z.of_nat N).
  { destruct (base_Int_part v) as [B1 B2]. rewrite INR_IZR_INZ in Hv.
    assert (L1 : IZR (Int_part v) < IZR (Z.of_nat N + 1)) by (rewrite plus_IZR; lra).
    assert (L2 : IZR (Z.of_nat N) < IZR (Int_part v + 1)) by (rewrite plus_IZR; lra).
    apply lt_IZR in L1, L2. lia. }
  rewrite E. destruct (Z.leb_spec (-2147483648) (Z.of_nat N)); [|lia]. destruct (Z.leb_spec (Z.of_nat N) 2147483647); [|lia]. reflexivity.
Qed.

(** ** Lengths *)
Lemma flat_map_length' {A B} (f : A -> list B) n l : (forall a, length (f a) = n) -> length (flat_map f l) = (n * length l)%nat.
Proof. intros H. induction l as [|a l IH]; cbn; [lia|]. rewrite app_length, H, IH. lia. Qed.
Lemma z_tail_len (useAng : bool) ct : (length (cd_kin ct) <= length (cd_Kin ct))%nat ->
  length (z_tail useAng ct) = (length (cd_kin ct) + if useAng then length (cd_ang ct) else 0)%nat.
Proof.
  intros HK. unfold z_tail. destruct useAng; rewrite ?app_length, ?map_length, ?combine_length, ?firstn_length, ?skipn_length, ?app_length, ?map_length, ?combine_length, ?firstn_length, ?repeat_length; lia.
Qed.

(** ** Exact meaning *)
Section Meaning.
  Variables (useAng : bool) (ct : contact) (ph : cphase) (c0 dc0 l0 : vec3) (T : R).
  Hypothesis (WF : contact_wf ct) (Hph : cd_phase ct = Some ph) (HT : 0 < T).
  Let p1 := vadd (vdivs (vscal T dc0) 3) c0.
  Let ws := z_ws c0 p1 (cp_gravity ph) (1 / (T * T)).
  Let us := if useAng then z_us l0 (1 / T) else z_us0.
  Let pts x xL := map (z_pt (cp_mass ph) (cp_gravity ph) x xL) (combine ws us).

  Lemma z_motion_pts x : [c0; vadd c0 (vscal (T / 3) dc0); x; x] = [c0; p1; x; x].
  Proof. f_equal. f_equal. unfold p1, vadd, vdivs, vscal. cbn. f_equal; field. Qed.
  Lemma us_len : length us = 5%nat. Proof. unfold us. destruct useAng; reflexivity. Qed.
  Lemma pts_len x xL : length (pts x xL) = 5%nat.
  Proof. unfold pts. rewrite map_length, combine_length, us_len. reflexivity. Qed.

  Lemma z_rate_ex xL t : exists dl, z_rate useAng l0 T xL t dl.
  Proof. unfold z_rate. destruct useAng; [|eauto]. eexists. apply curve_is_deriv_n. Qed.

  Lemma z_giw x xL t acc dl : is_deriv_n 2 (z_motion c0 dc0 T x) t acc -> z_rate useAng l0 T xL t dl ->
    giwL (cp_mass ph) (cp_gravity ph) (z_motion c0 dc0 T x t) acc dl = curve6 (pts x xL) T t.
  Proof.
    intros Ha Hd. unfold z_motion in *. rewrite z_motion_pts in *.
    rewrite (is_deriv_n_unique 2 _ _ t _ _ (fun _ => eq_refl) Ha (curve_is_deriv_n 2 _ T t)).
    unfold z_rate, z_momentum in Hd. unfold pts, us, ws. destruct useAng.
    - rewrite (is_deriv_n_unique 1 _ _ t _ _ (fun _ => eq_refl) Hd (curve_is_deriv_n 1 _ T t)). apply z_wrench. lra.
    - subst dl. apply z_wrench0. lra.
  Qed.
  Lemma z_stable_iff x xL t : z_stable ph useAng c0 dc0 l0 T x xL t <-> cone0 ph (curve6 (pts x xL) T t).
  Proof.
    split.
    - intros H. destruct (z_rate_ex xL t) as (dl & Hd). assert (Ha : is_deriv_n 2 (z_motion c0 dc0 T x) t _) by apply curve_is_deriv_n.
      rewrite <- (z_giw x xL t _ dl Ha Hd). apply H; assumption.
    - intros H acc dl Ha Hd. rewrite (z_giw x xL t acc dl Ha Hd). exact H.
  Qed.
  Lemma z_stable_ctrl_iff x xL : z_stable_ctrl ph useAng c0 dc0 l0 T x xL <-> Forall (cone0 ph) (pts x xL).
  Proof.
    split.
    - intros (P & HL & HC & HP). replace (pts x xL) with P; [exact HC|].
      apply (curve6_uniq P (pts x xL) 0 T HT); [rewrite HL, pts_len; reflexivity|]. intros t. rewrite !Rminus_0_r.
      destruct (z_rate_ex xL t) as (dl & Hd). assert (Ha : is_deriv_n 2 (z_motion c0 dc0 T x) t _) by apply curve_is_deriv_n.
      rewrite <- (HP t _ dl Ha Hd). apply z_giw; assumption.
    - intros H. exists (pts x xL). split; [apply pts_len|]. split; [exact H|]. intros t acc dl. apply z_giw.
  Qed.
  Lemma cone_hull P s : P <> [] -> 0 <= s <= 1 -> Forall (cone0 ph) P -> cone0 ph (curve6 P 1 s).
  Proof.
    intros Hne Hs H. unfold cone0 in *. rewrite Forall_forall. intros Hh Hin. rewrite dot6_curve6.
    apply bezl_le; [destruct P; [congruence|discriminate]|lra|]. rewrite Forall_map. eapply Forall_impl; [|exact H].
    intros w Hw. rewrite Forall_forall in Hw. apply (Hw Hh Hin).
  Qed.
  Lemma curve6_unit P t : curve6 P T t = curve6 P 1 (t / T).
  Proof. unfold curve6, curve. replace (t / T / 1) with (t / T) by (field; lra). reflexivity. Qed.
  Lemma z_ctrl_stable x xL t : z_stable_ctrl ph useAng c0 dc0 l0 T x xL -> 0 <= t <= T -> z_stable ph useAng c0 dc0 l0 T x xL t.
  Proof.
    intros H Ht. apply z_stable_iff. apply z_stable_ctrl_iff in H. rewrite curve6_unit. apply cone_hull; [| |exact H].
    2: { split; [apply Rmult_le_pos; [lra|apply Rlt_le, Rinv_0_lt_compat; lra]|]. apply Rmult_le_reg_r with T; [lra|]. unfold Rdiv. rewrite Rmult_assoc, Rinv_l by lra. lra. }
    pose proof (pts_len x xL) as HL. intros E. rewrite E in HL. discriminate.
  Qed.

  Lemma z_steps_cont dt : z_no_steps T dt -> exists n, computeNumSteps T dt = Ok n /\ (0 <? n)%Z = false.
  Proof.
    intros [H|(H1 & H2 & _)]; unfold computeNumSteps.
    - destruct (Rlt_dec 0 dt); [lra|]. exists (-1)%Z. auto.
    - destruct (Rlt_dec 0 dt); [|lra]. exists 0%Z. split; [|reflexivity]. apply (to_int_ok _ 0); [exact H2|lia].
  Qed.

  Lemma z_built dt : z_no_steps T dt -> compute6dControlPointInequalities ct c0 dc0 l0 useAng T dt = Ok (z_all useAng ct ph (combine ws us)).
  Proof.
    intros Hdt. destruct (z_steps_cont dt Hdt) as (n & Hn & Hn0).
    unfold compute6dControlPointInequalities, ComputeAllWaypoints, ComputeAllWaypointsAngularMomentum. rewrite Hph. cbn [deref bind].
      rewrite Hn. cbn [bind]. destruct (Req_EM_T T 0); [lra|]. rewrite Hn0. cbn [bind]. fold p1. fold ws.
      assert (EU : (if useAng then Ok [z_u0 l0 (1 / T); z_u1 l0 (1 / T); z_u2 l0 (1 / T); z_u3 l0 (1 / T); z_u4 l0 (1 / T)] else Ok [])
                 = Ok (if useAng then us else [])) by (unfold us; destruct useAng; reflexivity).
      rewrite EU. cbn [bind]. apply compute6d_ok; auto; [rewrite us_len; reflexivity|]. intros ->; reflexivity.
  Qed.
  Lemma z_exact dt : z_no_steps T dt -> exists Ab,
    compute6dControlPointInequalities ct c0 dc0 l0 useAng T dt = Ok Ab /\
    length Ab = (5 * length (cp_poly ph) + length (cd_kin ct) + (if useAng then length (cd_ang ct) else 0))%nat /\
    forall x xL, satX (z_ineqs useAng Ab) (z_vec useAng x xL) <->
      z_stable_ctrl ph useAng c0 dc0 l0 T x xL /\ z_geom useAng ct x xL.
  Proof.
    intros Hdt. pose proof (z_built dt Hdt) as E.
    exists (z_all useAng ct ph (combine ws us)).
    pose proof WF as (ph' & Hph' & _ & _ & HK).
    split; [exact E|]. split.
    - unfold z_all. rewrite app_length, (flat_map_length' _ (length (cp_poly ph))) by (intros; rewrite !map_length; reflexivity).
      rewrite combine_length, us_len. change (length ws) with 5%nat. rewrite (z_tail_len _ _ HK). cbn [Nat.min]. destruct useAng; lia.
    - intros x xL. rewrite (z_all_sat useAng ct ph _ x xL WF Hph), z_tail_sat, z_stable_ctrl_iff by
        (try exact HK; intros EA; unfold us; rewrite EA; repeat constructor).
      unfold pts. rewrite Forall_map. reflexivity.
  Qed.

  (** Sampled times *)
  Definition z_times (N : nat) : list R := map (fun i => INR i * (1 / INR N)) (seq 0 (S N)).
  Lemma z_discretize_ok N wl : (1 <= N)%nat -> length wl = 5%nat ->
    z_discretize wl (Z.of_nat N) = Ok (map (z_comb wl) (z_times N)).
  Proof.
    intros HN HL. unfold z_discretize. cbv zeta. rewrite <- INR_IZR_INZ.
    replace (Z.to_nat (Z.of_nat N + 1)) with (S N) by lia. unfold z_times. rewrite map_map. apply mapM_ok. intros i Hi.
    apply z_comb_ok; [exact HL|]. apply in_seq in Hi. assert (0 < INR N) by (apply lt_0_INR; lia). assert (INR i <= INR N) by (apply le_INR; lia).
    pose proof (pos_INR i). assert (0 < / INR N) by (apply Rinv_0_lt_compat; assumption). unfold Rdiv. rewrite Rmult_1_l. split; [nra|].
    apply Rmult_le_reg_r with (INR N); [assumption|]. rewrite Rmult_assoc, Rinv_l by lra. lra.
  Qed.
  Lemma combine_map2 {A B C} (f : A -> B) (g : A -> C) l : combine (map f l) (map g l) = map (fun a => (f a, g a)) l.
  Proof. induction l as [|a l IH]; cbn; [reflexivity|]. rewrite IH. reflexivity. Qed.
  Lemma z_comb_zero u : 0 <= u <= 1 -> z_comb z_us0 u = w6_zero.
  Proof.
    intros Hu. unfold z_comb, z_us0. cbn [repeat combine_w]. rewrite !bern_eval_ok by exact Hu. cbn [bind okd].
    assert (E : forall k, w6_add w6_zero (w6_scal k w6_zero) = w6_zero).
    { intros k. unfold w6_add, w6_scal, w6_zero, madd, mscal, mzero, vadd, vscal, vzero; cbn. rewrite !Rmult_0_r, !Rplus_0_r. reflexivity. }
    rewrite !E. reflexivity.
  Qed.
  Lemma z_times_unit N u : (1 <= N)%nat -> In u (z_times N) -> 0 <= u <= 1.
  Proof.
    intros HN Hin. unfold z_times in Hin. apply in_map_iff in Hin. destruct Hin as (i & <- & Hi). apply in_seq in Hi.
    assert (0 < INR N) by (apply lt_0_INR; lia). assert (INR i <= INR N) by (apply le_INR; lia).
    pose proof (pos_INR i). assert (0 < / INR N) by (apply Rinv_0_lt_compat; assumption). unfold Rdiv. rewrite Rmult_1_l. split; [nra|].
    apply Rmult_le_reg_r with (INR N); [assumption|]. rewrite Rmult_assoc, Rinv_l by lra. lra.
  Qed.

  Lemma z_built_disc dt N : z_steps T dt N -> (1 <= N)%nat ->
    compute6dControlPointInequalities ct c0 dc0 l0 useAng T dt = Ok (z_all useAng ct ph (map (fun u => (z_comb ws u, z_comb us u)) (z_times N))).
  Proof.
    intros (Hdt & HTN & Hmax) HN. set (wus := map (fun u => (z_comb ws u, z_comb us u)) (z_times N)).
    assert (Hn : computeNumSteps T dt = Ok (Z.of_nat N)).
    { unfold computeNumSteps. destruct (Rlt_dec 0 dt); [|lra]. apply to_int_ok; assumption. }
    assert (Hn0 : (0 <? Z.of_nat N)%Z = true) by (apply Z.ltb_lt; lia).
    unfold compute6dControlPointInequalities, ComputeAllWaypoints, ComputeAllWaypointsAngularMomentum. rewrite Hph. cbn [deref bind].
      rewrite Hn. cbn [bind]. destruct (Req_EM_T T 0); [lra|]. rewrite Hn0. fold p1.
      change [z_w0 c0 p1 (cp_gravity ph) (1 / (T * T)); z_w1 c0 p1 (cp_gravity ph) (1 / (T * T)); z_w2 c0 p1 (cp_gravity ph) (1 / (T * T));
        z_w3 c0 p1 (cp_gravity ph) (1 / (T * T)); z_w4 c0 p1 (cp_gravity ph) (1 / (T * T))] with ws.
      rewrite (z_discretize_ok N ws HN eq_refl). cbn [bind].
      assert (EU : (if useAng then z_discretize [z_u0 l0 (1 / T); z_u1 l0 (1 / T); z_u2 l0 (1 / T); z_u3 l0 (1 / T); z_u4 l0 (1 / T)] (Z.of_nat N) else Ok [])
                 = Ok (if useAng then map (z_comb us) (z_times N) else [])).
      { unfold us. destruct useAng; [|reflexivity]. apply (z_discretize_ok N (z_us l0 (1 / T)) HN eq_refl). }
      rewrite EU. cbn [bind]. unfold wus. rewrite <- combine_map2. apply compute6d_ok; auto; [rewrite !map_length; reflexivity|]. intros ->; reflexivity.
  Qed.
  Lemma z_exact_disc dt N : z_steps T dt N -> (1 <= N)%nat -> exists Ab,
    compute6dControlPointInequalities ct c0 dc0 l0 useAng T dt = Ok Ab /\
    length Ab = ((N + 1) * length (cp_poly ph) + length (cd_kin ct) + (if useAng then length (cd_ang ct) else 0))%nat /\
    forall x xL, satX (z_ineqs useAng Ab) (z_vec useAng x xL) <->
      (forall i, (i <= N)%nat -> z_stable ph useAng c0 dc0 l0 T x xL (INR i * (T / INR N))) /\ z_geom useAng ct x xL.
  Proof.
    intros HZ HN. pose proof (z_built_disc dt N HZ HN) as E. destruct HZ as (Hdt & HTN & Hmax).
    set (wus := map (fun u => (z_comb ws u, z_comb us u)) (z_times N)).
    exists (z_all useAng ct ph wus).
    pose proof WF as (ph' & Hph' & _ & _ & HK).
    split; [exact E|]. split.
    - unfold z_all. rewrite app_length, (flat_map_length' _ (length (cp_poly ph))) by (intros; rewrite !map_length; reflexivity).
      unfold wus, z_times. rewrite !map_length, seq_length, (z_tail_len _ _ HK). destruct useAng; lia.
    - intros x xL. rewrite (z_all_sat useAng ct ph _ x xL WF Hph), z_tail_sat by
        (try exact HK; intros EA; unfold wus; rewrite Forall_map; apply Forall_forall; intros u Hu; cbn [snd]; unfold us; rewrite EA;
         apply z_comb_zero, (z_times_unit N); assumption).
      apply and_iff_compat_r. assert (HNp : 0 < INR N) by (apply lt_0_INR; lia).
      assert (EQ : forall i, (i <= N)%nat -> (z_stable ph useAng c0 dc0 l0 T x xL (INR i * (T / INR N)) <->
        cone0 ph (z_pt (cp_mass ph) (cp_gravity ph) x xL (z_comb ws (INR i * (1 / INR N)), z_comb us (INR i * (1 / INR N)))))).
      { intros i Hi. rewrite z_stable_iff, z_comb_pt; [|reflexivity|apply us_len|].
        - fold (pts x xL). rewrite curve6_unit. replace (INR i * (T / INR N) / T) with (INR i * (1 / INR N)) by (field; lra). reflexivity.
        - apply (z_times_unit N); [exact HN|]. unfold z_times. apply in_map_iff. exists i. split; [reflexivity|apply in_seq; lia]. }
      unfold wus, z_times. rewrite !Forall_map, Forall_forall. split.
      + intros H i Hi. apply EQ; [exact Hi|]. apply (H i). apply in_seq; lia.
      + intros H i Hi. apply EQ; [apply in_seq in Hi; lia|]. apply H. apply in_seq in Hi; lia.
  Qed.
End Meaning.
