(** Continuous formulation: the whole system. *)
From Verif Require Import Vec SpecBezier SpecTime ModelData ModelWaypoints ModelDispatch ModelUtils ModelRows ModelCom ModelNd ModelCont
  SpecCom SpecWp SpecCtr SpecCont ProofBezier ProofCurve ProofWaypoints ProofTime ProofTime2 ProofEmit ProofCom ProofCom2 ProofCom3 ProofNd
  ProofWaypointsErr ProofCont ProofCont2 ProofCont3.
Open Scope R_scope.

Lemma pi_len pData T pi : In (flag_of pData) com_flags -> computeConstantWaypoints pData T = Ok pi -> (4 <= length pi)%nat.
Proof.
  intros Hf E. in_cases Hf; unfold computeConstantWaypoints in E; rewrite Hf in E; cbn [compConsWps find_flag bind] in E;
    cbv [c0_dc0_c1_computeConstantWaypoints c0_dc0_dc1_computeConstantWaypoints c0_dc0_dc1_c1_computeConstantWaypoints
       c0_dc0_ddc0_computeConstantWaypoints c0_dc0_ddc0_c1_computeConstantWaypoints c0_dc0_ddc0_dc1_c1_computeConstantWaypoints
       c0_dc0_ddc0_ddc1_dc1_c1_computeConstantWaypoints] in E; cbn in E;
    try (destruct (Req_EM_T _ 0); [|discriminate]); injection E as <-; cbn; lia.
Qed.
Ltac bnd H := match type of H with
  | bind ?m _ = Ok _ => let r := fresh "r" in destruct m as [r| |]; [cbn [bind] in H|discriminate H|discriminate H] end.

Ltac ws_tac E f := unfold f in E; repeat (first [bnd E | progress cbv zeta in E]); injection E as <-; cbn; lia.
Lemma ws_len pData T ws : In (flag_of pData) com_flags -> computeWwaypoints pData T = Ok ws -> (2 <= length ws)%nat.
Proof.
  intros Hf E. unfold computeWwaypoints in E. in_cases Hf; rewrite Hf in E.
  - change (c0_dc0_c1_computeWwaypoints pData T = Ok ws) in E. ws_tac E c0_dc0_c1_computeWwaypoints.
  - change (c0_dc0_dc1_computeWwaypoints pData T = Ok ws) in E. ws_tac E c0_dc0_dc1_computeWwaypoints.
  - change (c0_dc0_dc1_c1_computeWwaypoints pData T = Ok ws) in E. ws_tac E c0_dc0_dc1_c1_computeWwaypoints.
  - change (c0_dc0_ddc0_computeWwaypoints pData T = Ok ws) in E. ws_tac E c0_dc0_ddc0_computeWwaypoints.
  - change (c0_dc0_ddc0_c1_computeWwaypoints pData T = Ok ws) in E. ws_tac E c0_dc0_ddc0_c1_computeWwaypoints.
  - change (c0_dc0_ddc0_dc1_c1_computeWwaypoints pData T = Ok ws) in E. ws_tac E c0_dc0_ddc0_dc1_c1_computeWwaypoints.
  - change (c0_dc0_ddc0_ddc1_dc1_c1_computeWwaypoints pData T = Ok ws) in E. ws_tac E c0_dc0_ddc0_ddc1_dc1_c1_computeWwaypoints.
Qed.

Definition useDD_of (pData : problem) : bool := Z.eqb (representation pData) DOUBLE_DESCRIPTION.

Lemma T_total_pos Ts : Ts <> [] -> Forall (Rlt 0) Ts -> 0 < total Ts.
Proof.
  intros Hne HF. destruct Ts as [|d Ts]; [congruence|]. inversion HF; subst. cbn. pose proof (total_prefix Ts 0 H2). lra.
Qed.

Lemma put_full0 rows : put (0%nat, repeat (vzero, Some 0) (length rows)) rows = (length rows, map some_row rows).
Proof.
  unfold put; cbn [fst snd firstn app]. rewrite Nat.add_0_l. f_equal. rewrite skipn_all2 by (rewrite repeat_length; lia). apply app_nil_r.
Qed.
Definition padr (n : nat) (rb : vec3 * R) : list R * R := (l3 (fst rb) ++ repeat 0 n, snd rb).
Lemma pad_ok n rows : mapM (pad n) (map some_row rows) = Ok (map (padr n) rows).
Proof. induction rows as [|r rows IH]; cbn; [reflexivity|]. rewrite IH. reflexivity. Qed.

(** the force rows and variables *)
Definition items_of (pData : problem) (lw : list (ndc wp6)) := if useDD_of pData then [] else fitems 0 lw (contacts pData).

Lemma cont_main scaled pData Ts : well_posed pData Ts -> splittable Ts ->
  exists pi ws ddc lc la lw, let T := total Ts in
    let c := NDC (map sym_aff pi) 0 T 1 in let w := NDC ws 0 T 1 in
    let dd := useDD_of pData in
    let rows := crows pData dd lc la lw (contacts pData) in let items := items_of pData lw in
    computeConstantWaypoints pData T = Ok pi /\ computeWwaypoints pData T = Ok ws /\
    (4 <= length pi)%nat /\ (2 <= length ws)%nat /\ 0 < T /\
    nd_derivate aff aff_sub aff_scal aff_zero scaled 2 c = Ok ddc /\
    length lc = length Ts /\ length la = length Ts /\ length lw = length Ts /\
    (forall i p, nth_error lc i = Some p -> is_piece aff_add aff_scal c (phase_start Ts i) (phase_end Ts i) p) /\
    (forall i p, nth_error la i = Some p -> is_piece aff_add aff_scal ddc (phase_start Ts i) (phase_end Ts i) p) /\
    (forall i p, nth_error lw i = Some p -> is_piece w6_add w6_scal w (phase_start Ts i) (phase_end Ts i) p) /\
    length rows = cont_rows_needed dd (length pi) (length ws) (contacts pData) /\
    (exists t' cSize', cont_raw scaled pData Ts =
       Ok (sumcols items, CS t' (length rows, map some_row rows)
             (FS (6 * length items) (3 + sumcols items) (strips 0 items) (rhss items)) cSize')) /\
    computeConstraintsContinuous scaled pData Ts =
      Ok (CO (map (padr (sumcols items)) rows) (combine (strips 0 items) (rhss items))
             (if dd then [] else repeat UNBOUNDED_DOWN 3 ++ repeat 0 (sumcols items)) (3 + sumcols items)).
Proof.
  intros WP SP. pose proof WP as (Hf & Hcap & Hne & HFT & HLc & HW).
  pose proof (T_total_pos Ts Hne HFT) as HT.
  destruct (com_curve_total pData (total Ts) vzero Hf Hcap HT) as [cv Hcv].
  destruct (com_curve_inv _ _ _ _ Hf Hcv) as (pi & pts & _ & Epi & _).
  destruct (front_ex pData Ts WP) as [g0 Eg].
  destruct (ws_ex pData (total Ts) g0 Hf Hcap HT Eg) as [ws Ews].
  pose proof (pi_len _ _ _ Hf Epi) as Lpi. pose proof (ws_len _ _ _ Hf Ews) as Lws.
  destruct (sym_ok pData (total Ts) pi Hf Epi) as (sy & Esy & Eaff & _).
  set (c := NDC (map sym_aff pi) 0 (total Ts) 1).
  set (w := NDC ws 0 (total Ts) 1).
  destruct (derivate2_ok scaled c) as (ddc & Edd & Odd & m2 & M2 & L2 & _); [cbn; rewrite map_length; lia|cbn; lra|].
  assert (Oc : nd_ok aff c). { split; [|cbn; lra]. cbn. destruct pi; [cbn in Lpi; lia|discriminate]. }
  assert (Ow : nd_ok wp6 w). { split; [|cbn; lra]. cbn. destruct ws; [cbn in Lws; lia|discriminate]. }
  assert (SP' : forall i, (i < length Ts)%nat -> 0 + phase_start Ts i - 0 < MARGIN \/ MARGIN <= total Ts - (0 + phase_start Ts i)).
  { intros i Hi. specialize (SP i Hi). unfold MARGIN. rewrite Rplus_0_l, Rminus_0_r. exact SP. }
  destruct (pcs_ok aff_add aff_scal c Oc Ts 0) as (lc & Elc & Llc & Plc); [cbn; lra|exact HFT|cbn; lra|exact SP'|].
  destruct (pcs_ok aff_add aff_scal ddc Odd Ts 0) as (la & Ela & Lla & Pla);
    [rewrite m2; cbn; lra|exact HFT|rewrite M2; cbn; lra|rewrite m2, M2; exact SP'|].
  destruct (pcs_ok w6_add w6_scal w Ow Ts 0) as (lw & Elw & Llw & Plw); [cbn; lra|exact HFT|cbn; lra|exact SP'|].
  exists pi, ws, ddc, lc, la, lw. cbv zeta. fold c w.
  assert (Zs : forall i, 0 + phase_start Ts i = phase_start Ts i) by (intros; ring).
  assert (Ze : forall i, 0 + phase_end Ts i = phase_end Ts i) by (intros; ring).
  assert (Plc' : forall i p, nth_error lc i = Some p -> is_piece aff_add aff_scal c (phase_start Ts i) (phase_end Ts i) p)
    by (intros i p Hp; specialize (Plc i p Hp); rewrite Zs, Ze in Plc; exact Plc).
  assert (Pla' : forall i p, nth_error la i = Some p -> is_piece aff_add aff_scal ddc (phase_start Ts i) (phase_end Ts i) p)
    by (intros i p Hp; specialize (Pla i p Hp); rewrite Zs, Ze in Pla; exact Pla).
  assert (Plw' : forall i p, nth_error lw i = Some p -> is_piece w6_add w6_scal w (phase_start Ts i) (phase_end Ts i) p)
    by (intros i p Hp; specialize (Plw i p Hp); rewrite Zs, Ze in Plw; exact Plw).
  assert (Flc : Forall (fun p => length (nd_pts p) = length pi) lc).
  { apply Forall_forall. intros p Hp. apply In_nth_error in Hp. destruct Hp as [i Hp].
    destruct (Plc' i p Hp) as ((_ & E & _) & _). rewrite E. cbn. apply map_length. }
  assert (Fla : Forall (fun p => length (nd_pts p) = (length pi - 2)%nat) la).
  { apply Forall_forall. intros p Hp. apply In_nth_error in Hp. destruct Hp as [i Hp].
    destruct (Pla' i p Hp) as ((_ & E & _) & _). rewrite E, L2. cbn. rewrite map_length. reflexivity. }
  assert (Flw : Forall (fun p => length (nd_pts p) = length ws) lw).
  { apply Forall_forall. intros p Hp. apply In_nth_error in Hp. destruct Hp as [i Hp].
    destruct (Plw' i p Hp) as ((_ & E & _) & _). rewrite E. reflexivity. }
  set (dd := useDD_of pData).
  assert (Lrows : length (crows pData dd lc la lw (contacts pData)) = cont_rows_needed dd (length pi) (length ws) (contacts pData)).
  { apply crows_len; try assumption; try lia. }
  set (rows := crows pData dd lc la lw (contacts pData)) in *.
  set (items := items_of pData lw).
  assert (Raw : exists t' cSize', cont_raw scaled pData Ts =
       Ok (sumcols items, CS t' (length rows, map some_row rows)
             (FS (6 * length items) (3 + sumcols items) (strips 0 items) (rhss items)) cSize')).
  { unfold cont_raw. fold (useDD_of pData). fold dd. rewrite total_sumR, Esy. cbn [bind]. rewrite Ews. cbn [bind]. rewrite Eaff. cbn [bind].
    rewrite nd_make_ok; [|exact (proj1 Oc)|exact HT]. cbn [bind]. fold c. rewrite Edd. cbn [bind].
    rewrite nd_make_ok; [|exact (proj1 Ow)|exact HT]. cbn [bind]. fold w.
    replace (length (nd_pts c)) with (length pi) by (cbn; rewrite map_length; reflexivity).
    replace (length (nd_pts w)) with (length ws) by reflexivity.
    rewrite compute_num_ineq_ok by (try assumption; lia). cbn [bind].
    assert (ENE : computeNumEqContinuous pData (Z.of_nat (length ws) - 1) (negb dd) =
                  Ok (Z.of_nat (6 * length items), Z.of_nat (sumcols items))).
    { unfold computeNumEqContinuous, items, items_of. fold dd. destruct dd; cbn [negb]; [reflexivity|].
      destruct (contacts pData) as [|c1 cs] eqn:Ecs; [destruct Ts; [congruence|discriminate]|].
      rewrite (num_eq_ok (length ws) Lws _ lw) by (try assumption; lia). f_equal. f_equal; lia. }
    rewrite ENE. cbn [bind fst snd].
    destruct (Z.ltb_spec (Z.of_nat (cont_rows_needed dd (length pi) (length ws) (contacts pData))) 0); [lia|].
    destruct (Z.ltb_spec (Z.of_nat (6 * length items)) 0); [lia|].
    destruct (Z.ltb_spec (Z.of_nat (sumcols items)) 0); [lia|].
    rewrite !Nat2Z.id, <- Lrows.
    pose proof (fold_force_ok items [] [] 0 0 eq_refl eq_refl) as HF. cbn [app] in HF.
    change (6 * 0)%nat with 0%nat in HF. change (3 + 0)%nat with 3%nat in HF. rewrite !Nat.add_0_l in HF.
    destruct (cont_loop_ok pData dd c ddc w Ts (contacts pData) lc la lw 0
      (0%nat, repeat (vzero, Some 0) (length rows))
      (FS 0 3 (repeat (repeat 0 (3 + sumcols items)) (6 * length items)) (repeat 0 (6 * length items))) 0
      (FS (6 * length items) (3 + sumcols items) (strips 0 items) (rhss items))) as (t' & cS & E);
      try assumption.
    - unfold fits; cbn [fst snd]. rewrite repeat_length. fold rows. lia.
    - unfold items, items_of in HF |- *. fold dd in HF |- *. destruct dd; [cbn in *; reflexivity|exact HF].
    - exists t', cS. rewrite E. cbn [bind]. fold rows. rewrite put_full0. reflexivity. }
  repeat (split; [assumption|]).
  destruct Raw as (t' & cS & Raw). unfold computeConstraintsContinuous. rewrite Raw. cbn [bind fst snd cs_rows cs_force fs_D fs_d].
  rewrite pad_ok. cbn [bind]. fold (useDD_of pData). fold dd. reflexivity.
Qed.
