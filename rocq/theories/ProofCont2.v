(** Continuous formulation: the loop over the phases. *)
From Verif Require Import Vec SpecBezier SpecTime ModelData ModelDispatch ModelUtils ModelRows ModelCom ModelNd ModelCont
  SpecCom SpecWp SpecCtr SpecCont ProofBezier ProofCurve ProofWaypoints ProofTime ProofTime2 ProofEmit ProofCom ProofCom2 ProofNd
  ProofWaypointsErr ProofCont.
Open Scope R_scope.

(** * The pieces of a curve, one per phase *)
Fixpoint pcs {A} (ex : ndc A -> R -> R -> outcome (ndc A)) (cv : ndc A) (t : R) (Ts : list R) : outcome (list (ndc A)) :=
  match Ts with
  | [] => Ok []
  | d :: Ts' => p <- ex cv t (d + t) ;; l <- pcs ex cv (t + d) Ts' ;; Ok (p :: l)
  end.

Section Pcs.
  Context {A : Type} (add : A -> A -> A) (scal : R -> A -> A).
  Definition is_piece (cv : ndc A) (a b : R) (p : ndc A) : Prop :=
    piece A add scal p cv /\ nd_min p <= a /\ b <= nd_max p /\
    (a = nd_min cv \/ MARGIN <= a - nd_min cv -> nd_min p = a) /\
    (b = nd_max cv \/ MARGIN <= nd_max cv - b -> nd_max p = b).
  Lemma pcs_ok cv : nd_ok A cv -> forall Ts t, nd_min cv <= t -> Forall (Rlt 0) Ts -> t + total Ts <= nd_max cv ->
    (forall i, (i < length Ts)%nat ->
       t + phase_start Ts i - nd_min cv < MARGIN \/ MARGIN <= nd_max cv - (t + phase_start Ts i)) ->
    exists l, pcs (nd_extract A add scal) cv t Ts = Ok l /\ length l = length Ts /\
      forall i p, nth_error l i = Some p -> is_piece cv (t + phase_start Ts i) (t + phase_end Ts i) p.
  Proof.
    intros Hok. induction Ts as [|d Ts IH]; intros t Ht HF Hmax Hs.
    - exists []. split; [reflexivity|]. split; [reflexivity|]. intros [|i] p H; discriminate.
    - inversion HF as [|? ? Hd HF']; subst. cbn [total] in Hmax.
      pose proof (total_prefix Ts 0 HF') as [HP _].
      destruct (extract_total A add scal cv t (d + t) Hok Ht ltac:(lra) ltac:(lra)) as [p Ep].
      { specialize (Hs 0%nat ltac:(cbn; lia)). cbn in Hs. rewrite Rplus_0_r in Hs. exact Hs. }
      destruct (IH (t + d)) as (l & El & Hl & Hp); [lra|exact HF'|lra| |].
      { intros i Hi. specialize (Hs (S i) ltac:(cbn; lia)). unfold phase_start in *. cbn [firstn total] in Hs.
        rewrite <- Rplus_assoc in Hs. exact Hs. }
      exists (p :: l). cbn [pcs]. rewrite Ep. cbn [bind]. rewrite El. cbn [bind]. split; [reflexivity|]. split; [cbn; lia|].
      intros [|i] q Hq; cbn in Hq.
      + injection Hq as <-. destruct (extract_ok _ _ _ _ _ _ _ Hok Ep) as (P1 & P2 & P3 & P4 & P5).
        unfold phase_start, phase_end. cbn [firstn total]. rewrite Rplus_0_r, Rplus_0_r, (Rplus_comm t d).
        unfold is_piece. split; [exact P1|]. split; [exact P2|]. split; [exact P3|]. split; assumption.
      + specialize (Hp i q Hq). unfold phase_start, phase_end in *. cbn [firstn total]. rewrite <- !Rplus_assoc. exact Hp.
  Qed.
End Pcs.

(** * Rows written by the loop *)
Section Loop.
  Variable pData : problem.
  Let amax := k_maxAcceleration (constr pData).
  Definition phase_rows (useDD : bool) (c : contact) (pc pa : ndc aff) (pw : ndc wp6) : list (vec3 * R) :=
    flat_map (krows_aff c) (nd_pts pc) ++
    (if useDD then flat_map (srows (cp_gravity (php c)) (mh pData c)) (nd_pts pw) else []) ++
    flat_map (arows_aff amax) (nd_pts pa).
  Fixpoint crows (useDD : bool) (lc la : list (ndc aff)) (lw : list (ndc wp6)) (cs : list contact) : list (vec3 * R) :=
    match lc, la, lw, cs with
    | pc :: lc', pa :: la', pw :: lw', c :: cs' => phase_rows useDD c pc pa pw ++ crows useDD lc' la' lw' cs'
    | _, _, _, _ => []
    end.

  (** wrench control points kept by the force formulation *)
  Definition ncols (c : contact) : nat := length (cp_G (php c)).
  Definition next_le (c : contact) (cs : list contact) : bool :=
    match cs with c2 :: _ => Nat.leb (ncols c2) (ncols c) | [] => false end.
  Definition prev_lt (cSize : nat) (c : contact) : bool := (Nat.ltb 0 cSize && Nat.ltb cSize (ncols c))%bool.
  Fixpoint fitems (cSize : nat) (lw : list (ndc wp6)) (cs : list contact) : list (wp6 * cphase) :=
    match lw, cs with
    | pw :: lw', c :: cs' =>
        map (fun w => (w, php c)) (kept (prev_lt cSize c) (next_le c cs') (nd_pts pw)) ++ fitems (ncols c) lw' cs'
    | _, _ => []
    end.
  Fixpoint fold_force (items : list (wp6 * cphase)) (s : force_st) : outcome force_st :=
    match items with
    | [] => Ok s
    | (w, ph) :: items' => s' <- assignForce w ph s ;; fold_force items' s'
    end.
  Lemma fold_force_app : forall a b s, fold_force (a ++ b) s = (s' <- fold_force a s ;; fold_force b s').
  Proof.
    induction a as [|[w ph] a IH]; intros b s; cbn [app fold_force bind]; [reflexivity|].
    destruct (assignForce w ph s); cbn [bind]; [apply IH|reflexivity|reflexivity].
  Qed.
  Lemma force_loop_fold ph : forall ws s, force_loop ws ph s = fold_force (map (fun w => (w, ph)) ws) s.
  Proof.
    induction ws as [|w ws IH]; intros s; cbn [map force_loop fold_force]; [reflexivity|].
    destruct (assignForce w ph s); cbn [bind]; [apply IH|reflexivity|reflexivity].
  Qed.

  Lemma cont_loop_ok useDD c ddc w : forall Ts cs lc la lw t st f cSize f',
    length cs = length Ts -> Forall contact_wf cs ->
    pcs ex_c c t Ts = Ok lc -> pcs ex_c ddc t Ts = Ok la -> pcs ex_w w t Ts = Ok lw ->
    fits st (length (crows useDD lc la lw cs)) ->
    (if useDD then f' = f else fold_force (fitems cSize lw cs) f = Ok f') ->
    exists t' cSize', cont_loop pData useDD c ddc w Ts cs (CS t st f cSize) =
      Ok (CS t' (put st (crows useDD lc la lw cs)) f' cSize').
  Proof.
    induction Ts as [|d Ts IH]; intros cs lc la lw t st f cSize f' HL HW Ec Ea Ew Hf HF.
    - destruct cs; [|discriminate]. cbn in Ec, Ea, Ew. injection Ec as <-. injection Ea as <-. injection Ew as <-.
      cbn [cont_loop crows]. exists t, cSize. rewrite put_nil by exact Hf.
      destruct useDD; [subst f'|cbn in HF; injection HF as <-]; reflexivity.
    - destruct cs as [|ct cs]; [discriminate|]. inversion HW as [|? ? Hw HW']; subst.
      destruct Hw as (ph & Eph & Hm & Hrows & Hk).
      assert (Ep : php ct = ph) by (unfold php; rewrite Eph; reflexivity).
      cbn [pcs] in Ec, Ea, Ew. cbn [cont_loop cs_t cs_rows cs_force cs_cSize].
      destruct (ex_c c t (d + t)) as [pc| |]; try discriminate. cbn [bind] in *.
      destruct (pcs ex_c c (t + d) Ts) as [lc'| |] eqn:Ec'; try discriminate. cbn [bind] in *. injection Ec as <-.
      destruct (ex_c ddc t (d + t)) as [pa| |]; try discriminate. cbn [bind] in *.
      destruct (pcs ex_c ddc (t + d) Ts) as [la'| |] eqn:Ea'; try discriminate. cbn [bind] in *. injection Ea as <-.
      destruct (ex_w w t (d + t)) as [pw| |]; try discriminate. cbn [bind] in *.
      destruct (pcs ex_w w (t + d) Ts) as [lw'| |] eqn:Ew'; try discriminate. cbn [bind] in *. injection Ew as <-.
      cbn [crows] in *. unfold phase_rows in *. rewrite !app_length in Hf.
      rewrite (cont_kin_ok ct Hk) by (unfold fits in *; lia). cbn [bind].
      set (R1 := flat_map (krows_aff ct) (nd_pts pc)) in *.
      set (R3 := flat_map (arows_aff amax) (nd_pts pa)) in *.
      assert (F1 : forall n, (n <= length (if useDD then flat_map (srows (cp_gravity (php ct)) (mh pData ct)) (nd_pts pw) else [])
                          + (length R3 + length (crows useDD lc' la' lw' cs)))%nat -> fits (put st R1) n).
      { intros n Hn. apply put_fits; unfold fits in *; lia. }
      destruct useDD.
      + rewrite (updateH_ok pData ct) by (exists ph; auto). cbn [bind]. rewrite Eph. cbn [deref bind].
        set (m := map _ _). assert (Em : m = mh pData ct).
        { unfold mh. rewrite (updateH_ok pData ct) by (exists ph; auto). reflexivity. }
        rewrite Em, <- Ep in *. rewrite cont_stab_ok by (apply F1; lia). cbn [bind].
        set (R2 := flat_map (srows _ _) _) in *. rewrite put_put by (unfold fits in *; lia).
        fold amax. rewrite cont_acc_ok; fold R3; [|apply put_fits; unfold fits in *; rewrite ?app_length; lia]. cbn [bind].
        rewrite put_put by (unfold fits in *; rewrite ?app_length; lia).
        edestruct (IH cs lc' la' lw' (t + d) (put st ((R1 ++ R2) ++ R3)) f cSize f') as (t' & cS & E); try assumption; try lia.
        { cbn in HL; lia. }
        { apply put_fits; unfold fits in *; rewrite ?app_length; lia. }
        rewrite E. exists t', cS. rewrite put_put by (unfold fits in *; rewrite ?app_length; lia).
        rewrite <- !app_assoc. reflexivity.
      + rewrite Eph. cbn [deref bind].
        assert (EL : (match Ts, cs with
                      | [], _ => Ok false
                      | _ :: _, [] => UB
                      | _ :: _, c2 :: _ => cols2 <- g_cols c2 ;; Ok (Nat.leb cols2 (length (cp_G ph)))
                      end) = Ok (next_le ct cs)).
        { destruct Ts as [|d2 Ts], cs as [|c2 cs]; cbn in HL; try lia; [reflexivity|].
          inversion HW' as [|? ? (ph2 & E2 & _) _]; subst. unfold g_cols. rewrite E2. cbn [deref bind].
          unfold next_le, ncols, php. rewrite E2, Eph. reflexivity. }
        rewrite EL. cbn [bind fitems] in *. rewrite fold_force_app in HF. rewrite force_loop_fold.
        unfold prev_lt, ncols in HF. rewrite Ep in HF.
        destruct (fold_force _ f) as [f1| |] eqn:Ef; try discriminate. cbn [bind] in *.
        fold amax. rewrite cont_acc_ok; fold R3; [|apply F1; cbn; lia]. cbn [bind].
        rewrite put_put by (unfold fits in *; cbn in *; lia).
        edestruct (IH cs lc' la' lw' (t + d) (put st (R1 ++ R3)) f1 (length (cp_G ph)) f') as (t' & cS & E); try assumption; try lia.
        { cbn in HL; lia. }
        { apply put_fits; unfold fits in *; cbn in *; rewrite ?app_length; lia. }
        rewrite E. exists t', cS. rewrite put_put by (unfold fits in *; cbn in *; rewrite ?app_length; lia).
        cbn [app]. rewrite <- !app_assoc. reflexivity.
  Qed.

  (** sizes *)
  Lemma phase_rows_len useDD c pc pa pw n k : contact_wf c -> length (nd_pts pc) = n -> length (nd_pts pw) = k ->
    length (nd_pts pa) = (n - 2)%nat ->
    length (phase_rows useDD c pc pa pw) =
    (length (cd_kin c) * n + (if useDD then length (cp_poly (php c)) * k else 0) + 6 * (n - 2))%nat.
  Proof.
    intros Hw H1 H2 H3. unfold phase_rows. rewrite !app_length.
    rewrite (flat_map_len _ (length (cd_kin c))).
    2:{ intros p _. destruct Hw as (ph & _ & _ & _ & Hk). apply (krows_aff_ok c p Hk). }
    rewrite (flat_map_len (arows_aff amax) 6) by (intros; reflexivity).
    destruct useDD; cbn [length]; [|lia].
    rewrite (flat_map_len _ (length (cp_poly (php c)))); [lia|].
    intros w _. rewrite srows_len. unfold mh. rewrite (updateH_ok pData c Hw). cbn [okd]. apply map_length.
  Qed.
  Lemma crows_len useDD n k : forall cs lc la lw, Forall contact_wf cs ->
    length lc = length cs -> length la = length cs -> length lw = length cs ->
    Forall (fun p => length (nd_pts p) = n) lc -> Forall (fun p => length (nd_pts p) = (n - 2)%nat) la ->
    Forall (fun p => length (nd_pts p) = k) lw ->
    length (crows useDD lc la lw cs) = cont_rows_needed useDD n k cs.
  Proof.
    induction cs as [|c cs IH]; intros [|pc lc] [|pa la] [|pw lw] HW L1 L2 L3 F1 F2 F3; cbn in L1, L2, L3; try lia; [reflexivity|].
    inversion HW as [|? ? Hw HW']; inversion F1; inversion F2; inversion F3; subst.
    cbn [crows cont_rows_needed]. rewrite app_length, (phase_rows_len useDD c pc pa pw _ _ Hw eq_refl eq_refl) by assumption.
    rewrite IH by (try assumption; lia). destruct Hw as (ph & E & _). unfold php. rewrite E. destruct useDD; lia.
  Qed.
End Loop.
