(** Double arithmetic: the samples of the two discretisations and the constraints. *)
From Flocq Require Import Core BinarySingleNaN.
From Verif Require Import Vec SpecBezier SpecTime ModelData ModelDispatch ModelUtils ModelRows ModelCom SpecCom SpecCtr
  Double ModelDouble SpecDouble SpecDouble2 ProofDouble ProofDouble2 ProofDouble3 ProofDouble4 ProofDouble6.
Open Scope R_scope.

Lemma eval_evaluates T : posf T -> evaluates T (eval_time T).
Proof.
  intros HT t Ft Pt. split; [apply eval_in; assumption|]. apply eval_near; assumption.
Qed.

Lemma tagged_f_app : forall (a b : list (list f64)) i, tagged_f i (a ++ b) = tagged_f i a ++ tagged_f (i + Z.of_nat (length a)) b.
Proof.
  induction a as [|x a IH]; intros b i; [cbn; rewrite Z.add_0_r; reflexivity|]. cbn [app tagged_f]. rewrite IH, <- app_assoc.
  do 3 f_equal. cbn [length]. lia.
Qed.

(** * Fixed step *)
Lemma walk_sample (Ts : list f64) dt bs : length bs = length Ts ->
  (forall k b, nth_error bs k = Some b -> walk (start_f Ts k) (end_f Ts k) dt b) ->
  forall i t, (i < length Ts)%nat -> (sample_of bs i t <-> exists b, nth_error bs i = Some b /\ In t b).
Proof.
  intros HL W i t Hi. unfold sample_of. split; [|auto]. intros [H|(i' & b' & -> & E)]; [exact H|].
  destruct (W _ _ E) as (_ & (b'' & E2) & _). apply app_inj_tail in E2. destruct E2 as [_ ->].
  destruct (nth_error bs (S i')) as [b|] eqn:Eb; [|apply nth_error_None in Eb; lia].
  exists b. split; [reflexivity|]. destruct (W _ _ Eb) as (H & _). destruct b as [|h b]; [discriminate H|]. injection H as ->. left. reflexivity.
Qed.

Section Step.
Variable pData : problem.
Variable Ts : list f64.
Variable T dt : f64.
Variable fuel : nat.
Variable ta : list (f64 * Z).
Hypothesis WP : well_posed pData (map (fun d : f64 => B2R d) Ts).
Hypothesis HP : Forall posf Ts.
Hypothesis HT : posf T.
Hypothesis Hdt : posf dt.
Hypothesis HF : is_finite (end_f Ts (length Ts)) = true.
Hypothesis HE : computeDiscretizedTime_f fuel Ts dt = Some ta.

Lemma step_blocks : exists bs, ta = tagged_f 0 bs /\ length bs = length Ts /\
  (forall k b, nth_error bs k = Some b -> walk (start_f Ts k) (end_f Ts k) dt b) /\
  Forall (fun b => b <> []) bs /\ (forall b t, In b bs -> In t b -> is_finite t = true /\ 0 <= B2R t).
Proof.
  destruct (steps_f_ok Ts dt fuel ta HP Hdt HF HE) as (bs & E & L & W). exists bs. split; [exact E|]. split; [exact L|]. split; [exact W|]. split.
  - apply Forall_forall. intros b Hb. apply In_nth_error in Hb. destruct Hb as [k Hk]. destruct (W k b Hk) as (H & _). destruct b; discriminate.
  - intros b t Hb Ht. apply In_nth_error in Hb. destruct Hb as [k Hk]. destruct (W k b Hk) as (_ & _ & H & _). destruct (H t Ht) as [F B].
    split; [exact F|]. pose proof (start_ge0 Ts k HP HF). lra.
Qed.

Lemma contacts_len : length (contacts pData) = length Ts.
Proof. destruct WP as (_ & _ & _ & _ & H & _). rewrite map_length in H. exact H. Qed.

Lemma step_exact g : same_gravity pData g -> In (flag_of pData) exact_w_flags -> exists ev bs rows,
  evaluates T ev /\ ta = tagged_f 0 bs /\ length bs = length Ts /\
  (forall k b, nth_error bs k = Some b -> walk (start_f Ts k) (end_f Ts k) dt b) /\
  constraints_f pData Ts T ta = Ok rows /\
  forall x cv, com_curve pData (B2R T) x = Ok cv ->
    (sat rows x <-> forall i c b t, nth_error (contacts pData) i = Some c -> nth_error bs i = Some b -> In t b ->
       contact_ok pData 0 c (cv_fun cv) (ev t) /\ accel_ok pData (cv_fun cv) (ev t)).
Proof.
  intros Hg Hf. destruct step_blocks as (bs & E & L & W & N & F).
  destruct (rows_exact pData Ts T bs WP HT L N F g Hg Hf) as (rows & R & H). exists (eval_time T), bs, rows. rewrite E.
  split; [apply eval_evaluates, HT|]. split; [reflexivity|]. split; [exact L|]. split; [exact W|]. split; [exact R|].
  intros x cv Hcv. rewrite (H x cv Hcv). split.
  - intros A i c b t Hc Hb Ht. apply (A i c t Hc). left. eauto.
  - intros A i c t Hc Ht. apply (walk_sample Ts dt bs L W) in Ht; [destruct Ht as (b & Hb & Ht); eauto|].
    rewrite <- contacts_len. apply nth_error_Some. congruence.
Qed.
Lemma step_dec g G : same_gravity pData g -> within G g -> In (flag_of pData) dec_w_flags -> exists ev bs rows,
  evaluates T ev /\ ta = tagged_f 0 bs /\ length bs = length Ts /\
  (forall k b, nth_error bs k = Some b -> walk (start_f Ts k) (end_f Ts k) dt b) /\
  constraints_f pData Ts T ta = Ok rows /\
  forall x cv M, com_curve pData (B2R T) x = Ok cv -> Forall (within M) (bc_pts cv) ->
    let sl := 3 * (err_force M (B2R T) + err_moment G M (B2R T)) in
    let ok sl := forall i c b t, nth_error (contacts pData) i = Some c -> nth_error bs i = Some b -> In t b ->
       contact_ok pData sl c (cv_fun cv) (ev t) /\ accel_ok pData (cv_fun cv) (ev t) in
    (sat rows x -> ok sl) /\ (ok (- sl) -> sat rows x).
Proof.
  intros Hg HG Hf. destruct step_blocks as (bs & E & L & W & N & F).
  destruct (rows_dec pData Ts T bs WP HT L N F g G Hg HG Hf) as (rows & R & H). exists (eval_time T), bs, rows. rewrite E.
  split; [apply eval_evaluates, HT|]. split; [reflexivity|]. split; [exact L|]. split; [exact W|]. split; [exact R|].
  intros x cv M Hcv HM. destruct (H x cv M Hcv HM) as [H1 H2]. cbv zeta. split.
  - intros S i c b t Hc Hb Ht. apply (H1 S i c t Hc). left. eauto.
  - intros A. apply H2. intros i c t Hc Ht. apply (walk_sample Ts dt bs L W) in Ht; [destruct Ht as (b & Hb & Ht); eauto|].
    rewrite <- contacts_len. apply nth_error_Some. congruence.
Qed.
End Step.

(** * Fixed number of points *)
Definition with_start (cs : list (list f64)) : list (list f64) := match cs with [] => [] | c :: cs' => (f0 :: c) :: cs' end.

Lemma removelast_tagged (bs : list (list f64)) b x i : removelast (tagged_f i (bs ++ [b ++ [x]])) = tagged_f i bs ++ map (fun t => (t, (i + Z.of_nat (length bs))%Z)) b.
Proof.
  rewrite tagged_f_app. cbn [tagged_f]. rewrite app_nil_r, map_app. cbn [map]. rewrite app_assoc, removelast_last. reflexivity.
Qed.

Section Fixed.
Variable pData : problem.
Variable Ts : list f64.
Variable T : f64.
Variable p : nat.
Hypothesis WP : well_posed pData (map (fun d : f64 => B2R d) Ts).
Hypothesis HP : Forall posf Ts.
Hypothesis HT : posf T.
Hypothesis Hp : (1 <= p)%nat.
Hypothesis H53 : (Z.of_nat (length Ts) * Z.of_nat p < 2 ^ 53)%Z.
Hypothesis LT : total (map (fun d : f64 => B2R d) Ts) <= IZR (2 ^ 1000).
Hypothesis HN : forall d, In d Ts -> / IZR (2 ^ 1022) <= B2R d / INR p.

Lemma fixed_cells : exists cs, computeDiscretizedTimeFixed_f T Ts p = (f0, 0%Z) :: tagged_f 0 cs /\ length cs = length Ts /\
  forall a b, nth_error cs a = Some b -> length b = p /\ forall x, In x b -> is_finite x = true /\ 0 <= B2R x.
Proof.
  assert (L1 : (1 <= length Ts)%nat).
  { destruct WP as (_ & _ & H & _). destruct Ts; [elim H; reflexivity|cbn; lia]. }
  assert (HK : INR (S (length Ts * p)) * u53 <= 1).
  { unfold u53. apply Rmult_le_reg_r with (IZR (2 ^ 53)); [apply IZR_lt; reflexivity|]. rewrite Rmult_assoc, Rinv_l, Rmult_1_r, Rmult_1_l by (apply not_0_IZR; discriminate).
    rewrite INR_IZR_INZ. apply IZR_le. lia. }
  assert (Hp53 : (Z.of_nat p <= 2 ^ 53)%Z) by nia.
  assert (G0 : good 0 0 f0).
  { split; [reflexivity|]. rewrite f0_val. split; [lra|]. unfold rounds. rewrite !Rmult_0_l. lra. }
  destruct (outer_ok (length Ts * p) (total (map (fun d : f64 => B2R d) Ts)) HK LT p Hp Hp53 Ts 0 0 0 f0 [(f0, 0%Z)]) as (bs & Eq & Lb & Nb);
    [lia|lra|apply Req_le, Rplus_0_l|exact G0|exact HP|exact HN|].
  destruct (exists_last (l := bs)) as (bs1 & bl & E1); [intros ->; cbn in Lb; lia|].
  assert (Nl : nth_error bs (length bs1) = Some bl) by (rewrite E1, nth_error_app2, Nat.sub_diag by lia; reflexivity).
  destruct (Nb _ _ Nl) as [Ll Gl].
  destruct (exists_last (l := bl)) as (bl' & x & E2); [intros ->; cbn in Ll; lia|].
  assert (Lb1 : length Ts = S (length bs1)) by (rewrite <- Lb, E1, app_length; cbn [length]; lia).
  exists (bs1 ++ [bl' ++ [T]]). split; [|split].
  - unfold computeDiscretizedTimeFixed_f. rewrite Eq, E1, E2. cbn [app].
    assert (Nn : tagged_f 0 (bs1 ++ [bl' ++ [x]]) <> []).
    { rewrite tagged_f_app. cbn [tagged_f]. rewrite app_nil_r, map_app. intro K. apply app_eq_nil in K. destruct K as [_ K]. apply app_eq_nil in K. destruct K as [_ K]. discriminate K. }
    assert (Rm : removelast ((f0, 0%Z) :: tagged_f 0 (bs1 ++ [bl' ++ [x]])) = (f0, 0%Z) :: removelast (tagged_f 0 (bs1 ++ [bl' ++ [x]])))
      by (destruct (tagged_f 0 (bs1 ++ [bl' ++ [x]])); [congruence|reflexivity]).
    rewrite Rm, removelast_tagged. cbn [app]. f_equal. rewrite tagged_f_app. cbn [tagged_f]. rewrite app_nil_r, map_app, <- app_assoc. cbn [map].
    replace (Z.of_nat (length Ts) - 1)%Z with (0 + Z.of_nat (length bs1))%Z by lia. reflexivity.
  - rewrite app_length. cbn [length]. lia.
  - intros a b Hb. destruct (Nat.lt_ge_cases a (length bs1)) as [A|A].
    + rewrite nth_error_app1 in Hb by exact A. assert (Hb' : nth_error bs a = Some b) by (rewrite E1, nth_error_app1 by exact A; exact Hb).
      destruct (Nb a b Hb') as [L G]. split; [exact L|]. intros y Hy. apply In_nth_error in Hy. destruct Hy as [m Hm].
      destruct (G m y Hm) as (d & _ & (F & Y0 & _)). auto.
    + rewrite nth_error_app2 in Hb by exact A. destruct (a - length bs1)%nat as [|k]; [|destruct k; discriminate Hb]. cbn [nth_error] in Hb.
      assert (E3 : b = bl' ++ [T]) by congruence. subst b.
      split; [rewrite E2, app_length in Ll; rewrite app_length; exact Ll|]. intros y Hy. apply in_app_or in Hy. destruct Hy as [Hy|[<-|[]]].
      * apply In_nth_error in Hy. destruct Hy as [m Hm].
        destruct (Gl m y) as (d & _ & (F & Y0 & _)); [|auto].
        rewrite E2, nth_error_app1; [exact Hm|]. apply nth_error_Some. congruence.
      * split; [apply HT|apply Rlt_le, HT].
Qed.

Lemma cells_sample (cs : list (list f64)) : length cs = length Ts -> (forall a b, nth_error cs a = Some b -> length b = p) ->
  forall i t, (i < length Ts)%nat -> (sample_of (with_start cs) i t <->
    exists j z, (j <= p)%nat /\ nth_error ((f0, 0%Z) :: tagged_f 0 cs) (i * p + j) = Some (t, z)).
Proof.
  intros HL HB i t Hi. destruct (tagged_f_nth p Hp cs 0 HB) as [LL NN]. rewrite HL in LL, NN.
  assert (At : forall a b m x, nth_error cs a = Some b -> nth_error b m = Some x -> nth_error ((f0, 0%Z) :: tagged_f 0 cs) (a * p + S m) = Some (x, (0 + Z.of_nat a)%Z)).
  { intros a b m x Ha Hm. assert (A : (a < length Ts)%nat) by (rewrite <- HL; apply nth_error_Some; congruence).
    assert (M : (m < p)%nat) by (rewrite <- (HB _ _ Ha); apply nth_error_Some; congruence).
    destruct (NN a m A M) as (b' & x' & E1 & E2 & E3). assert (b' = b) by congruence. subst b'. assert (x' = x) by congruence. subst x'.
    replace (a * p + S m)%nat with (S (a * p + m)) by lia. exact E3. }
  assert (Ws : forall a b, nth_error (with_start cs) a = Some b -> exists c, nth_error cs a = Some c /\ b = match a with O => f0 :: c | S _ => c end).
  { intros a b Hb. destruct cs as [|c cs']; [destruct a; discriminate Hb|]. destruct a as [|a]; cbn [with_start nth_error] in *.
    - exists c. split; [reflexivity|]. congruence.
    - exists b. auto. }
  assert (Ws2 : forall a c, nth_error cs a = Some c -> nth_error (with_start cs) a = Some match a with O => f0 :: c | S _ => c end).
  { intros a c Hc. destruct cs as [|c0 cs']; [destruct a; discriminate Hc|]. destruct a as [|a]; cbn [with_start nth_error] in *; congruence. }
  unfold sample_of. split.
  - intros [(b & Hb & Ht)|(i' & b' & -> & E)].
    + destruct (Ws i b Hb) as (c & Hc & ->).
      assert (Q : i = O /\ t = f0 \/ In t c) by (destruct i; [destruct Ht as [<-|Ht]; auto|auto]).
      destruct Q as [[-> ->]|Q]; [exists O, 0%Z; split; [lia|reflexivity]|].
      apply In_nth_error in Q. destruct Q as [m Hm]. exists (S m), (0 + Z.of_nat i)%Z. split; [|apply (At i c m t Hc Hm)].
      assert (m < length c)%nat by (apply nth_error_Some; congruence). rewrite (HB _ _ Hc) in H. lia.
    + destruct (Ws _ _ E) as (c & Hc & Ec). pose proof (HB _ _ Hc) as Lc. exists O, (0 + Z.of_nat i')%Z. split; [lia|].
      destruct (exists_last (l := c)) as (c' & t' & E2); [intros ->; cbn in Lc; lia|].
      assert (Tt : t = t').
      { destruct i' as [|i'']; rewrite E2 in Ec.
        - rewrite app_comm_cons in Ec. apply app_inj_tail in Ec. apply Ec.
        - apply app_inj_tail in Ec. apply Ec. }
      subst t'. replace (S i' * p + 0)%nat with (i' * p + S (p - 1))%nat by lia. apply (At i' c (p - 1)%nat t Hc).
      rewrite E2, app_length in Lc. cbn [length] in Lc. rewrite E2, nth_error_app2 by lia. replace (p - 1 - length c')%nat with O by lia. reflexivity.
  - intros (j & z & Hj & E). destruct j as [|m].
    + destruct i as [|i'].
      * left. cbn in E. destruct (nth_error cs 0) as [c|] eqn:Hc; [|apply nth_error_None in Hc; lia]. exists (f0 :: c).
        split; [apply (Ws2 O c Hc)|]. left. congruence.
      * right. destruct (NN i' (p - 1)%nat ltac:(lia) ltac:(lia)) as (c & x & E1 & E2 & E3).
        pose proof (At i' c (p - 1)%nat x E1 E2) as E4. replace (i' * p + S (p - 1))%nat with (S i' * p + 0)%nat in E4 by lia.
        assert (x = t) by congruence. subst x. pose proof (HB _ _ E1) as Lc.
        destruct (exists_last (l := c)) as (c' & t' & E5); [intros ->; cbn in Lc; lia|].
        assert (t' = t).
        { rewrite E5, app_length in Lc. cbn [length] in Lc. rewrite E5, nth_error_app2 in E2 by lia. replace (p - 1 - length c')%nat with O in E2 by lia. cbn in E2. congruence. }
        subst t'. rewrite E5 in E1. pose proof (Ws2 i' _ E1) as Hw. destruct i' as [|i''].
        -- exists O, (f0 :: c'). split; [reflexivity|]. exact Hw.
        -- exists (S i''), c'. split; [reflexivity|]. exact Hw.
    + left. destruct (NN i m Hi ltac:(lia)) as (c & x & E1 & E2 & E3). pose proof (At i c m x E1 E2) as E4. assert (x = t) by congruence. subst x.
      exists (match i with O => f0 :: c | S _ => c end). split; [apply Ws2, E1|]. apply nth_error_In in E2. destruct i; [right; exact E2|exact E2].
Qed.

Lemma ws_facts (cs : list (list f64)) : length cs = length Ts ->
  (forall a b, nth_error cs a = Some b -> length b = p /\ forall x, In x b -> is_finite x = true /\ 0 <= B2R x) ->
  length (with_start cs) = length Ts /\ Forall (fun b => b <> []) (with_start cs) /\
  (forall b t, In b (with_start cs) -> In t b -> is_finite t = true /\ 0 <= B2R t) /\ tagged_f 0 (with_start cs) = (f0, 0%Z) :: tagged_f 0 cs.
Proof.
  intros HL HB.
  assert (L1 : (1 <= length Ts)%nat).
  { destruct WP as (_ & _ & H & _). destruct Ts; [elim H; reflexivity|cbn; lia]. }
  assert (Q : forall b, In b cs -> length b = p /\ forall x, In x b -> is_finite x = true /\ 0 <= B2R x).
  { intros b Hb. apply In_nth_error in Hb. destruct Hb as [a Ha]. apply (HB a b Ha). }
  destruct cs as [|c cs']; [cbn in HL; lia|]. cbn [with_start]. split; [exact HL|]. split; [|split; [|reflexivity]].
  - apply Forall_cons; [discriminate|]. apply Forall_forall. intros b Hb E. subst b. destruct (Q [] (or_intror Hb)) as [K _]. cbn in K. lia.
  - intros b t [<-|Hb] Ht.
    + destruct Ht as [<-|Ht]; [split; [reflexivity|rewrite f0_val; lra]|]. apply (Q c (or_introl eq_refl)), Ht.
    + apply (Q b (or_intror Hb)), Ht.
Qed.

Lemma fixed_exact g : same_gravity pData g -> In (flag_of pData) exact_w_flags -> exists ev rows,
  evaluates T ev /\
  constraints_f pData Ts T (computeDiscretizedTimeFixed_f T Ts p) = Ok rows /\
  forall x cv, com_curve pData (B2R T) x = Ok cv ->
    (sat rows x <-> forall i c j t z, nth_error (contacts pData) i = Some c -> (j <= p)%nat ->
       nth_error (computeDiscretizedTimeFixed_f T Ts p) (i * p + j) = Some (t, z) ->
       contact_ok pData 0 c (cv_fun cv) (ev t) /\ accel_ok pData (cv_fun cv) (ev t)).
Proof.
  intros Hg Hf. destruct fixed_cells as (cs & E & L & B). destruct (ws_facts cs L B) as (L2 & N & F & Et).
  assert (B' : forall a b, nth_error cs a = Some b -> length b = p) by (intros a b Hb; apply (B a b Hb)).
  destruct (rows_exact pData Ts T _ WP HT L2 N F g Hg Hf) as (rows & R & H). rewrite Et in R. exists (eval_time T), rows. rewrite E.
  split; [apply eval_evaluates, HT|]. split; [exact R|].
  intros x cv Hcv. rewrite (H x cv Hcv). split.
  - intros A i c j t z Hc Hj Ht. apply (A i c t Hc). apply (cells_sample cs L B'); [|eauto].
    rewrite <- (contacts_len pData Ts WP). apply nth_error_Some. congruence.
  - intros A i c t Hc Ht. apply (cells_sample cs L B') in Ht; [destruct Ht as (j & z & Hj & Ht); eauto|].
    rewrite <- (contacts_len pData Ts WP). apply nth_error_Some. congruence.
Qed.
Lemma fixed_dec g G : same_gravity pData g -> within G g -> In (flag_of pData) dec_w_flags -> exists ev rows,
  evaluates T ev /\
  constraints_f pData Ts T (computeDiscretizedTimeFixed_f T Ts p) = Ok rows /\
  forall x cv M, com_curve pData (B2R T) x = Ok cv -> Forall (within M) (bc_pts cv) ->
    let sl := 3 * (err_force M (B2R T) + err_moment G M (B2R T)) in
    let ok sl := forall i c j t z, nth_error (contacts pData) i = Some c -> (j <= p)%nat ->
       nth_error (computeDiscretizedTimeFixed_f T Ts p) (i * p + j) = Some (t, z) ->
       contact_ok pData sl c (cv_fun cv) (ev t) /\ accel_ok pData (cv_fun cv) (ev t) in
    (sat rows x -> ok sl) /\ (ok (- sl) -> sat rows x).
Proof.
  intros Hg HG Hf. destruct fixed_cells as (cs & E & L & B). destruct (ws_facts cs L B) as (L2 & N & F & Et).
  assert (B' : forall a b, nth_error cs a = Some b -> length b = p) by (intros a b Hb; apply (B a b Hb)).
  destruct (rows_dec pData Ts T _ WP HT L2 N F g G Hg HG Hf) as (rows & R & H). rewrite Et in R. exists (eval_time T), rows. rewrite E.
  split; [apply eval_evaluates, HT|]. split; [exact R|].
  intros x cv M Hcv HM. destruct (H x cv M Hcv HM) as [H1 H2]. cbv zeta. split.
  - intros S i c j t z Hc Hj Ht. apply (H1 S i c t Hc). apply (cells_sample cs L B'); [|eauto].
    rewrite <- (contacts_len pData Ts WP). apply nth_error_Some. congruence.
  - intros A. apply H2. intros i c t Hc Ht. apply (cells_sample cs L B') in Ht; [destruct Ht as (j & z & Hj & Ht); eauto|].
    rewrite <- (contacts_len pData Ts WP). apply nth_error_Some. congruence.
Qed.
End Fixed.
