(** End-effector constraints: meaning of the rows. *)
From Coq Require Import Bool Btauto.
From Verif Require Import Vec SpecBezier ModelData ModelUtils ModelRows ModelDispatch ModelCont ModelSolver ModelTraj ModelEff
  SpecCom SpecWp SpecSolver SpecEff ProofSolver ProofTraj.
Open Scope R_scope.

Lemma pow52 : 2 ^ 52 = 4503599627370496.
Proof. cbn [pow]. ring. Qed.

Lemma zero_depends w : wpn_isZero w = negb (dependsb w).
Proof.
  unfold wpn_isZero, dependsb, wpn_rows, coefficients.
  set (t := fun a => if Rlt_dec (/ 2 ^ 52) (Rabs a) then true else false).
  set (u := fun a => if Rle_dec (Rabs a) epsilon then true else false).
  assert (Hu : forall a, u a = negb (t a)).
  { intros a. unfold u, t, epsilon. rewrite pow52. destruct (Rle_dec _ _), (Rlt_dec _ _); try reflexivity; lra. }
  generalize (wn_blocks w). intros bs. cbn [forallb].
  induction bs as [|b bs IH]; [reflexivity|]. cbn [map concat].
  rewrite !forallb_app, !existsb_app, !negb_orb, <- IH. rewrite !andb_true_r.
  cbn [l3 forallb existsb]. rewrite !Hu, !negb_orb. cbn [negb].
  btauto.
Qed.

Lemma rdot_l3x a b : rdot (l3 a) (l3 b) = vdot a b.
Proof. unfold vdot. cbn. ring. Qed.
Lemma rdot_blocks (f : mat3 -> vec3) : forall bs xs, length bs = length xs ->
  rdot (concat (map (fun m => l3 (f m)) bs)) (flat xs) = fold_right Rplus 0 (map2 (fun m x => vdot (f m) x) bs xs).
Proof.
  induction bs as [|b bs IH]; intros [|x xs] Hl; try discriminate; [reflexivity|].
  cbn [map concat]. unfold flat. cbn [map concat]. rewrite rdot_app by reflexivity. fold (flat xs).
  rewrite IH by (injection Hl; auto). cbn [map2 fold_right]. rewrite rdot_l3x. reflexivity.
Qed.
Lemma ev_blocks_xyz : forall bs xs, length bs = length xs ->
  ev_blocks bs xs = V3 (fold_right Rplus 0 (map2 (fun m x => vdot (row0 m) x) bs xs))
                       (fold_right Rplus 0 (map2 (fun m x => vdot (row1 m) x) bs xs))
                       (fold_right Rplus 0 (map2 (fun m x => vdot (row2 m) x) bs xs)).
Proof.
  induction bs as [|b bs IH]; intros [|x xs] Hl; try discriminate; [reflexivity|].
  cbn [ev_blocks map2 fold_right]. rewrite IH by (injection Hl; auto). reflexivity.
Qed.

Lemma eff_rows_sat s bounds w xs : length (wn_blocks w) = length xs ->
  satX (eff_rows s bounds w) (flat xs) <-> le3 (vscal s (ev_wpn w xs)) bounds.
Proof.
  intros Hl. unfold satX, eff_rows, wpn_rows. cbn [map combine l3].
  unfold ev_wpn. rewrite ev_blocks_xyz by exact Hl.
  rewrite !Forall_cons_iff. cbn [fst snd]. rewrite !rdot_scal_l, !rdot_blocks by exact Hl.
  unfold le3. cbn [vx vy vz vadd vsub vscal].
  split; [intros (H1 & H2 & H3 & _); repeat split; lra|intros (H1 & H2 & H3)].
  split; [lra|]. split; [lra|]. split; [lra|constructor].
Qed.

Definition deps := filter dependsb.
Definition loop_rows (s : R) (bounds : vec3) (ws : list wpn) : list (list R * R) :=
  concat (map (eff_rows s bounds) (deps ws)).
Lemma eff_rows_len s bounds w : length (eff_rows s bounds w) = 3%nat.
Proof. reflexivity. Qed.
Lemma loop_rows_len s bounds ws : length (loop_rows s bounds ws) = (3 * length (deps ws))%nat.
Proof.
  unfold loop_rows. induction (deps ws) as [|w l IH]; [reflexivity|]. cbn [map concat]. rewrite app_length, IH, eff_rows_len.
  cbn [length]. lia.
Qed.
Lemma deps_cons w ws : deps (w :: ws) = if dependsb w then w :: deps ws else deps ws.
Proof. reflexivity. Qed.

Lemma eff_loop_ok dim s bounds : forall ws pre rest, Forall (fun w => (3 * length (wn_blocks w) = dim)%nat) ws ->
  (3 * length (deps ws) <= length rest)%nat ->
  eff_loop dim s bounds ws (length pre, pre ++ rest)
  = Ok (length (pre ++ loop_rows s bounds ws),
        pre ++ loop_rows s bounds ws ++ skipn (3 * length (deps ws)) rest).
Proof.
  induction ws as [|w ws IH]; intros pre rest HF Hl.
  - cbn [eff_loop]. unfold loop_rows, deps. cbn [filter map concat length app]. rewrite app_nil_r. reflexivity.
  - inversion HF as [|? ? Hw HF'']; clear HF. assert (HF' := HF''). cbn [eff_loop]. rewrite zero_depends.
    unfold loop_rows. rewrite deps_cons in *. destruct (dependsb w); cbn [negb].
    + rewrite Hw, Nat.eqb_refl. cbn [negb fst snd]. cbn [length] in Hl.
      destruct rest as [|r1 [|r2 [|r3 rest]]]; try (cbn in Hl; lia).
      change (r1 :: r2 :: r3 :: rest) with ([r1; r2; r3] ++ rest).
      rewrite (write_at pre [r1; r2; r3] rest (eff_rows s bounds w)) by reflexivity. cbn [bind].
      replace (length pre + 3)%nat with (length (pre ++ eff_rows s bounds w)) by (rewrite app_length, eff_rows_len; reflexivity).
      rewrite app_assoc. rewrite IH by (try assumption; cbn in Hl; lia).
      cbn [map concat]. fold (loop_rows s bounds ws). rewrite <- !app_assoc. do 4 f_equal.
      replace (3 * length (w :: deps ws))%nat with (3 + 3 * length (deps ws))%nat by (cbn [length]; lia). reflexivity.
    + apply IH; assumption.
Qed.

Lemma satX_app a b x : satX (a ++ b) x <-> satX a x /\ satX b x.
Proof. apply Forall_app. Qed.
Lemma loop_rows_sat s bounds ws xs : Forall (fun w => length (wn_blocks w) = length xs) ws ->
  satX (loop_rows s bounds ws) (flat xs) <->
  Forall (fun w => dependsb w = true -> le3 (vscal s (ev_wpn w xs)) bounds) ws.
Proof.
  intros HF. induction HF as [|w ws Hw HF IH].
  - split; constructor.
  - unfold loop_rows. rewrite deps_cons, Forall_cons_iff. destruct (dependsb w).
    + cbn [map concat]. rewrite satX_app, eff_rows_sat by exact Hw. fold (loop_rows s bounds ws). rewrite IH. intuition auto.
    + fold (loop_rows s bounds ws). rewrite IH. intuition congruence.
Qed.

Lemma flat_len xs : length (flat xs) = (3 * length xs)%nat.
Proof. unfold flat. induction xs as [|x xs IH]; [reflexivity|]. cbn [map concat]. rewrite app_length, IH. cbn [length l3]. lia. Qed.
Lemma identity_row_dot n j k v : length v = n -> (j < n)%nat -> rdot (identity_row n j k) v = k * nth j v 0.
Proof.
  intros Hl Hj. pose proof (identity_mul n k v Hl) as H. unfold identity in H. rewrite map_map in H.
  assert (E : nth j (map (fun i => rdot (identity_row n i k) v) (seq 0 n)) 0 = nth j (map (Rmult k) v) 0) by now rewrite H.
  rewrite (nth_indep _ 0 (rdot (identity_row n 0 k) v)) in E by (rewrite map_length, seq_length; exact Hj).
  rewrite (map_nth (fun i => rdot (identity_row n i k) v) (seq 0 n) 0%nat j), seq_nth in E by exact Hj.
  cbn [plus] in E. rewrite E. rewrite (nth_indep _ 0 (k * 0)) by (rewrite map_length; lia). apply map_nth.
Qed.
Lemma flat_nth_z : forall xs i, (i < length xs)%nat -> nth (3 * i + 2) (flat xs) 0 = vz (nth i xs vzero).
Proof.
  induction xs as [|x xs IH]; intros i Hi; [cbn in Hi; lia|].
  destruct i as [|i]; [reflexivity|]. unfold flat. cbn [map concat].
  replace (3 * S i + 2)%nat with (length (l3 x) + (3 * i + 2))%nat by (cbn [length l3]; lia).
  rewrite app_nth2_plus. fold (flat xs). cbn [nth]. apply IH. cbn in Hi. lia.
Qed.

Lemma z_floor_sat pData xs :
  satX (z_floor pData (3 * length xs)) (flat xs) <->
  Forall (fun x => Rmin (vz (c0 pData)) (vz (c1 pData)) <= vz x) xs.
Proof.
  set (m := Rmin _ _). set (n := (3 * length xs)%nat). unfold satX, z_floor. fold m. rewrite Forall_map, !Forall_forall. split.
  - intros H x Hx. destruct (In_nth xs x vzero Hx) as (i & Hi & <-).
    specialize (H (3 * i + 2)%nat). rewrite <- flat_nth_z by exact Hi.
    assert (Hin : In (3 * i + 2)%nat (seq 0 n)) by (apply in_seq; unfold n; lia). specialize (H Hin).
    replace ((3 * i + 2) mod 3)%nat with 2%nat in H by (rewrite Nat.mul_comm, Nat.add_comm, Nat.mod_add by lia; reflexivity).
    cbn [Nat.eqb fst snd] in H. rewrite identity_row_dot in H by (rewrite ?flat_len; unfold n; lia). lra.
  - intros H j Hj. apply in_seq in Hj. destruct (Nat.eqb_spec (j mod 3) 2) as [E|E]; cbn [fst snd].
    + rewrite identity_row_dot by (rewrite ?flat_len; unfold n in *; lia).
      pose proof (Nat.div_mod j 3 ltac:(lia)) as Hd. rewrite E in Hd. rewrite Hd.
      assert (Hq : (j / 3 < length xs)%nat) by (unfold n in Hj; lia).
      rewrite flat_nth_z by exact Hq. specialize (H (nth (j / 3) xs vzero) (nth_In _ _ Hq)). lra.
    + rewrite rdot_repeat0. lra.
Qed.

Definition eff_matrix (pData : problem) (wa wv : list wpn) (ab vb : vec3) (wj : list wpn) (jb : vec3) : list (list R * R) :=
  loop_rows 1 ab wa ++ loop_rows (-1) ab wa ++ loop_rows 1 vb wv ++ loop_rows (-1) vb wv ++
  loop_rows 1 vb wj ++ loop_rows (-1) jb wj ++ z_floor pData (dimVar pData).

Lemma filter_deps ws : filter (fun w => negb (wpn_isZero w)) ws = deps ws.
Proof. unfold deps. apply filter_ext. intros w. rewrite zero_depends. apply negb_involutive. Qed.
Lemma z_floor_len pData n : length (z_floor pData n) = n.
Proof. unfold z_floor. rewrite map_length, seq_length. reflexivity. Qed.

Lemma skipn_repeat {A} (a : A) n m : skipn n (repeat a m) = repeat a (m - n).
Proof. revert n; induction m as [|m IH]; intros [|n]; cbn; try reflexivity. apply IH. Qed.

Lemma constraints_eq pData wa wv ab vb wj jb :
  Forall (fun w => (3 * length (wn_blocks w) = dimVar pData)%nat) (wa ++ wv ++ wj) ->
  computeConstraintsMatrix pData wa wv ab vb wj jb = Ok (eff_matrix pData wa wv ab vb wj jb).
Proof.
  rewrite !Forall_app. intros (Ha & Hv & Hj). unfold computeConstraintsMatrix. rewrite !filter_deps.
  set (dim := dimVar pData) in *. set (z := (repeat 0 dim, 0)).
  set (na := length (deps wa)). set (nv := length (deps wv)). set (nj := length (deps wj)).
  set (N := (2 * 3 * (na + nv + nj) + dim)%nat).
  assert (L : forall s b ws, length (loop_rows s b ws) = (3 * length (deps ws))%nat) by (intros; apply loop_rows_len).
  assert (ST : forall s b ws pre m, Forall (fun w => (3 * length (wn_blocks w) = dim)%nat) ws -> (3 * length (deps ws) <= m)%nat ->
    eff_loop dim s b ws (length pre, pre ++ repeat z m)
    = Ok (length (pre ++ loop_rows s b ws), (pre ++ loop_rows s b ws) ++ repeat z (m - 3 * length (deps ws)))).
  { intros s b ws pre m H1 H2. rewrite eff_loop_ok by (rewrite ?repeat_length; assumption). rewrite skipn_repeat, app_assoc. reflexivity. }
  change (0%nat, repeat z N) with (length (@nil (list R * R)), [] ++ repeat z N).
  do 6 (rewrite ST by (try assumption; unfold N, na, nv, nj; lia); cbn [bind]). cbn [fst snd]. fold na nv nj.
  replace (N - 3 * na - 3 * na - 3 * nv - 3 * nv - 3 * nj - 3 * nj)%nat with dim by (unfold N; lia).
  rewrite <- (app_nil_r (repeat z dim)).
  rewrite write_at by (rewrite repeat_length, z_floor_len; reflexivity).
  unfold eff_matrix. rewrite app_nil_r, <- !app_assoc. reflexivity.
Qed.

Lemma le3_bounded lo up xs w : 
  bounded lo up xs w <-> (dependsb w = true -> le3 (vscal 1 (ev_wpn w xs)) up) /\ (dependsb w = true -> le3 (vscal (-1) (ev_wpn w xs)) (vopp lo)).
Proof.
  unfold bounded, le3. cbn [vx vy vz vscal vopp]. split.
  - intros H; split; intros D; specialize (H D); decompose [and] H; repeat split; lra.
  - intros [H1 H2] D. specialize (H1 D). specialize (H2 D). decompose [and] H1. decompose [and] H2. repeat split; lra.
Qed.
Lemma vopp_vopp v : vopp (vopp v) = v.
Proof. destruct v as [a b c]. unfold vopp. cbn. f_equal; ring. Qed.

(** * C34 *)
Lemma c34_exact pData wa wv ab vb wj jb :
  Forall (fun w => (3 * length (wn_blocks w) = dimVar pData)%nat) (wa ++ wv ++ wj) ->
  exists M, computeConstraintsMatrix pData wa wv ab vb wj jb = Ok M /\
    length M = (6 * length (filter dependsb (wa ++ wv ++ wj)) + dimVar pData)%nat /\
    Forall (fun r => length (fst r) = dimVar pData) M /\
    forall xs, (3 * length xs = dimVar pData)%nat ->
      (satX M (flat xs) <->
       Forall (bounded (vopp ab) ab xs) wa /\ Forall (bounded (vopp vb) vb xs) wv /\
       Forall (bounded (vopp jb) vb xs) wj /\
       Forall (fun x => Rmin (vz (c0 pData)) (vz (c1 pData)) <= vz x) xs).
Proof.
  intros HF. rewrite constraints_eq by exact HF. eexists; split; [reflexivity|].
  assert (HF' := HF). rewrite !Forall_app in HF'. destruct HF' as (Ha & Hv & Hj).
  split.
  { unfold eff_matrix. rewrite !app_length, !loop_rows_len, z_floor_len. unfold deps. rewrite !filter_app, !app_length. lia. }
  split.
  { assert (HR : forall s b ws, Forall (fun w => (3 * length (wn_blocks w) = dimVar pData)%nat) ws ->
      Forall (fun r : list R * R => length (fst r) = dimVar pData) (loop_rows s b ws)).
    { intros s b ws H. unfold loop_rows, deps. induction H as [|w ws Hw H IH]; [constructor|].
      cbn [filter]. destruct (dependsb w); [|exact IH]. cbn [map concat]. rewrite Forall_app. split; [|exact IH].
      unfold eff_rows, wpn_rows. cbn [map combine l3].
      assert (HL : forall f : mat3 -> vec3, length (concat (map (fun m => l3 (f m)) (wn_blocks w))) = dimVar pData).
      { intros f. rewrite <- Hw. clear. induction (wn_blocks w) as [|m l IH]; [reflexivity|]. cbn [map concat]. rewrite app_length, IH. cbn. lia. }
      repeat constructor; cbn [fst]; rewrite map_length; apply HL. }
    unfold eff_matrix. rewrite !Forall_app. repeat split; try (apply HR; assumption).
    unfold z_floor. rewrite Forall_map, Forall_forall. intros j _.
    destruct (Nat.eqb _ _); cbn [fst]; [unfold identity_row; rewrite map_length, seq_length|rewrite repeat_length]; reflexivity. }
  intros xs Hx.
  assert (HB : forall ws, Forall (fun w => (3 * length (wn_blocks w) = dimVar pData)%nat) ws -> Forall (fun w => length (wn_blocks w) = length xs) ws).
  { intros ws H. eapply Forall_impl; [|exact H]. cbn beta. intros; lia. }
  unfold eff_matrix. rewrite !satX_app. rewrite !loop_rows_sat by (apply HB; assumption). rewrite <- Hx, z_floor_sat.
  assert (HQ : forall lo up ws, Forall (bounded (vopp lo) up xs) ws <->
     Forall (fun w => dependsb w = true -> le3 (vscal 1 (ev_wpn w xs)) up) ws /\
     Forall (fun w => dependsb w = true -> le3 (vscal (-1) (ev_wpn w xs)) lo) ws).
  { intros lo up ws. rewrite !Forall_forall. setoid_rewrite le3_bounded. rewrite vopp_vopp.
    split; [intros H; split; intros w Hw; apply (H w Hw)|intros [H1 H2] w Hw; split; [apply H1|apply H2]; exact Hw]. }
  rewrite !HQ. tauto.
Qed.
