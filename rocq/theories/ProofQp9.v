(** QP solver: an execution that never ends, executions that leave the arrays, wrong answers. *)
From Coq Require Import Lia Lra Psatz List FunctionalExtensionality.
From Verif Require Import Vec SpecBezier ModelData ModelSolver ModelQp SpecQp ProofBezier ProofQp ProofQp2 ProofQp3 ProofQp4 ProofQp5 ProofQp6 ProofQp7 ProofQp8.
Import ListNotations.
Open Scope R_scope.

Lemma scale_big c : 1 <= eps52 * c -> 1 < c.
Proof. intros H. pose proof eps_pos. pose proof eps_small. nra. Qed.

Lemma violation_ge q x i : (i < e_I q)%nat -> - slack q x i <= violation q x.
Proof.
  intros Hi. unfold violation. apply Rle_trans with (Rmax 0 (- slack q x i)); [apply Rmax_r|].
  assert (S1 : sumf (e_I q) (fun j => if Nat.eqb j i then Rmax 0 (- slack q x i) else 0) = Rmax 0 (- slack q x i)).
  { rewrite (sumf_one (e_I q) _ i Hi); [now rewrite Nat.eqb_refl|]. intros j _ Hne. now rewrite (proj2 (Nat.eqb_neq _ _) Hne). }
  rewrite <- S1. apply sumf_le. intros j _. cbv beta. destruct (Nat.eqb_spec j i) as [->|]; [lra|apply Rmax_l].
Qed.
Lemma L1_far q st iai i : (S (q_iter st) < e_max q)%nat -> mark q (q_A st) (e_E q) (q_iq st - e_E q) (q_iai st) = Ok iai ->
  (i < e_I q)%nat -> q_tol st < - slack q (q_x st) i ->
  step_L1 q st = Ok (Next L2 (Qst (q_x st) (q_u st) (q_A st) (q_iq st) (q_R st) (q_J st) (q_Rn st) (q_f st) (S (q_iter st)) (slack q (q_x st)) 0 0
    iai (fun _ => true) (q_x st) (fun i => if (i <? q_iq st)%nat then q_u st i else q_uo st i)
    (fun i => if (i <? q_iq st)%nat then q_A st i else q_Ao st i) (q_tol st))).
Proof.
  intros Hi Hm Hl Ht. unfold step_L1. cbv zeta. destruct (Nat.leb_spec (e_max q) (S (q_iter st))) as [|_]; [lia|]. rewrite Hm. cbn [bind].
  match goal with |- context [sumf (e_I q) ?f] => change f with (fun i => Rmin 0 (slack q (q_x st) i)) end.
  rewrite psi_violation. pose proof (violation_ge q (q_x st) i Hl).
  destruct (Rle_dec (violation q (q_x st)) (q_tol st)) as [|_]; [lra|]. reflexivity.
Qed.

(** * x0 >= 1 written c x0 >= c, x1 >= 1, and a constraint that always holds *)
Section Loop.
  Variable c : R.
  Hypothesis Hc : 1 <= eps52 * c.
  Let q := eqp_of (two [] [] [[c; 0]; [0; 1]; [0; 0]] [- c; -1; 1]).

  (** at l2a, for ever *)
  Record stuck (st : qst) : Prop := Stuck {
    s_J : mirror (q_J st); s_iq : q_iq st = 1%nat; s_R : q_R st 0%nat 0%nat = c; s_Rn : q_Rn st = c;
    s_0 : q_s st 0%nat = 0; s_1 : q_s st 1%nat = -1; s_2 : q_s st 2%nat = 1; s_ss : q_ss st = -1; s_ip : q_ip st = 1%nat;
    s_A : q_A st 0%nat = 0%Z; s_A1 : q_A st 1%nat = 1%Z; s_Ao : q_Ao st 0%nat = 0%Z }.
  Lemma worst_stuck st : q_s st 0%nat = 0 -> q_s st 1%nat = -1 -> q_s st 2%nat = 1 -> worst 3 0 st (-1) 1 = (-1, 1%nat).
  Proof. intros S0 S1 S2. cbn [worst]. rewrite S0, S1, S2. destruct (Rlt_dec 0 (-1)), (Rlt_dec (-1) (-1)), (Rlt_dec 1 (-1)); try lra. reflexivity. Qed.
  Lemma stuck_again st : stuck st -> exists st1 st2, step q L2a st = Ok (Next L2 st1) /\ step q L2 st1 = Ok (Next L2a st2) /\ stuck st2.
  Proof.
    intros [SJ Siq SR SRn S0 S1 S2 Sss Sip SA SA1 SAo].
    destruct (reject q c st) as (R' & f & u & A & HR & E); try assumption; try (rewrite Sip; reflexivity); try reflexivity; try (cbn; lia); try (rewrite Sip; assumption).
    cbn [step]. rewrite E. cbn [restore]. rewrite SAo. cbn [Z.leb Z.compare andb]. change (0 <? Z.of_nat (e_I q))%Z with true. cbn [bind].
    eexists _, _. split; [reflexivity|]. split.
    - unfold step_L2. qst_cbn. change (e_I q) with 3%nat. rewrite Sip, Sss. rewrite worst_stuck by assumption.
        destruct (Rle_dec 0 (-1)) as [|_]; [lra|]. change (3 + e_E q <=? 1)%nat with false. reflexivity.
    - constructor; qst_cbn; try assumption; try reflexivity.
  Qed.

  Lemma loop_start mem : exists st, execution q mem 5 = Ok (Next L2a st) /\ stuck st.
  Proof.
    pose proof eps_pos as EP. pose proof eps_small as ES. pose proof (scale_big c Hc) as C1.
    destruct (two_init [] [] [[c; 0]; [0; 1]; [0; 0]] [- c; -1; 1] mem) as (x & J & f & HJ & X0 & X1 & EI). fold q in EI.
    unfold execution. rewrite EI. cbn [length add_equalities]. change 5%nat with (1 + (1 + (1 + (1 + 1))))%nat. rewrite !steps_add, steps_one. cbn [step].
    (* l1 *)
    assert (V0 : slack q x 0 = - c) by (unfold slack, dot; change (e_n q) with 2%nat; cbn [sumf]; rewrite X0, X1; change (e_ci q 0%nat) with (- c); ring).
    assert (V1 : slack q x 1 = -1) by (unfold slack, dot; change (e_n q) with 2%nat; cbn [sumf]; rewrite X0, X1; change (e_ci q 1%nat) with (-1); ring).
    assert (V2 : slack q x 2 = 1) by (unfold slack, dot; change (e_n q) with 2%nat; cbn [sumf]; rewrite X0, X1; change (e_ci q 2%nat) with 1; ring).
    cbn [length] in *. set (tol := INR 3 * eps52 * 2 * 2 * 100). assert (Ht : tol < 1) by (unfold tol; cbn [INR]; lra).
    rewrite (L1_far q _ (fun i => Z.of_nat i) 1); qst_cbn; [|change (e_max q) with 1000%nat; lia|reflexivity|change (e_I q) with 3%nat; lia|lra].
    rewrite steps_one. cbn [step].
    (* l2 *)
    unfold step_L2. qst_cbn. change (e_I q) with 3%nat. cbn [worst]. qst_cbn. rewrite V0, V1, V2.
    destruct (Rlt_dec (- c) 0) as [_|]; [|lra]. cbn [Z.of_nat Z.eqb negb andb].
    destruct (Rlt_dec (-1) (- c)) as [|_]; [lra|]. destruct (Rlt_dec 1 (- c)) as [|_]; [lra|].
    destruct (Rle_dec 0 (- c)) as [|_]; [lra|]. change (3 + e_E q <=? 0)%nat with false. cbv iota. rewrite steps_one. cbn [step].
    (* l2a *)
    unfold step_L2a. qst_cbn. cbv zeta. change (e_n q) with 2%nat. cbn [Nat.leb Nat.sub dual_step]. rewrite V0.
    set (np := e_CI q 0%nat). set (d := compute_d 2 J np). set (z := update_z 2 J d 0).
    destruct HJ as (J1 & J2 & J3 & J4).
    assert (D0 : d 0%nat = c) by (unfold d, compute_d; cbn [sumf]; rewrite J1, J3; change (np 0%nat) with c; change (np 1%nat) with 0; ring).
    assert (D1 : d 1%nat = 0) by (unfold d, compute_d; cbn [sumf]; rewrite J2, J4; change (np 0%nat) with c; change (np 1%nat) with 0; ring).
    assert (Z0 : z 0%nat = c) by (unfold z, update_z; cbn [Nat.sub sumf Nat.add]; rewrite D0, D1, J1, J2; ring).
    assert (Z1 : z 1%nat = 0) by (unfold z, update_z; cbn [Nat.sub sumf Nat.add]; rewrite D0, D1, J3, J4; ring).
    assert (ZZ : dot 2 z z = c * c) by (unfold dot; cbn [sumf]; rewrite Z0, Z1; ring).
    assert (ZN : dot 2 z np = c * c) by (unfold dot; cbn [sumf]; rewrite Z0, Z1; change (np 0%nat) with c; change (np 1%nat) with 0; ring).
    rewrite ZZ, ZN, (Rabs_pos_eq (c * c)) by nra. destruct (Rlt_dec eps52 (c * c)) as [_|]; [|nra]. destruct (Req_EM_T _ _) as [_|]; [|contradiction].
    destruct (add_first c np J (fun _ _ => 0) Hc) as (R' & J' & EA & HJ' & HR'); try reflexivity; [unfold unit2; auto|]. fold d in EA. rewrite EA. cbn [bind].
    rewrite steps_one. cbn [step].
    (* l1 *)
    match goal with |- context [Qst ?y] => set (x' := y) end.
    assert (Y0 : x' 0%nat = 1) by (unfold x'; rewrite X0, Z0; field; lra).
    assert (Y1 : x' 1%nat = 0) by (unfold x'; rewrite X1, Z1; field; lra).
    assert (W0 : slack q x' 0 = 0) by (unfold slack, dot; change (e_n q) with 2%nat; cbn [sumf]; rewrite Y0, Y1; change (e_ci q 0%nat) with (- c); change (e_CI q 0%nat 0%nat) with c; change (e_CI q 0%nat 1%nat) with 0; ring).
    assert (W1 : slack q x' 1 = -1) by (unfold slack, dot; change (e_n q) with 2%nat; cbn [sumf]; rewrite Y0, Y1; change (e_ci q 1%nat) with (-1); change (e_CI q 1%nat 0%nat) with 0; change (e_CI q 1%nat 1%nat) with 1; ring).
    assert (W2 : slack q x' 2 = 1) by (unfold slack, dot; change (e_n q) with 2%nat; cbn [sumf]; rewrite Y0, Y1; change (e_ci q 2%nat) with 1; change (e_CI q 2%nat 0%nat) with 0; change (e_CI q 2%nat 1%nat) with 0; ring).
    set (ia := setv (setv (fun i => Z.of_nat i) 0 (-1)%Z) 0 (-1)%Z).
    rewrite (L1_far q _ ia 1); qst_cbn; [|change (e_max q) with 1000%nat; lia|reflexivity|change (e_I q) with 3%nat; lia|lra].
    rewrite steps_one. cbn [step].
    (* l2 *)
    unfold step_L2. qst_cbn. change (e_I q) with 3%nat. cbn [worst]. qst_cbn. rewrite W0, W1, W2.
    destruct (Rlt_dec 0 0) as [|_]; [lra|]. destruct (Rlt_dec (-1) 0) as [_|]; [|lra]. change (ia 1%nat) with 1%Z.
    cbn [Z.of_nat Z.eqb negb andb].
    destruct (Rlt_dec 1 (-1)) as [|_]; [lra|]. destruct (Rle_dec 0 (-1)) as [|_]; [lra|]. change (3 + e_E q <=? 1)%nat with false. cbv iota.
    eexists. split; [reflexivity|]. constructor; qst_cbn; try assumption; try reflexivity.
  Qed.

  Lemma loop_run : forall k st, stuck st -> exists p st', steps q k (Ok (Next L2a st)) = Ok (Next p st').
  Proof.
    assert (P : forall k st, stuck st -> (exists p st', steps q k (Ok (Next L2a st)) = Ok (Next p st')) /\ (exists p st', steps q (S k) (Ok (Next L2a st)) = Ok (Next p st'))).
    { induction k as [|k IH]; intros st H; destruct (stuck_again st H) as (st1 & st2 & E1 & E2 & H2).
      - split; [exists L2a, st; reflexivity|]. exists L2, st1. exact E1.
      - split; [apply (proj2 (IH st H))|]. cbn [steps]. rewrite E1. cbn [steps]. rewrite E2. apply (IH st2 H2). }
    intros k st H. apply (P k st H).
  Qed.
  Lemma loop_forever mem k : exists p st, execution q mem k = Ok (Next p st).
  Proof.
    destruct (loop_start mem) as (st & E & H). unfold execution in *. destruct (Nat.le_gt_cases 5 k) as [Hk|Hk].
    - replace k with (5 + (k - 5))%nat by lia. rewrite steps_add, E. apply loop_run. exact H.
    - destruct (steps q k (solve_init q mem)) as [[p s|s s']| |] eqn:EK; [exists p, s; reflexivity|exfalso..].
      all: replace 5%nat with (k + (5 - k))%nat in E by lia; rewrite steps_add, EK in E; destruct (5 - k)%nat; discriminate.
  Qed.
  Lemma loop_feasible : feasible q (fun _ => 1).
  Proof.
    split; intros i Hi; cbn in Hi; [lia|]. unfold slack, dot. change (e_n q) with 2%nat. cbn [sumf].
    destruct i as [|[|[|i]]]; [| | |lia]; unfold q, two; qp_cbn; unfold mat_of, vec_of; cbn [nth]; lra.
  Qed.
End Loop.

(** * c x0 = c, x1 >= 1, and a constraint that always holds: out of the arrays *)
Section Out.
  Variable c : R.
  Hypothesis Hc : 1 <= eps52 * c.
  Let q := eqp_of (two [[c; 0]] [- c] [[0; 1]; [0; 0]] [-1; 1]).

  Lemma out_both mem : exists st, execution q mem 2 = Ok (Next L2a st) /\ step_L2a q st = UB.
  Proof.
    pose proof eps_pos as EP. pose proof eps_small as ES. pose proof (scale_big c Hc) as C1.
    destruct (two_init [[c; 0]] [- c] [[0; 1]; [0; 0]] [-1; 1] mem) as (x & J & f & HJ & X0 & X1 & EI). fold q in EI.
    unfold execution. rewrite EI. clear EI. change (length [- c]) with 1%nat. cbn [add_equalities]. rewrite (steps_add q 1 1 : forall o, steps q 2 o = _).
    qst_cbn. cbv zeta. change (e_n q) with 2%nat. change (2 <? 0)%nat with false. cbv iota.
    set (np := e_CE q 0%nat). set (d := compute_d 2 J np). set (z := update_z 2 J d 0).
    pose proof HJ as (J1 & J2 & J3 & J4).
    assert (D0 : d 0%nat = c) by (unfold d, compute_d; cbn [sumf]; rewrite J1, J3; change (np 0%nat) with c; change (np 1%nat) with 0; ring).
    assert (D1 : d 1%nat = 0) by (unfold d, compute_d; cbn [sumf]; rewrite J2, J4; change (np 0%nat) with c; change (np 1%nat) with 0; ring).
    assert (Z0 : z 0%nat = c) by (unfold z, update_z; cbn [Nat.sub sumf Nat.add]; rewrite D0, D1, J1, J2; ring).
    assert (Z1 : z 1%nat = 0) by (unfold z, update_z; cbn [Nat.sub sumf Nat.add]; rewrite D0, D1, J3, J4; ring).
    assert (ZZ : dot 2 z z = c * c) by (unfold dot; cbn [sumf]; rewrite Z0, Z1; ring).
    assert (ZN : dot 2 z np = c * c) by (unfold dot; cbn [sumf]; rewrite Z0, Z1; change (np 0%nat) with c; change (np 1%nat) with 0; ring).
    assert (NX : dot 2 np x = 0) by (unfold dot; cbn [sumf]; rewrite X0, X1; ring).
    rewrite ZZ, ZN, NX, (Rabs_pos_eq (c * c)) by nra. destruct (Rlt_dec eps52 (c * c)) as [_|]; [|nra].
    destruct (add_first c np J (fun _ _ => 0) Hc) as (R' & J' & EA & HJ' & HR'); try reflexivity; [exact HJ|]. fold d in EA. rewrite EA. cbn [bind].
    change (e_ce q 0%nat) with (- c).
    rewrite steps_one. cbn [step].
    (* l1 *)
    match goal with |- context [Qst ?y] => set (x' := y) end.
    assert (Y0 : x' 0%nat = 1) by (unfold x'; rewrite X0, Z0; field; lra).
    assert (Y1 : x' 1%nat = 0) by (unfold x'; rewrite X1, Z1; field; lra).
    assert (W0 : slack q x' 0 = -1) by (unfold slack, dot; change (e_n q) with 2%nat; cbn [sumf]; rewrite Y0, Y1; change (e_ci q 0%nat) with (-1); change (e_CI q 0%nat 0%nat) with 0; change (e_CI q 0%nat 1%nat) with 1; ring).
    assert (W1 : slack q x' 1 = 1) by (unfold slack, dot; change (e_n q) with 2%nat; cbn [sumf]; rewrite Y0, Y1; change (e_ci q 1%nat) with 1; change (e_CI q 1%nat 0%nat) with 0; change (e_CI q 1%nat 1%nat) with 0; ring).
    rewrite (L1_far q _ (fun i => Z.of_nat i) 0); qst_cbn; [|change (e_max q) with 1000%nat; lia|reflexivity|change (e_I q) with 2%nat; lia|cbn [length INR]; lra].
    rewrite steps_one. cbn [step].
    (* l2 *)
    unfold step_L2. qst_cbn. change (e_I q) with 2%nat. cbn [worst]. qst_cbn. rewrite W0, W1.
    destruct (Rlt_dec (-1) 0) as [_|]; [|lra]. cbn [Z.of_nat Z.eqb negb andb]. destruct (Rlt_dec 1 (-1)) as [|_]; [lra|].
    destruct (Rle_dec 0 (-1)) as [|_]; [lra|]. change (2 + e_E q <=? 1)%nat with false. cbv iota. eexists. split; [reflexivity|].
    (* l2a *)
    match goal with |- step_L2a q ?s = _ => destruct (reject q c s) as (R2 & f2 & u2 & A2 & _ & E) end; qst_cbn; try assumption; try reflexivity; try (cbn; lia).
  Qed.
  Lemma out_reach mem : exists st, execution q mem 2 = Ok (Next L2a st).
  Proof. destruct (out_both mem) as (st & E & _). exists st. exact E. Qed.
  Lemma out_ub mem : execution q mem 3 = UB.
  Proof.
    destruct (out_both mem) as (st & E & F). unfold execution in *. change 3%nat with (2 + 1)%nat. rewrite steps_add, E, steps_one. exact F.
  Qed.
  Lemma out_feasible : feasible q (fun _ => 1).
  Proof.
    split; intros i Hi; cbn in Hi.
    - destruct i; [|lia]. unfold eq_gap, dot. change (e_n q) with 2%nat. cbn [sumf]. unfold q, two; qp_cbn; unfold mat_of, vec_of; cbn [nth]. lra.
    - unfold slack, dot. change (e_n q) with 2%nat. cbn [sumf].
      destruct i as [|[|i]]; [| |lia]; unfold q, two; qp_cbn; unfold mat_of, vec_of; cbn [nth]; lra.
  Qed.
End Out.

(** * One variable, a large Hessian *)
Section One.
  Variables (k : R) (CE : list (list R)) (ce : list R) (CI : list (list R)) (ci : list R).
  Hypothesis Hk : 0 < k.
  Let q := eqp_of (one (k * k) CE ce CI ci).
  Lemma one_convex : convex q.
  Proof.
    split.
    - intros i j Hi Hj. cbn in Hi, Hj. assert (i = 0%nat) as -> by lia. assert (j = 0%nat) as -> by lia. reflexivity.
    - intros v (i & Hi & Hv). cbn in Hi. assert (i = 0%nat) as -> by lia. unfold hmul, dot, q, one. qp_cbn. cbn [sumf]. unfold mat_of. cbn [nth].
      pose proof (Rsqr_pos_lt _ Hv) as P. unfold Rsqr in P.
      assert (0 < k * k * (v 0%nat * v 0%nat)) by (apply Rmult_lt_0_compat; [apply Rmult_lt_0_compat; exact Hk|exact P]). lra.
  Qed.
  Lemma one_init mem : exists x J f, J 0%nat 0%nat = / k /\ x 0%nat = 0 /\
    solve_init q mem = add_equalities q (length ce) 0
      (Qst x (q_u mem) (q_A mem) 0 (fun _ _ => 0) J 1 f 0 (q_s mem) (q_ss mem) (q_ip mem)
         (fun i => Z.of_nat i) (q_ex mem) (q_xo mem) (q_uo mem) (q_Ao mem) (INR (length ci) * eps52 * k * 100)).
  Proof.
    destruct (chol_succeeds (e_n q) (e_H q) (proj1 one_convex)) as (L & EL).
    { intros v Hv. apply (proj2 one_convex v Hv). }
    destruct (chol_ok _ _ _ (proj1 one_convex) EL) as (D & T & M). change (e_n q) with 1%nat in *.
    pose proof (M 0%nat 0%nat ltac:(lia) ltac:(lia)) as M00. change (e_H q 0%nat 0%nat) with (k * k) in M00. cbn [sumf] in M00.
    pose proof (D 0%nat ltac:(lia)) as D0. assert (L00 : L 0%nat 0%nat = k) by nra.
    set (J := inv_upper 1 L). assert (HJ : J 0%nat 0%nat = / k) by (unfold J; rewrite inv_diag by (assumption || lia); now rewrite L00).
    assert (HX : sumf 1 (fun j => e_H q 0%nat j * chol_solve 1 L (e_g q) j) = e_g q 0%nat) by (apply chol_solve_ok; try assumption; lia).
    cbn [sumf] in HX. change (e_H q 0%nat 0%nat) with (k * k) in HX. change (e_g q 0%nat) with 0 in HX.
    exists (fun i => - chol_solve 1 L (e_g q) i), J, (1 / 2 * dot 1 (e_g q) (fun i => - chol_solve 1 L (e_g q) i)).
    split; [exact HJ|]. split; [assert (0 < k * k) by nra; nra|]. unfold solve_init. change (e_n q) with 1%nat. rewrite EL. cbn [bind]. change (e_E q) with (length ce).
    f_equal. change (e_I q) with (length ci). f_equal. unfold trace. cbn [sumf]. fold J. rewrite HJ. change (e_H q 0%nat 0%nat) with (k * k). field. lra.
  Qed.
End One.
Section Large.
  Variable k : R.
  Hypothesis K1 : 1 <= eps52 * (k * k * (k * k)).
  Hypothesis K2 : 100 * eps52 * k < 1.
  Hypothesis K0 : 0 < k.
  Lemma large_step J np : J 0%nat 0%nat = / k -> np 0%nat = 1 ->
    compute_d 1 J np 0%nat = / k /\ dot 1 (update_z 1 J (compute_d 1 J np) 0) (update_z 1 J (compute_d 1 J np) 0) <= eps52 /\
    0 <= dot 1 (update_z 1 J (compute_d 1 J np) 0) (update_z 1 J (compute_d 1 J np) 0).
  Proof.
    intros HJ HN. assert (D0 : compute_d 1 J np 0%nat = / k) by (unfold compute_d; cbn [sumf]; rewrite HJ, HN; ring). split; [exact D0|].
    unfold dot, update_z. cbn [sumf Nat.sub Nat.add]. rewrite D0, HJ.
    replace (0 + (0 + / k * / k) * (0 + / k * / k)) with (/ (k * k * (k * k))) by (field; lra).
    assert (0 < k * k * (k * k)) by (repeat apply Rmult_lt_0_compat; exact K0).
    split; [|left; apply Rinv_0_lt_compat; assumption]. apply Rmult_le_reg_r with (k * k * (k * k)); [assumption|]. rewrite Rinv_l by lra. exact K1.
  Qed.
  Lemma k_scale : eps52 < / k.
  Proof. pose proof eps_pos. apply Rmult_lt_reg_r with k; [exact K0|]. rewrite Rinv_l by lra. nra. Qed.

  (** the equality x = 1 is ignored *)
  Lemma large_eq mem : let q := eqp_of (one (k * k) [[1]] [-1] [] []) in
    exists st, execution q mem 1 = Ok (Done st_OPTIMAL st) /\ q_x st 0%nat = 0.
  Proof.
    intros q. pose proof eps_pos as EP. pose proof k_scale as KS.
    destruct (one_init k [[1]] [-1] [] [] K0 mem) as (x & J & f & HJ & X0 & EI). fold q in EI.
    unfold execution. rewrite EI. clear EI. change (length [-1]) with 1%nat. cbn [add_equalities]. qst_cbn. cbv zeta. change (e_n q) with 1%nat. change (1 <? 0)%nat with false. cbv iota.
    set (np := e_CE q 0%nat). destruct (large_step J np HJ eq_refl) as (D0 & ZZ & ZP). set (d := compute_d 1 J np) in *. set (z := update_z 1 J d 0) in *.
    rewrite (Rabs_pos_eq (dot 1 z z)) by exact ZP. destruct (Rlt_dec eps52 (dot 1 z z)) as [|_]; [lra|].
    unfold add_constraint. cbn [Nat.leb Nat.sub add_loop]. rewrite D0, (Rabs_pos_eq (/ k)) by lra. destruct (Rle_dec (/ k) (eps52 * 1)) as [|_]; [lra|]. cbn [bind].
    rewrite steps_one. cbn [step]. unfold step_L1. qst_cbn. change (e_max q <=? 1)%nat with false. cbv iota. change (e_E q) with 1%nat. cbn [Nat.sub mark bind].
    cbv zeta. change (e_I q) with 0%nat. cbn [sumf]. rewrite Rabs_R0. cbn [length INR]. destruct (Rle_dec 0 (0 * eps52 * k * 100)) as [_|H]; [|lra].
    eexists. split; [reflexivity|]. qst_cbn. rewrite X0. ring.
  Qed.
  (** x >= 1 is reported to have no solution *)
  Lemma large_ineq mem : let q := eqp_of (one (k * k) [] [] [[1]] [-1]) in
    exists st, execution q mem 3 = Ok (Done st_UNBOUNDED st).
  Proof.
    intros q. pose proof eps_pos as EP. pose proof k_scale as KS.
    destruct (one_init k [] [] [[1]] [-1] K0 mem) as (x & J & f & HJ & X0 & EI). fold q in EI.
    unfold execution. rewrite EI. clear EI. cbn [length add_equalities]. change 3%nat with (1 + (1 + 1))%nat. rewrite !steps_add, steps_one. cbn [step].
    assert (V0 : slack q x 0 = -1) by (unfold slack, dot; change (e_n q) with 1%nat; cbn [sumf]; rewrite X0; change (e_ci q 0%nat) with (-1); ring).
    rewrite (L1_far q _ (fun i => Z.of_nat i) 0); qst_cbn; [|change (e_max q) with 1000%nat; lia|reflexivity|change (e_I q) with 1%nat; lia|cbn [length INR]; lra].
    rewrite steps_one. cbn [step]. unfold step_L2. qst_cbn. change (e_I q) with 1%nat. cbn [worst]. qst_cbn. rewrite V0.
    destruct (Rlt_dec (-1) 0) as [_|]; [|lra]. cbn [Z.of_nat Z.eqb negb andb]. destruct (Rle_dec 0 (-1)) as [|_]; [lra|].
    change (1 + e_E q <=? 0)%nat with false. cbv iota. rewrite steps_one. cbn [step].
    unfold step_L2a. qst_cbn. cbv zeta. change (e_n q) with 1%nat. cbn [Nat.leb Nat.sub dual_step].
    set (np := e_CI q 0%nat). destruct (large_step J np HJ eq_refl) as (D0 & ZZ & ZP). set (d := compute_d 1 J np) in *. set (z := update_z 1 J d 0) in *.
    rewrite (Rabs_pos_eq (dot 1 z z)) by exact ZP. destruct (Rlt_dec eps52 (dot 1 z z)) as [|_]; [lra|]. eexists. reflexivity.
  Qed.
End Large.
