(** The same for solve0step. *)
From Verif Require Import Vec SpecBezier ModelData ModelDispatch ModelUtils ModelSolver ModelTraj Model0Step ModelCont
  SpecCom ProofBezier ProofCurve ProofWaypoints.
Open Scope R_scope.

Lemma c112_zero wg quadprog glpk pData Ts dt r :
  solve0step wg quadprog glpk pData Ts dt = Ok r -> r0_success r = true -> exists T Ts' x rest,
  let f := cv_fun (r0_c r) in
  Ts = T :: Ts' /\ 0 < T /\ r0_x r = l3 x ++ rest /\ bc_T (r0_c r) = T /\
  f 0 = c0 pData /\ is_deriv_n 1 f 0 (dc0 pData) /\ f T = x /\ is_deriv_n 1 f T vzero.
Proof.
  intros H S. unfold solve0step in H.
  destruct (get (contacts pData) 0) as [c| |]; cbn [bind] in H; try discriminate H.
  destruct Ts as [|T Ts']; cbn [get nth_error bind] in H; try discriminate H.
  destruct (compute6dControlPointInequalities _ _ _ _ _ _ _) as [Ab| |]; cbn [bind] in H; try discriminate H.
  destruct (z_cost _ _ _) as [Hg| |]; cbn [bind] in H; try discriminate H.
  destruct (solve_noeq _ _ _ _ _ _ _ _ _) as [res| |]; cbn [bind] in H; try discriminate H.
  destruct (rd_success res); [|injection H as <-; discriminate S].
  destruct (computeRealCost _ _) as [k| |]; cbn [bind] in H; try discriminate H.
  destruct (z_C_of_T pData T (rd_x res)) as [cv| |] eqn:E; cbn [bind] in H; try discriminate H.
  destruct (z_dL_of_T _ _ _) as [dL| |]; cbn [bind] in H; try discriminate H. injection H as <-. cbn [r0_x r0_c r0_success].
  unfold z_C_of_T in E. destruct (rd_x res) as [|a [|b [|c' rest]]]; cbn [head3 bind] in E; try discriminate E.
  unfold mk_bezier in E. destruct (Rle_dec T 0); [discriminate E|]. injection E as <-.
  assert (HT : 0 < T) by lra. assert (HT0 : T <> 0) by lra.
  exists T, Ts', (V3 a b c'), rest. cbv zeta. unfold cv_fun. cbn [bc_pts bc_T]. split; [reflexivity|]. split; [exact HT|]. split; [reflexivity|]. split; [reflexivity|].
  split; [rewrite curve_at_0; reflexivity|].
  split; [apply is_deriv_n_at_0; hodo_vals; vec_field|].
  split; [rewrite curve_at_T by assumption; reflexivity|].
  apply is_deriv_n_at_T; [assumption|]. hodo_vals; vec_field.
Qed.
