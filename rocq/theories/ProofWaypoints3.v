(** Wrench waypoints of the five exact CoM flags. *)
From Verif Require Import Vec SpecBezier ModelData ModelWaypoints ModelWaypointsJerk ModelDispatch
  SpecCom ProofBezier ProofCurve ProofWaypoints ProofWaypoints2.
Open Scope R_scope.

Ltac wsimp := cbn [vx vy vz vadd vsub vopp vscal vdivs vzero fst snd vcross vdot mvmul
  madd msub mopp mscal mdivs mzero mid skew row0 row1 row2 w_top w_bot w_head w_tail map].

Ltac wrench_goal HT :=
  unfold curve6, wrench, ev_w6; wsimp; f_equal;
  hodo_vals; unfold curve;
  match goal with |- context [bez3 _ (?t / ?T)] => generalize (t / T); intros s end;
  bez_norm; apply v3_eq; wsimp; unfold vdot; wsimp; field; exact HT.

Lemma w_c1 pData T x pi a b c d g t : T <> 0 -> flag_of pData = F_c1 ->
  c0_dc0_c1_computeConstantWaypoints pData T = Ok pi -> pi = [a;b;c;d] ->
  front_gravity pData = Ok g ->
  exists ws, computeWwaypoints pData T = Ok ws /\
    curve6 (map (fun w => ev_w6 w x) ws) T t
    = wrench g (curve [a;b;x;d] T t) (curve (hodo_n 2 T [a;b;x;d]) T t).
Proof.
  intros HT E Hc -> Hg. unfold computeWwaypoints. rewrite E.
  cbn -[c0_dc0_c1_computeWwaypoints curve6]. unfold c0_dc0_c1_computeWwaypoints.
  rewrite Hc, Hg. cbn [bind get nth_error map].
  eexists; split; [reflexivity|]. wrench_goal HT.
Qed.

Lemma w_capture pData T x pi a b c d g t : T <> 0 -> flag_of pData = F_capture ->
  c0_dc0_dc1_computeConstantWaypoints pData T = Ok pi -> pi = [a;b;c;d] ->
  front_gravity pData = Ok g ->
  exists ws, computeWwaypoints pData T = Ok ws /\
    curve6 (map (fun w => ev_w6 w x) ws) T t
    = wrench g (curve [a;b;x;x] T t) (curve (hodo_n 2 T [a;b;x;x]) T t).
Proof.
  intros HT E Hc -> Hg. unfold computeWwaypoints. rewrite E.
  cbn -[c0_dc0_dc1_computeWwaypoints curve6]. unfold c0_dc0_dc1_computeWwaypoints.
  rewrite Hc, Hg. cbn [bind get nth_error map].
  eexists; split; [reflexivity|]. wrench_goal HT.
Qed.

Lemma w_dc1_c1 pData T x pi a b c d e g t : T <> 0 -> flag_of pData = F_dc1_c1 ->
  c0_dc0_dc1_c1_computeConstantWaypoints pData T = Ok pi -> pi = [a;b;c;d;e] ->
  front_gravity pData = Ok g ->
  exists ws, computeWwaypoints pData T = Ok ws /\
    curve6 (map (fun w => ev_w6 w x) ws) T t
    = wrench g (curve [a;b;x;d;e] T t) (curve (hodo_n 2 T [a;b;x;d;e]) T t).
Proof.
  intros HT E Hc -> Hg. unfold computeWwaypoints. rewrite E.
  cbn -[c0_dc0_dc1_c1_computeWwaypoints curve6]. unfold c0_dc0_dc1_c1_computeWwaypoints.
  rewrite Hc, Hg. cbn [bind get nth_error map].
  eexists; split; [reflexivity|]. wrench_goal HT.
Qed.

Lemma w_acc pData T x pi a b c d g t : T <> 0 -> flag_of pData = F_acc ->
  c0_dc0_ddc0_computeConstantWaypoints pData T = Ok pi -> pi = [a;b;c;d] ->
  front_gravity pData = Ok g ->
  exists ws, computeWwaypoints pData T = Ok ws /\
    curve6 (map (fun w => ev_w6 w x) ws) T t
    = wrench g (curve [a;b;c;x] T t) (curve (hodo_n 2 T [a;b;c;x]) T t).
Proof.
  intros HT E Hc -> Hg. unfold computeWwaypoints. rewrite E.
  cbn -[c0_dc0_ddc0_computeWwaypoints curve6]. unfold c0_dc0_ddc0_computeWwaypoints.
  rewrite Hc, Hg. cbn [bind get nth_error map].
  eexists; split; [reflexivity|]. wrench_goal HT.
Qed.

Lemma w_acc_c1 pData T x pi a b c d e g t : T <> 0 -> flag_of pData = F_acc_c1 ->
  c0_dc0_ddc0_c1_computeConstantWaypoints pData T = Ok pi -> pi = [a;b;c;d;e] ->
  front_gravity pData = Ok g ->
  exists ws, computeWwaypoints pData T = Ok ws /\
    curve6 (map (fun w => ev_w6 w x) ws) T t
    = wrench g (curve [a;b;c;x;e] T t) (curve (hodo_n 2 T [a;b;c;x;e]) T t).
Proof.
  intros HT E Hc -> Hg. unfold computeWwaypoints. rewrite E.
  cbn -[c0_dc0_ddc0_c1_computeWwaypoints curve6]. unfold c0_dc0_ddc0_c1_computeWwaypoints.
  rewrite Hc, Hg. cbn [bind get nth_error map].
  eexists; split; [reflexivity|]. wrench_goal HT.
Qed.
