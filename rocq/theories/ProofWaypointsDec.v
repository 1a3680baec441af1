(** Wrench waypoints of the two CoM flags whose formulas use decimals.
    The tables list, for every waypoint, the coefficients of the control
    points, of the cross products of pairs of control points, and of the
    products g x p: once as written in the code, once as exact fractions. *)
From Verif Require Import Vec SpecBezier ModelData ModelWaypoints ModelWaypointsJerk ModelDispatch
  SpecCom ProofBezier ProofCurve ProofWaypoints ProofWaypoints2 ProofWaypoints3.
Open Scope R_scope.

Definition row : Type := (list R * list R * list R)%type.

Fixpoint lc (cs : list R) (us : list vec3) : vec3 :=
  match cs, us with
  | c :: cs', u :: us' => vadd (vscal c u) (lc cs' us')
  | _, _ => vzero
  end.

Fixpoint crosses (P : list vec3) : list vec3 :=
  match P with
  | [] => []
  | p :: P' => map (vcross p) P' ++ crosses P'
  end.

Definition row_val (T : R) (g : vec3) (P : list vec3) (r : row) : v6 :=
  let '(C, D, E) := r in
  (vscal (1 / (T * T)) (lc C P),
   vadd (vscal (1 / (T * T)) (lc D (crosses P))) (lc E (map (vcross g) P))).

Fixpoint l1 (cs ds : list R) : R :=
  match cs, ds with
  | c :: cs', d :: ds' => Rabs (c - d) + l1 cs' ds'
  | _, _ => 0
  end.

Definition row_close (r r' : row) : Prop :=
  let '(C, D, E) := r in let '(C', D', E') := r' in
  length C = length C' /\ length D = length D' /\ length E = length E' /\
  l1 C C' <= e13 /\ l1 D D' <= 1.1 * e13 /\ l1 E E' <= 1.5 * e15.

Ltac row_simp := cbn [map crosses app lc fst snd].
Ltac row_goal HT :=
  unfold ev_w6, row_val; row_simp; apply f_equal2;
  apply v3_eq; wsimp; unfold vdot; wsimp; field; exact HT.

Lemma Rabs_pos_eq' a : 0 <= a -> Rabs a = a. Proof. apply Rabs_pos_eq. Qed.
Ltac rabs_one := match goal with |- context [Rabs ?a] =>
  first [ rewrite (Rabs_pos_eq a) by lra | rewrite (Rabs_left1 a) by lra ] end.
Ltac close_goal :=
  cbn [row_close l1 length]; unfold e13, e15; repeat split; repeat rabs_one; lra.

Definition tab_d5_dec : list row :=
  [
    ([20; -(40); 20; 0; 0; 0],
     [-(40); 20; 0; 0; 0; 0; 0; 0; 0; 0; 0; 0; 0; 0; 0],
     [1; 0; 0; 0; 0; 0]);
    ([57142857142857/5000000000000; -(142857142857143/10000000000000); -(142857142857143/25000000000000); 857142857142857/100000000000000; 0; 0],
     [0; -(20); 857142857142857/100000000000000; 0; 0; 142857142857143/10000000000000; 0; 0; 0; 0; 0; 0; 0; 0; 0],
     [142857142857143/500000000000000; 357142857142857/500000000000000; 0; 0; 0; 0]);
    ([571428571428571/100000000000000; 0; -(142857142857143/10000000000000); 571428571428571/100000000000000; 142857142857143/50000000000000; 0],
     [0; 0; -(857142857142857/100000000000000); 142857142857143/50000000000000; 0; -(142857142857143/10000000000000); 142857142857143/10000000000000; 0; 0; 0; 0; 0; 0; 0; 0],
     [476190476190479/10000000000000000; 119047619047619/250000000000000; 119047619047619/250000000000000; 0; 0; 0]);
    ([228571428571429/100000000000000; 571428571428571/100000000000000; -(57142857142857/5000000000000); -(142857142857143/50000000000000); 571428571428571/100000000000000; 571428571428571/1000000000000000],
     [0; 0; 0; -(142857142857143/50000000000000); 571428571428571/1000000000000000; 0; -(142857142857143/10000000000000); 857142857142857/100000000000000; 0; 57142857142857/5000000000000; 0; 0; 0; 0; 0],
     [0; 142857142857143/1000000000000000; 571428571428571/1000000000000000; 142857142857143/500000000000000; 0; 0]);
    ([571428571428571/1000000000000000; 571428571428571/100000000000000; -(142857142857143/50000000000000); -(57142857142857/5000000000000); 571428571428571/100000000000000; 228571428571429/100000000000000],
     [0; 0; 0; 0; -(142857142857143/250000000000000); 0; 0; -(857142857142857/100000000000000); 142857142857143/50000000000000; -(57142857142857/5000000000000); 142857142857143/10000000000000; 0; 0; 0; 0],
     [0; 0; 142857142857143/500000000000000; 571428571428571/1000000000000000; 142857142857143/1000000000000000; 0]);
    ([0; 142857142857143/50000000000000; 571428571428571/100000000000000; -(142857142857143/10000000000000); 0; 571428571428571/100000000000000],
     [0; 0; 0; 0; 0; 0; 0; 0; -(142857142857143/50000000000000); 0; -(142857142857143/10000000000000); 857142857142857/100000000000000; 142857142857143/10000000000000; 0; 0],
     [0; 0; 0; 119047619047619/250000000000000; 119047619047619/250000000000000; 119047619047619/2500000000000000]);
    ([0; 0; 857142857142857/100000000000000; -(142857142857143/25000000000000); -(142857142857143/10000000000000); 57142857142857/5000000000000],
     [0; 0; 0; 0; 0; 0; 0; 0; 0; 0; 0; -(428571428571429/50000000000000); -(142857142857143/10000000000000); 20; 0],
     [0; 0; 0; 0; 357142857142857/500000000000000; 142857142857143/500000000000000]);
    ([0; 0; 0; 20; -(40); 20],
     [0; 0; 0; 0; 0; 0; 0; 0; 0; 0; 0; 0; 0; -(20); 40],
     [0; 0; 0; 0; 0; 1]) ].

Definition tab_d5_ex : list row :=
  [
    ([20; -(40); 20; 0; 0; 0],
     [-(40); 20; 0; 0; 0; 0; 0; 0; 0; 0; 0; 0; 0; 0; 0],
     [1; 0; 0; 0; 0; 0]);
    ([80/7; -(100/7); -(40/7); 60/7; 0; 0],
     [0; -(20); 60/7; 0; 0; 100/7; 0; 0; 0; 0; 0; 0; 0; 0; 0],
     [2/7; 5/7; 0; 0; 0; 0]);
    ([40/7; 0; -(100/7); 40/7; 20/7; 0],
     [0; 0; -(60/7); 20/7; 0; -(100/7); 100/7; 0; 0; 0; 0; 0; 0; 0; 0],
     [1/21; 10/21; 10/21; 0; 0; 0]);
    ([16/7; 40/7; -(80/7); -(20/7); 40/7; 4/7],
     [0; 0; 0; -(20/7); 4/7; 0; -(100/7); 60/7; 0; 80/7; 0; 0; 0; 0; 0],
     [0; 1/7; 4/7; 2/7; 0; 0]);
    ([4/7; 40/7; -(20/7); -(80/7); 40/7; 16/7],
     [0; 0; 0; 0; -(4/7); 0; 0; -(60/7); 20/7; -(80/7); 100/7; 0; 0; 0; 0],
     [0; 0; 2/7; 4/7; 1/7; 0]);
    ([0; 20/7; 40/7; -(100/7); 0; 40/7],
     [0; 0; 0; 0; 0; 0; 0; 0; -(20/7); 0; -(100/7); 60/7; 100/7; 0; 0],
     [0; 0; 0; 10/21; 10/21; 1/21]);
    ([0; 0; 60/7; -(40/7); -(100/7); 80/7],
     [0; 0; 0; 0; 0; 0; 0; 0; 0; 0; 0; -(60/7); -(100/7); 20; 0],
     [0; 0; 0; 0; 5/7; 2/7]);
    ([0; 0; 0; 20; -(40); 20],
     [0; 0; 0; 0; 0; 0; 0; 0; 0; 0; 0; 0; 0; -(20); 40],
     [0; 0; 0; 0; 0; 1]) ].

Lemma d5_rows pData T x pi p0 p1 p2 p3 p4 p5 g : T <> 0 -> flag_of pData = F_acc_dc1_c1 ->
  c0_dc0_ddc0_dc1_c1_computeConstantWaypoints pData T = Ok pi -> pi = [p0;p1;p2;p3;p4;p5] ->
  front_gravity pData = Ok g ->
  exists ws, computeWwaypoints pData T = Ok ws /\
    map (fun w => ev_w6 w x) ws = map (row_val T g [p0;p1;p2;x;p4;p5]) tab_d5_dec.
Proof.
  intros HT E Hc -> Hg. unfold computeWwaypoints. rewrite E.
  cbn -[c0_dc0_ddc0_dc1_c1_computeWwaypoints]. unfold c0_dc0_ddc0_dc1_c1_computeWwaypoints.
  rewrite Hc, Hg. cbn [bind get nth_error map].
  eexists; split; [reflexivity|]. unfold tab_d5_dec. cbn [map].
  repeat (apply f_equal2; [row_goal HT|]); reflexivity.
Qed.

Lemma d5_exact T x p0 p1 p2 p4 p5 g t : T <> 0 ->
  curve6 (map (row_val T g [p0;p1;p2;x;p4;p5]) tab_d5_ex) T t
  = wrench g (curve [p0;p1;p2;x;p4;p5] T t) (curve (hodo_n 2 T [p0;p1;p2;x;p4;p5]) T t).
Proof.
  intros HT. unfold curve6, wrench, tab_d5_ex, row_val. row_simp. f_equal;
  hodo_vals; unfold curve;
  generalize (t / T); intros s;
  bez_norm; apply v3_eq; wsimp; unfold vdot; wsimp; field; exact HT.
Qed.

Lemma d5_close : Forall2 row_close tab_d5_dec tab_d5_ex.
Proof. unfold tab_d5_dec, tab_d5_ex. repeat (apply Forall2_cons; [close_goal|]); apply Forall2_nil. Qed.

Definition tab_d6_dec : list row :=
  [
    ([30; -(60); 30; 0; 0; 0; 0],
     [-(60); 30; 0; 0; 0; 0; 0; 0; 0; 0; 0; 0; 0; 0; 0; 0; 0; 0; 0; 0; 0],
     [1; 0; 0; 0; 0; 0; 0]);
    ([166666666666667/10000000000000; -(20); -(10); 133333333333333/10000000000000; 0; 0; 0],
     [0; -(30); 133333333333333/10000000000000; 0; 0; 0; 20; 0; 0; 0; 0; 0; 0; 0; 0; 0; 0; 0; 0; 0; 0],
     [333333333333333/1000000000000000; 666666666666667/1000000000000000; 0; 0; 0; 0; 0]);
    ([833333333333333/100000000000000; 0; -(20); 666666666666667/100000000000000; 5; 0; 0],
     [0; 0; -(133333333333333/10000000000000); 5; 0; 0; -(20); 20; 0; 0; 0; 0; 0; 0; 0; 0; 0; 0; 0; 0; 0],
     [416666666666667/5000000000000000; 1/2; 416666666666667/1000000000000000; 0; 0; 0; 0]);
    ([357142857142857/100000000000000; 357142857142857/50000000000000; -(142857142857143/10000000000000); -(142857142857143/25000000000000); 392857142857143/50000000000000; 142857142857143/100000000000000; 0],
     [0; 0; 0; -(5); 142857142857143/100000000000000; 0; 0; -(20); 128571428571429/10000000000000; 0; 0; 142857142857143/10000000000000; 0; 0; 0; 0; 0; 0; 0; 0; 0],
     [119047619047619/10000000000000000; 107142857142857/500000000000000; 267857142857143/500000000000000; 119047619047619/500000000000000; 0; 0; 0]);
    ([119047619047619/100000000000000; 357142857142857/50000000000000; -(357142857142857/100000000000000); -(142857142857143/10000000000000); 5; 428571428571429/100000000000000; 119047619047619/500000000000000],
     [0; 0; 0; 0; -(142857142857143/100000000000000); 119047619047619/500000000000000; 0; 0; -(128571428571429/10000000000000); 571428571428571/100000000000000; 0; -(142857142857143/10000000000000); 178571428571429/10000000000000; 0; 0; 0; 0; 0; 0; 0; 0],
     [0; 476190476190471/10000000000000000; 357142857142857/1000000000000000; 119047619047619/250000000000000; 119047619047619/1000000000000000; 0; 0]);
    ([119047619047619/500000000000000; 428571428571429/100000000000000; 5; -(142857142857143/10000000000000); -(357142857142857/100000000000000); 357142857142857/50000000000000; 119047619047619/100000000000000],
     [0; 0; 0; 0; 0; -(119047619047619/500000000000000); 0; 0; 0; -(142857142857143/25000000000000); 142857142857143/100000000000000; 0; -(178571428571429/10000000000000); 128571428571429/10000000000000; 0; 142857142857143/10000000000000; 0; 0; 0; 0; 0],
     [0; 0; 5952380952381/50000000000000; 119047619047619/250000000000000; 357142857142857/1000000000000000; 119047619047619/2500000000000000; 0]);
    ([0; 142857142857143/100000000000000; 392857142857143/50000000000000; -(571428571428571/100000000000000); -(142857142857143/10000000000000); 142857142857143/20000000000000; 357142857142857/100000000000000],
     [0; 0; 0; 0; 0; 0; 0; 0; 0; 0; -(142857142857143/100000000000000); 0; 0; -(128571428571429/10000000000000); 5; -(142857142857143/10000000000000); 20; 0; 0; 0; 0],
     [0; 0; 0; 119047619047619/500000000000000; 267857142857143/500000000000000; 107142857142857/500000000000000; 119047619047619/10000000000000000]);
    ([0; 0; 5; 666666666666667/100000000000000; -(20); 0; 833333333333333/100000000000000],
     [0; 0; 0; 0; 0; 0; 0; 0; 0; 0; 0; 0; 0; 0; -(5); 0; -(20); 133333333333333/10000000000000; 20; 0; 0],
     [0; 0; 0; 0; 416666666666667/1000000000000000; 1/2; 833333333333333/10000000000000000]);
    ([0; 0; 0; 133333333333333/10000000000000; -(999999999999999/100000000000000); -(20); 166666666666667/10000000000000],
     [0; 0; 0; 0; 0; 0; 0; 0; 0; 0; 0; 0; 0; 0; 0; 0; 0; -(133333333333333/10000000000000); -(20); 30; 0],
     [0; 0; 0; 0; 0; 666666666666667/1000000000000000; 333333333333333/1000000000000000]);
    ([0; 0; 0; 0; 30; -(60); 30],
     [0; 0; 0; 0; 0; 0; 0; 0; 0; 0; 0; 0; 0; 0; 0; 0; 0; 0; 0; -(30); 60],
     [0; 0; 0; 0; 0; 0; 1]) ].

Definition tab_d6_ex : list row :=
  [
    ([30; -(60); 30; 0; 0; 0; 0],
     [-(60); 30; 0; 0; 0; 0; 0; 0; 0; 0; 0; 0; 0; 0; 0; 0; 0; 0; 0; 0; 0],
     [1; 0; 0; 0; 0; 0; 0]);
    ([50/3; -(20); -(10); 40/3; 0; 0; 0],
     [0; -(30); 40/3; 0; 0; 0; 20; 0; 0; 0; 0; 0; 0; 0; 0; 0; 0; 0; 0; 0; 0],
     [1/3; 2/3; 0; 0; 0; 0; 0]);
    ([25/3; 0; -(20); 20/3; 5; 0; 0],
     [0; 0; -(40/3); 5; 0; 0; -(20); 20; 0; 0; 0; 0; 0; 0; 0; 0; 0; 0; 0; 0; 0],
     [1/12; 1/2; 5/12; 0; 0; 0; 0]);
    ([25/7; 50/7; -(100/7); -(40/7); 55/7; 10/7; 0],
     [0; 0; 0; -(5); 10/7; 0; 0; -(20); 90/7; 0; 0; 100/7; 0; 0; 0; 0; 0; 0; 0; 0; 0],
     [1/84; 3/14; 15/28; 5/21; 0; 0; 0]);
    ([25/21; 50/7; -(25/7); -(100/7); 5; 30/7; 5/21],
     [0; 0; 0; 0; -(10/7); 5/21; 0; 0; -(90/7); 40/7; 0; -(100/7); 125/7; 0; 0; 0; 0; 0; 0; 0; 0],
     [0; 1/21; 5/14; 10/21; 5/42; 0; 0]);
    ([5/21; 30/7; 5; -(100/7); -(25/7); 50/7; 25/21],
     [0; 0; 0; 0; 0; -(5/21); 0; 0; 0; -(40/7); 10/7; 0; -(125/7); 90/7; 0; 100/7; 0; 0; 0; 0; 0],
     [0; 0; 5/42; 10/21; 5/14; 1/21; 0]);
    ([0; 10/7; 55/7; -(40/7); -(100/7); 50/7; 25/7],
     [0; 0; 0; 0; 0; 0; 0; 0; 0; 0; -(10/7); 0; 0; -(90/7); 5; -(100/7); 20; 0; 0; 0; 0],
     [0; 0; 0; 5/21; 15/28; 3/14; 1/84]);
    ([0; 0; 5; 20/3; -(20); 0; 25/3],
     [0; 0; 0; 0; 0; 0; 0; 0; 0; 0; 0; 0; 0; 0; -(5); 0; -(20); 40/3; 20; 0; 0],
     [0; 0; 0; 0; 5/12; 1/2; 1/12]);
    ([0; 0; 0; 40/3; -(10); -(20); 50/3],
     [0; 0; 0; 0; 0; 0; 0; 0; 0; 0; 0; 0; 0; 0; 0; 0; 0; -(40/3); -(20); 30; 0],
     [0; 0; 0; 0; 0; 2/3; 1/3]);
    ([0; 0; 0; 0; 30; -(60); 30],
     [0; 0; 0; 0; 0; 0; 0; 0; 0; 0; 0; 0; 0; 0; 0; 0; 0; 0; 0; -(30); 60],
     [0; 0; 0; 0; 0; 0; 1]) ].

Lemma d6_rows pData T x pi p0 p1 p2 p3 p4 p5 p6 g : T <> 0 -> flag_of pData = F_acc_all ->
  c0_dc0_ddc0_ddc1_dc1_c1_computeConstantWaypoints pData T = Ok pi -> pi = [p0;p1;p2;p3;p4;p5;p6] ->
  front_gravity pData = Ok g ->
  exists ws, computeWwaypoints pData T = Ok ws /\
    map (fun w => ev_w6 w x) ws = map (row_val T g [p0;p1;p2;x;p4;p5;p6]) tab_d6_dec.
Proof.
  intros HT E Hc -> Hg. unfold computeWwaypoints. rewrite E.
  cbn -[c0_dc0_ddc0_ddc1_dc1_c1_computeWwaypoints]. unfold c0_dc0_ddc0_ddc1_dc1_c1_computeWwaypoints.
  rewrite Hc, Hg. cbn [bind get nth_error map].
  eexists; split; [reflexivity|]. unfold tab_d6_dec. cbn [map].
  repeat (apply f_equal2; [row_goal HT|]); reflexivity.
Qed.

Lemma d6_exact T x p0 p1 p2 p4 p5 p6 g t : T <> 0 ->
  curve6 (map (row_val T g [p0;p1;p2;x;p4;p5;p6]) tab_d6_ex) T t
  = wrench g (curve [p0;p1;p2;x;p4;p5;p6] T t) (curve (hodo_n 2 T [p0;p1;p2;x;p4;p5;p6]) T t).
Proof.
  intros HT. unfold curve6, wrench, tab_d6_ex, row_val. row_simp. f_equal;
  hodo_vals; unfold curve;
  generalize (t / T); intros s;
  bez_norm; apply v3_eq; wsimp; unfold vdot; wsimp; field; exact HT.
Qed.

Lemma d6_close : Forall2 row_close tab_d6_dec tab_d6_ex.
Proof. unfold tab_d6_dec, tab_d6_ex. repeat (apply Forall2_cons; [close_goal|]); apply Forall2_nil. Qed.

