(** /repo/src/utils.cpp: time discretisation, waypoint arithmetic; and the
    external Bernstein polynomials. *)
From Verif Require Import Vec ModelData.
Open Scope R_scope.

(** definitions.hh:59, T_time.  The phase index is an [int]: Z (overflow not
    modelled). *)
Definition T_time : Type := list (R * Z).

(** [phaseTimings.sum()] *)
Fixpoint sumR (l : list R) : R := match l with [] => 0 | a :: l' => a + sumR l' end.

(** utils.cpp:81-98, computeDiscretizedTimeFixed.  Inner loop, lines 89-92:
    [j] iterations left, current time [t]; returns the new time and array.
    The division by pointsPerPhase = 0 is an infinity that is never used;
    here it is an unused real. *)
Fixpoint fixed_inner (j : nat) (step : R) (i : Z) (t : R) (arr : T_time) : R * T_time :=
  match j with
  | O => (t, arr)
  | S j' => fixed_inner j' step i (t + step) (arr ++ [(t + step, i)])
  end.
(** outer loop, lines 87-93 *)
Fixpoint fixed_outer (Ts : list R) (p : nat) (i : Z) (t : R) (arr : T_time) : T_time :=
  match Ts with
  | [] => arr
  | d :: Ts' =>
      let step := d / INR p in
      let '(t', arr') := fixed_inner p step i t arr in
      fixed_outer Ts' p (i + 1)%Z t' arr'
  end.
Definition computeDiscretizedTimeFixed (Ts : list R) (p : nat) : T_time :=
  let t_total := sumR Ts in
  let arr := fixed_outer Ts p 0%Z 0 [(0, 0%Z)] in
  removelast arr ++ [(t_total, (Z.of_nat (length Ts) - 1)%Z)].

(** utils.cpp:100-118, computeDiscretizedTime.  The [while] loop of lines
    111-114 with an iteration budget; running out of it is [None], never a
    normal-looking value. *)
Fixpoint while_push (fuel : nat) (t stop dt : R) (i : Z) (arr : T_time) : option T_time :=
  match fuel with
  | O => None
  | S f => if Rlt_dec t stop then while_push f (t + dt) stop dt i (arr ++ [(t, i)])
           else Some arr
  end.
Fixpoint step_outer (fuel : nat) (Ts : list R) (dt : R) (i : Z) (current : R) (arr : T_time)
  : option T_time :=
  match Ts with
  | [] => Some arr
  | d :: Ts' =>
      match while_push fuel current (current + d) dt i arr with
      | None => None
      | Some arr' => step_outer fuel Ts' dt (i + 1)%Z (current + d) (arr' ++ [(current + d, i)])
      end
  end.
Definition computeDiscretizedTime_fuel (fuel : nat) (Ts : list R) (dt : R) : option T_time :=
  step_outer fuel Ts dt 0%Z 0 [].

(** A budget that is enough whenever the loops terminate (see
    ProofTime.v): one more than the number of steps in the longest phase.
    Not terminating is [UB] here. *)
Fixpoint maxR (l : list R) : R := match l with [] => 0 | a :: l' => Rmax a (maxR l') end.
Definition enough (Ts : list R) (dt : R) : nat := S (Z.to_nat (up (maxR Ts / dt))).
Definition computeDiscretizedTime (Ts : list R) (dt : R) : outcome T_time :=
  match computeDiscretizedTime_fuel (enough Ts dt) Ts dt with Some a => Ok a | None => UB end.

(** ndcurves::Bern (external): [operator()(u)] of the polynomial (m,i) throws
    unless 0 <= u <= 1, else returns C(m,i) u^i (1-u)^(m-i).
    utils.cpp:73-79, ComputeBersteinPolynoms builds i = 0..degree. *)
Fixpoint choose (n k : nat) {struct n} : nat :=
  match n, k with
  | _, O => 1%nat
  | O, S _ => 0%nat
  | S n', S k' => (choose n' k' + choose n' (S k'))%nat
  end.
Definition bern_eval (m i : nat) (u : R) : outcome R :=
  if Rle_dec 0 u then if Rle_dec u 1 then Ok (INR (choose m i) * u ^ i * (1 - u) ^ (m - i))
                      else Throw
  else Throw.

(** Arithmetic of 6x3 waypoints: utils.cpp:16-36 for waypoint_t of size 6x3
    (sizes always agree here; the size test is in ModelWaypointT below), and
    the [+=], [b * ...] of Eigen. *)
Definition w6_add (a b : wp6) : wp6 :=
  W6 (madd (w_top a) (w_top b)) (madd (w_bot a) (w_bot b))
     (vadd (w_head a) (w_head b)) (vadd (w_tail a) (w_tail b)).
Definition w6_scal (k : R) (a : wp6) : wp6 :=
  W6 (mscal k (w_top a)) (mscal k (w_bot a)) (vscal k (w_head a)) (vscal k (w_tail a)).
Definition w6_zero : wp6 := W6 mzero mzero vzero vzero.

(** 3x3 waypoints (waypoint_t with 3 columns, 3 rows). *)
Record wp3 : Set := W3 { w3_mat : mat3; w3_pt : vec3 }.
Definition w3_add (a b : wp3) : wp3 := W3 (madd (w3_mat a) (w3_mat b)) (vadd (w3_pt a) (w3_pt b)).
Definition w3_sub (a b : wp3) : wp3 := W3 (msub (w3_mat a) (w3_mat b)) (vsub (w3_pt a) (w3_pt b)).
Definition w3_scal (k : R) (a : wp3) : wp3 := W3 (mscal k (w3_mat a)) (vscal k (w3_pt a)).

(** utils.hh:25-47, utils.cpp:9-36: waypoint_t with matrices of any size,
    row-major lists of rows with an explicit number of columns. *)
Record waypoint_t := WT { wt_mat : list (list R); wt_cols : nat; wt_vec : list R }.
Definition map2 {A B C} (f : A -> B -> C) : list A -> list B -> list C :=
  fix go (l : list A) (l' : list B) : list C :=
    match l, l' with a :: m, b :: m' => f a b :: go m m' | _, _ => [] end.
Definition initwp (rows cols : nat) : waypoint_t :=
  WT (repeat (repeat 0 cols) rows) cols (repeat 0 rows).
Definition same_size (w1 w2 : waypoint_t) : bool :=
  (Nat.eqb (length (wt_vec w1)) (length (wt_vec w2))
   && Nat.eqb (length (wt_mat w1)) (length (wt_mat w2))
   && Nat.eqb (wt_cols w1) (wt_cols w2))%bool.
(** utils.cpp:16-21 *)
Definition wt_add (w1 w2 : waypoint_t) : outcome waypoint_t :=
  if same_size w1 w2 then
    Ok (WT (map2 (map2 Rplus) (wt_mat w1) (wt_mat w2)) (wt_cols w1) (map2 Rplus (wt_vec w1) (wt_vec w2)))
  else Throw.
(** utils.cpp:23-28 *)
Definition wt_sub (w1 w2 : waypoint_t) : outcome waypoint_t :=
  if same_size w1 w2 then
    Ok (WT (map2 (map2 Rminus) (wt_mat w1) (wt_mat w2)) (wt_cols w1) (map2 Rminus (wt_vec w1) (wt_vec w2)))
  else Throw.
(** utils.cpp:30-36 *)
Definition wt_scal (k : R) (w : waypoint_t) : waypoint_t :=
  WT (map (map (Rmult k)) (wt_mat w)) (wt_cols w) (map (Rmult k) (wt_vec w)).
