(** Model of the dual active-set QP solver, src/eiquadprog-fast.cpp and
    include/hpp/bezier-com-traj/solver/eiquadprog-fast.hpp (dense version, with
    the default macros: no warm start; the OPTIMIZE variants compute the same
    values).  Eigen vectors and matrices are functions of their indices; an index
    outside the size Eigen gave the object is [UB].  Exact arithmetic. *)
From Verif Require Import Vec SpecBezier ModelData ModelSolver.
Open Scope R_scope.

Definition rvec := nat -> R.
Definition rmat := nat -> nat -> R.
Definition setv {X} (f : nat -> X) (i : nat) (v : X) : nat -> X := fun j => if Nat.eqb j i then v else f j.
Definition dot (n : nat) (a b : rvec) : R := sumf n (fun i => a i * b i).
Definition trace (n : nat) (M : rmat) : R := sumf n (fun i => M i i).
(** std::numeric_limits<double>::epsilon() *)
Definition eps52 : R := / 2 ^ 52.

(** The arguments of solve_quadprog as functions, with their sizes: nVars,
    nEqCon, nIneqCon; and the limit m_maxIter on the iterations, a member of the
    solver (eiquadprog-fast.hpp:60 and 95-101). *)
Record eqp := EQP { e_n : nat; e_E : nat; e_I : nat; e_H : rmat; e_g : rvec;
  e_CE : rmat; e_ce : rvec; e_CI : rmat; e_ci : rvec; e_max : nat }.
Definition DEFAULT_MAX_ITER : nat := 1000.
Definition vec_of (l : list R) : rvec := fun i => nth i l 0.
Definition mat_of (l : list (list R)) : rmat := fun i j => nth j (nth i l []) 0.
Definition list_of (n : nat) (f : rvec) : list R := map f (seq 0 n).
Definition eqp_of (q : qp) : eqp :=
  EQP (length (qp_g q)) (length (qp_ce0 q)) (length (qp_ci0 q)) (mat_of (qp_H q)) (vec_of (qp_g q))
    (mat_of (qp_CE q)) (vec_of (qp_ce0 q)) (mat_of (qp_CI q)) (vec_of (qp_ci0 q)) DEFAULT_MAX_ITER.

(** lines 25-38, distance *)
Definition distance (a b : R) : R :=
  let a1 := Rabs a in let b1 := Rabs b in
  if Rlt_dec b1 a1 then let t := b1 / a1 in a1 * sqrt (1 + t * t)
  else if Rlt_dec a1 b1 then let t := a1 / b1 in b1 * sqrt (1 + t * t)
  else a1 * sqrt 2.

(** line 271, Eigen's LLT of the lower triangle: the factor L, column by column.  A matrix
    that is not positive definite leaves an unspecified factor (the code does not
    look at info()): [UB]. *)
Fixpoint chol (n : nat) (H : rmat) : outcome rmat :=
  match n with
  | O => Ok (fun _ _ => 0)
  | S n' =>
      if Rlt_dec 0 (H 0%nat 0%nat) then
        let h := sqrt (H 0%nat 0%nat) in
        L <- chol n' (fun i j => H (S i) (S j) - (H (S i) 0%nat / h) * (H (S j) 0%nat / h)) ;;
        Ok (fun i j => match i, j with
              | O, O => h
              | O, S _ => 0
              | S i', O => H (S i') 0%nat / h
              | S i', S j' => L i' j'
              end)
      else UB
  end.
(** Eigen's triangular solves: [backsub U q q d] solves with the upper triangle of
    the leading q x q block, [fwdsub L q d] with the lower one. *)
Fixpoint backsub (U : rmat) (q cnt : nat) (r : rvec) : rvec :=
  match cnt with
  | O => r
  | S k => backsub U q k (setv r k ((r k - sumf (q - S k) (fun i => U k (S k + i)%nat * r (S k + i)%nat)) / U k k))
  end.
Fixpoint fwdsub (L : rmat) (cnt : nat) (y : rvec) : rvec :=
  match cnt with
  | O => y
  | S k => let y' := fwdsub L k y in setv y' k ((y' k - sumf k (fun j => L k j * y' j)) / L k k)
  end.
(** lines 285-289, chol_.matrixU().solve(Identity), and 314, chol_.solve(g) *)
Definition upper (L : rmat) : rmat := fun i j => L j i.
Definition unit_vec (c : nat) : rvec := fun i => if Nat.eqb i c then 1 else 0.
Definition inv_upper (n : nat) (L : rmat) : rmat := fun i c => backsub (upper L) n n (unit_vec c) i.
Definition chol_solve (n : nat) (L : rmat) (g : rvec) : rvec := backsub (upper L) n n (fwdsub L n g).

(** eiquadprog-fast.hpp:224-246, compute_d, update_z, update_r *)
Definition compute_d (n : nat) (J : rmat) (np : rvec) : rvec := fun c => sumf n (fun i => J i c * np i).
Definition update_z (n : nat) (J : rmat) (d : rvec) (iq : nat) : rvec :=
  fun i => sumf (n - iq) (fun c => J i (iq + c)%nat * d (iq + c)%nat).
Definition update_r (Rm : rmat) (d : rvec) (iq : nat) : rvec := backsub Rm iq iq d.

(** The Givens rotation for a pair (a, b) of norm [distance a b] not zero: cc,
    ss and what replaces [a] (lines 102-115 and 191-205) ... *)
Definition givens (a b : R) : R * R * R :=
  let h := distance a b in
  if Rlt_dec (a / h) 0 then (- (a / h), - (b / h), - h) else (a / h, b / h, h).
(** ... and its action on a pair (lines 127-132 and 206-217). *)
Definition rot1 (cc ss t1 t2 : R) : R := t1 * cc + t2 * ss.
Definition rot2 (cc ss t1 t2 : R) : R := ss / (1 + cc) * (t1 + rot1 cc ss t1 t2) - t2.
(** on the columns [a] and [b] of [J] *)
Definition rot_cols (cc ss : R) (a b : nat) (J : rmat) : rmat :=
  fun k c => if Nat.eqb c a then rot1 cc ss (J k a) (J k b)
             else if Nat.eqb c b then rot2 cc ss (J k a) (J k b) else J k c.

(** lines 94-134, the loop of add_constraint: j = iq + cnt, ..., iq + 1 *)
Fixpoint add_loop (iq cnt : nat) (d : rvec) (J : rmat) : rvec * rmat :=
  match cnt with
  | O => (d, J)
  | S c =>
      let j := (iq + cnt)%nat in let j1 := (iq + c)%nat in
      if Req_EM_T (distance (d j1) (d j)) 0 then add_loop iq c d J else
      let '(cc, ss, v) := givens (d j1) (d j) in
      add_loop iq c (setv (setv d j 0) j1 v) (rot_cols cc ss j1 j J)
  end.
(** lines 77-150, add_constraint; column iq of R must exist.  The result is
    false when the problem is degenerate. *)
Definition add_constraint (n : nat) (Rm J : rmat) (d : rvec) (iq : nat) (Rn : R)
  : outcome (bool * rmat * rmat * nat * R) :=
  if (n <=? iq)%nat then UB else
  let '(d', J') := add_loop iq (n - S iq) d J in
  let R' := fun i k => if Nat.eqb k iq then (if (i <=? iq)%nat then d' i else Rm i k) else Rm i k in
  if Rle_dec (Rabs (d' iq)) (eps52 * Rn) then Ok (false, R', J', S iq, Rn)
  else Ok (true, R', J', S iq, Rmax Rn (Rabs (d' iq))).

(** lines 160-168: the first i >= nEqCon with A(i) = l, else 0 *)
Fixpoint find_active (A : nat -> Z) (l : Z) (i cnt : nat) : nat :=
  match cnt with
  | O => 0
  | S c => if Z.eqb (A i) l then i else find_active A l (S i) c
  end.
(** lines 190-218, the loop of delete_constraint; [iq] is the new number *)
Definition del_rot (iq j : nat) (Rm J : rmat) : rmat * rmat :=
  if Req_EM_T (distance (Rm j j) (Rm (S j) j)) 0 then (Rm, J) else
  let '(cc, ss, v) := givens (Rm j j) (Rm (S j) j) in
  (fun i k =>
     if Nat.eqb k j then (if Nat.eqb i j then v else if Nat.eqb i (S j) then 0 else Rm i k)
     else if ((j <? k)%nat && (k <? iq)%nat)%bool then
       (if Nat.eqb i j then rot1 cc ss (Rm j k) (Rm (S j) k)
        else if Nat.eqb i (S j) then rot2 cc ss (Rm j k) (Rm (S j) k) else Rm i k)
     else Rm i k,
   rot_cols cc ss j (S j) J).
Fixpoint del_loop (iq j cnt : nat) (Rm J : rmat) : rmat * rmat :=
  match cnt with
  | O => (Rm, J)
  | S c => let '(R', J') := del_rot iq j Rm J in del_loop iq (S j) c R' J'
  end.
(** lines 152-219, delete_constraint; [m] is the size of A and u, so A(iq)
    must exist. *)
Definition delete_constraint (m nEq : nat) (Rm J : rmat) (A : nat -> Z) (u : rvec) (iq : nat) (l : Z)
  : outcome (rmat * rmat * (nat -> Z) * rvec * nat) :=
  if ((m <=? iq) || (iq =? 0))%nat%bool then UB else
  let qq := find_active A l nEq (iq - nEq) in
  let iq1 := (iq - 1)%nat in
  let A' := fun i => if ((qq <=? i) && (i <? iq))%nat%bool then A (S i) else if Nat.eqb i iq then 0%Z else A i in
  let u' := fun i => if ((qq <=? i) && (i <? iq))%nat%bool then u (S i) else if Nat.eqb i iq then 0 else u i in
  let R' := fun i k => if ((k =? iq1) && (i <? iq))%nat%bool then 0
                       else if ((qq <=? k) && (k <? iq1))%nat%bool then Rm i (S k) else Rm i k in
  let '(R'', J') := del_loop iq1 qq (iq1 - qq) R' J in
  Ok (R'', J', A', u', iq1).

(** The solver's variables.  Those the code does not set before the loop keep
    arbitrary values. *)
Record qst := Qst { q_x : rvec; q_u : rvec; q_A : nat -> Z; q_iq : nat; q_R : rmat; q_J : rmat; q_Rn : R;
  q_f : R; q_iter : nat; q_s : rvec; q_ss : R; q_ip : nat; q_iai : nat -> Z; q_ex : nat -> bool;
  q_xo : rvec; q_uo : rvec; q_Ao : nat -> Z; q_tol : R }.
(** Where the execution is: the labels of solve_quadprog. *)
Inductive label := L1 | L2 | L2a.
Inductive progress := Next (p : label) (st : qst) | Done (status : Z) (st : qst).
Definition st_OPTIMAL : Z := 0.
Definition st_UNBOUNDED : Z := 2.
Definition st_MAX_ITER : Z := 3.
Definition st_REDUNDANT : Z := 4.

Section Solve.
  Variable q : eqp.
  Let n := e_n q.
  Let m := (e_I q + e_E q)%nat.

  (** lines 329-368, the equalities: [todo] of them left, [i] next *)
  Fixpoint add_equalities (todo i : nat) (st : qst) : outcome progress :=
    match todo with
    | O => Ok (Next L1 st)
    | S todo' =>
        let np := e_CE q i in
        let d := compute_d n (q_J st) np in
        let iq := q_iq st in
        if (n <? iq)%nat then UB else
        let z := update_z n (q_J st) d iq in
        let r := update_r (q_R st) d iq in
        let t2 := if Rlt_dec eps52 (Rabs (dot n z z)) then (- dot n np (q_x st) - e_ce q i) / dot n z np else 0 in
        let x := fun k => q_x st k + t2 * z k in
        let u := setv (fun k => if (k <? iq)%nat then q_u st k - t2 * r k else q_u st k) iq t2 in
        let f := q_f st + 1 / 2 * (t2 * t2) * dot n z np in
        let A := setv (q_A st) i (- Z.of_nat i - 1)%Z in
        a <- add_constraint n (q_R st) (q_J st) d iq (q_Rn st) ;;
        let '(ok, R', J', iq', Rn') := a in
        let st' := Qst x u A iq' R' J' Rn' f (q_iter st) (q_s st) (q_ss st) (q_ip st) (q_iai st) (q_ex st)
                     (q_xo st) (q_uo st) (q_Ao st) (q_tol st) in
        if ok then add_equalities todo' (S i) st' else Ok (Done st_REDUNDANT st')
    end.

  (** lines 230-372: everything before the label l1; the sum that is compared
      with |psi| is computed here (line 457) *)
  Definition solve_init (mem : qst) : outcome progress :=
    L <- chol n (e_H q) ;;
    let J := inv_upper n L in
    let x := fun i => - chol_solve n L (e_g q) i in
    let tol := INR (e_I q) * eps52 * trace n (e_H q) * trace n J * 100 in
    add_equalities (e_E q) 0
      (Qst x (q_u mem) (q_A mem) 0 (fun _ _ => 0) J 1 (1 / 2 * dot n (e_g q) x) 0 (q_s mem) (q_ss mem) (q_ip mem)
         (fun i => Z.of_nat i) (q_ex mem) (q_xo mem) (q_uo mem) (q_Ao mem) tol).

  (** lines 426-429: iai(A(i)) = -1 *)
  Fixpoint mark (A : nat -> Z) (i cnt : nat) (iai : nat -> Z) : outcome (nat -> Z) :=
    match cnt with
    | O => Ok iai
    | S c => if ((0 <=? A i) && (A i <? Z.of_nat (e_I q)))%Z%bool
             then mark A (S i) c (setv iai (Z.to_nat (A i)) (-1)%Z) else UB
    end.
  (** lines 413-468, from l1 to l2 *)
  Definition step_L1 (st : qst) : outcome progress :=
    let iter := S (q_iter st) in
    let st1 := Qst (q_x st) (q_u st) (q_A st) (q_iq st) (q_R st) (q_J st) (q_Rn st) (q_f st) iter (q_s st) (q_ss st) (q_ip st)
                 (q_iai st) (q_ex st) (q_xo st) (q_uo st) (q_Ao st) (q_tol st) in
    if (e_max q <=? iter)%nat then Ok (Done st_MAX_ITER st1) else
    iai <- mark (q_A st) (e_E q) (q_iq st - e_E q) (q_iai st) ;;
    let s := fun i => dot n (e_CI q i) (q_x st) + e_ci q i in
    let psi := sumf (e_I q) (fun i => Rmin 0 (s i)) in
    let head (X : Type) (a b : nat -> X) := fun i => if (i <? q_iq st)%nat then a i else b i in
    let done := Rle_dec (Rabs psi) (q_tol st) in
    let st2 := Qst (q_x st) (q_u st) (q_A st) (q_iq st) (q_R st) (q_J st) (q_Rn st) (q_f st) iter s 0 0
                 iai (fun _ => true)
                 (if done then q_xo st else q_x st) (if done then q_uo st else head R (q_u st) (q_uo st))
                 (if done then q_Ao st else head Z (q_A st) (q_Ao st)) (q_tol st) in
    if done then Ok (Done st_OPTIMAL st2) else Ok (Next L2 st2).

  (** lines 474-479: the most violated constraint *)
  Fixpoint worst (cnt i : nat) (st : qst) (ss : R) (ip : nat) : R * nat :=
    match cnt with
    | O => (ss, ip)
    | S c =>
        if Rlt_dec (q_s st i) ss then
          if (negb (Z.eqb (q_iai st i) (-1)) && q_ex st i)%bool then worst c (S i) st (q_s st i) i
          else worst c (S i) st ss ip
        else worst c (S i) st ss ip
    end.
  (** lines 470-491, from l2 to l2a.  [np] is the row ip of CI from here on. *)
  Definition step_L2 (st : qst) : outcome progress :=
    let '(ss, ip) := worst (e_I q) 0 st (q_ss st) (q_ip st) in
    let st1 := Qst (q_x st) (q_u st) (q_A st) (q_iq st) (q_R st) (q_J st) (q_Rn st) (q_f st) (q_iter st) (q_s st) ss ip
                 (q_iai st) (q_ex st) (q_xo st) (q_uo st) (q_Ao st) (q_tol st) in
    if Rle_dec 0 ss then Ok (Done st_OPTIMAL st1) else
    if (m <=? q_iq st)%nat then UB else
    Ok (Next L2a (Qst (q_x st) (setv (q_u st) (q_iq st) 0) (setv (q_A st) (q_iq st) (Z.of_nat ip)) (q_iq st) (q_R st) (q_J st)
         (q_Rn st) (q_f st) (q_iter st) (q_s st) ss ip
         (q_iai st) (q_ex st) (q_xo st) (q_uo st) (q_Ao st) (q_tol st))).

  (** lines 531-540: the largest dual step, None for infinity, and the constraint
      that blocks it *)
  Fixpoint dual_step (cnt k : nat) (r u : rvec) (A : nat -> Z) (t1 : option R) (l : Z) : option R * Z :=
    match cnt with
    | O => (t1, l)
    | S c =>
        if Rlt_dec 0 (r k) then
          if match t1 with None => true | Some t => if Rlt_dec (u k / r k) t then true else false end
          then dual_step c (S k) r u A (Some (u k / r k)) (A k)
          else dual_step c (S k) r u A t1 l
        else dual_step c (S k) r u A t1 l
    end.
  (** lines 613-618: A, u restored and iai(A(i)) = -1, for i below iq *)
  Fixpoint restore (Ao : nat -> Z) (i cnt : nat) (iai : nat -> Z) : outcome (nat -> Z) :=
    match cnt with
    | O => Ok iai
    | S c => if ((0 <=? Ao i) && (Ao i <? Z.of_nat (e_I q)))%Z%bool
             then restore Ao (S i) c (setv iai (Z.to_nat (Ao i)) (-1)%Z) else UB
    end.
  (** lines 571 and 633: iai(l) = l *)
  Definition unmark (l : Z) (iai : nat -> Z) : outcome (nat -> Z) :=
    if ((0 <=? l) && (l <? Z.of_nat (e_I q)))%Z%bool then Ok (setv iai (Z.to_nat l) l) else UB.

  (** lines 501-646, from l2a on *)
  Definition step_L2a (st : qst) : outcome progress :=
    let ip := q_ip st in
    let np := e_CI q ip in
    let iq := q_iq st in
    let d := compute_d n (q_J st) np in
    let z := if (n <=? iq)%nat then (fun _ => 0) else update_z n (q_J st) d iq in
    let r := update_r (q_R st) d iq in
    let '(t1, l) := dual_step (iq - e_E q) (e_E q) r (q_u st) (q_A st) None 0%Z in
    let t2 := if Rlt_dec eps52 (Rabs (dot n z z)) then Some (- q_s st ip / dot n z np) else None in
    let dual t := setv (fun k => if (k <? iq)%nat then q_u st k - t * r k else q_u st k) iq (q_u st iq + t) in
    match t1, t2 with
    | None, None => Ok (Done st_UNBOUNDED st)
    | Some t, None =>
        iai <- unmark l (q_iai st) ;;
        a <- delete_constraint m (e_E q) (q_R st) (q_J st) (q_A st) (dual t) iq l ;;
        let '(R', J', A', u', iq') := a in
        Ok (Next L2a (Qst (q_x st) u' A' iq' R' J' (q_Rn st) (q_f st) (q_iter st) (q_s st) (q_ss st) ip iai (q_ex st)
             (q_xo st) (q_uo st) (q_Ao st) (q_tol st)))
    | _, Some tt2 =>
        let t := match t1 with None => tt2 | Some tt1 => Rmin tt1 tt2 end in
        let x := fun k => q_x st k + t * z k in
        let f := q_f st + t * dot n z np * (1 / 2 * t + q_u st iq) in
        let u := dual t in
        if Req_EM_T t tt2 then
          a <- add_constraint n (q_R st) (q_J st) d iq (q_Rn st) ;;
          let '(ok, R', J', iq', Rn') := a in
          if ok then
            Ok (Next L1 (Qst x u (q_A st) iq' R' J' Rn' f (q_iter st) (q_s st) (q_ss st) ip (setv (q_iai st) ip (-1)%Z) (q_ex st)
                 (q_xo st) (q_uo st) (q_Ao st) (q_tol st)))
          else
            b <- delete_constraint m (e_E q) R' J' (q_A st) u iq' (Z.of_nat ip) ;;
            let '(R'', J'', A'', u'', iq'') := b in
            iai <- restore (q_Ao st) 0 iq'' (fun i => Z.of_nat i) ;;
            Ok (Next L2 (Qst (q_xo st) (fun i => if (i <? iq'')%nat then q_uo st i else u'' i)
                 (fun i => if (i <? iq'')%nat then q_Ao st i else A'' i) iq'' R'' J'' Rn' f (q_iter st) (q_s st) (q_ss st) ip iai
                 (setv (q_ex st) ip false) (q_xo st) (q_uo st) (q_Ao st) (q_tol st)))
        else
          iai <- unmark l (q_iai st) ;;
          a <- delete_constraint m (e_E q) (q_R st) (q_J st) (q_A st) u iq l ;;
          let '(R', J', A', u', iq') := a in
          let s := setv (q_s st) ip (dot n np x + e_ci q ip) in
          Ok (Next L2a (Qst x u' A' iq' R' J' (q_Rn st) f (q_iter st) s (q_ss st) ip iai (q_ex st)
               (q_xo st) (q_uo st) (q_Ao st) (q_tol st)))
    end.

  Definition step (p : label) (st : qst) : outcome progress :=
    match p with L1 => step_L1 st | L2 => step_L2 st | L2a => step_L2a st end.
  (** [k] steps of an execution *)
  Fixpoint steps (k : nat) (o : outcome progress) : outcome progress :=
    match k with
    | O => o
    | S k' => match o with Ok (Next p st) => steps k' (step p st) | _ => o end
    end.
  (** The execution from any initial memory contents, for [k] steps. *)
  Definition execution (mem : qst) (k : nat) : outcome progress := steps k (solve_init mem).
End Solve.

(** lines 221-648 as a function of the arguments: the status, x and getObjValue().
    The initial x is only overwritten.  An execution of more than [max_steps] steps
    counts as undefined; ProofQp14.v shows which problems end within them. *)
Definition max_steps (q : eqp) : nat := (e_max q * (e_n q + 3) + 1)%nat.
Definition solve_quadprog (mem : qst) (p : qp) (init : list R) : outcome (Z * list R * R) :=
  match execution (eqp_of p) mem (max_steps (eqp_of p)) with
  | Ok (Done status st) => Ok (status, list_of (length (qp_g p)) (q_x st), q_f st)
  | Ok (Next _ _) => UB
  | Throw => Throw
  | UB => UB
  end.
