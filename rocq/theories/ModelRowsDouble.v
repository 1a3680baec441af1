(** The rows of the kinematic and acceleration constraints of the discretised formulation in double arithmetic (the exact
    versions are in ModelCom.v).  The rows are listed in the order in which they are written; that they fit the matrix is C14. *)
From Flocq Require Import Core BinarySingleNaN.
From Coq Require Import List.
From Verif Require Import Vec ModelData ModelUtils ModelCom Double ModelPtsDouble ModelCoefDouble.
Import ListNotations.
Open Scope Z_scope.

(** Kin_ and kin_ of a ContactData *)
Record fcontact : Set := FC { fc_Kin : list fvec; fc_kin : list f64 }.
(** a row of A with its entry of b *)
Definition frow : Set := (fvec * f64)%type.

Section Eigen.
(** [k - K.b], as Eigen evaluates the entries of [kin_ - Kin_ * second]: the order of the additions depends on the version and
    on the instruction set, so it is an argument (SpecRowsDouble.v, [subtracts]). *)
Variable sub : f64 -> fvec -> fvec -> f64.

(** computeCOMTraj.cpp:230-234 and 248-252, one row *)
Definition kin_row_f (co : fcoefs) (K : fvec) (k : f64) : frow := (fv_mul K (fst co), sub k K (snd co)).
(** all rows; Kin_ with fewer rows than kin_ is read out of range *)
Fixpoint kin_rows_f (co : fcoefs) (Kin : list fvec) (kin : list f64) : outcome (list frow) :=
  match kin with
  | [] => Ok []
  | k :: kin' =>
      match Kin with
      | [] => UB
      | K :: Kin' => rs <- kin_rows_f co Kin' kin' ;; Ok (kin_row_f co K k :: rs)
      end
  end.
(** lines 228-236 and 246-254; without rows nothing is written *)
Definition kin_emit_f (c : fcontact) (co : fcoefs) : outcome (list frow) := kin_rows_f co (fc_Kin c) (fc_kin c).
(** lines 239-256: [i] runs over all switches but the last; returns id_phase and the rows *)
Fixpoint kin_switches_f (cs : list fcontact) (id_step : Z) (co : fcoefs) (i : nat) (sw : list Z) (id_phase : nat) : outcome (nat * list frow) :=
  match sw with
  | [] => Ok (id_phase, [])
  | k :: sw' =>
      if Z.eqb id_step k then
        c <- get cs (i + 1) ;;
        rs <- kin_emit_f c co ;;
        r <- kin_switches_f cs id_step co (S i) sw' (i + 1) ;;
        Ok (fst r, rs ++ snd r)
      else kin_switches_f cs id_step co (S i) sw' id_phase
  end.
(** lines 223-257, the loop over the samples *)
Fixpoint kin_loop_f (cs : list fcontact) (sw : list Z) (id_step : Z) (wps : list fcoefs) (id_phase : nat) : outcome (list frow) :=
  match wps with
  | [] => Ok []
  | co :: wps' =>
      c <- get cs id_phase ;;
      rs <- kin_emit_f c co ;;
      r <- kin_switches_f cs id_step co 0 (removelast sw) id_phase ;;
      rest <- kin_loop_f cs sw (id_step + 1) wps' (fst r) ;;
      Ok (rs ++ snd r ++ rest)
  end.
(** computeCOMTraj.cpp:211-258, assignKinematicConstraints, with stepIdForPhase from computeCOMTraj.cpp:286 (it only reads the
    numbers of the phases) *)
Definition assignKinematicConstraints_f (d : fdata) (cs : list fcontact) (T : f64) (ta : list (f64 * Z)) : outcome (list frow) :=
  sw <- stepIdPerPhase (map (fun tp : f64 * Z => (B2R (fst tp), snd tp)) ta) ;;
  wps <- computeDiscretizedWaypoints_f d T ta ;;
  kin_loop_f cs sw 0 wps 0.
End Eigen.

(** computeCOMTraj.cpp:271-276: the six rows of one sample.  The entries of [Identity()] are 1 and 0, those of [-Identity()] -1
    and -0; each is multiplied by the coefficient. *)
Definition acc_rows_f (co : fcoefs) (amax : f64) : list frow :=
  let a := fst co in
  let v := snd co in
  let i := fmul #1 a in
  let o := fmul f0 a in
  let i' := fmul (fopp #1) a in
  let o' := fmul (fopp f0) a in
  [ (FV i o o, fsub amax (fx v)); (FV o i o, fsub amax (fy v)); (FV o o i, fsub amax (fz v));
    (FV i' o' o', fadd amax (fx v)); (FV o' i' o', fadd amax (fy v)); (FV o' o' i', fadd amax (fz v)) ].
(** computeCOMTraj.cpp:260-280, assignAccelerationConstraints, when the option is set; [Ones() * max] in line 269 *)
Definition assignAccelerationConstraints_f (d : fdata) (maxAcceleration : f64) (T : f64) (ta : list (f64 * Z)) : outcome (list frow) :=
  wps <- computeDiscretizedAccelerationWaypoints_f d T ta ;;
  Ok (flat_map (fun co => acc_rows_f co (fmul #1 maxAcceleration)) wps).
