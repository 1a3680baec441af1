(** The functions of the python module, /repo/python/bezier_com_traj.cpp.  Elsewhere:
    ContactData and the contacts of ProblemData (ModelHeap.v), the accessors for the end
    effector (ModelPyEff.v).  Not modelled: the class MatrixVector (lines 442-444),
    getters and setters of plain members, the conversions of eigenpy. *)
From Coq Require Import List.
From Verif Require Import Vec SpecBezier ModelData ModelDispatch ModelUtils ModelNd ModelCont ModelSolver ModelTraj Model0Step ModelEff ModelHeap.
Import ListNotations.
Open Scope R_scope.

(** data.hh:64-68, Constraints() *)
Definition default_constraints : constraints :=
  Constraints (fl_or (fl_or (fl_or INIT_POS INIT_VEL) END_VEL) END_POS) false 10 (1 / 1000).

(** bezier_com_traj.cpp:26-33 and 45-54: the default ProblemData (data.hh:93-104) with one
    contact and com, dCom, l0, useAngMomentum. *)
Definition py_problem (ct : contact) (com dCom l0 : vec3) (useAng : bool) : problem :=
  Problem [ct] com dCom vzero vzero vzero vzero vzero vzero l0 useAng default_constraints ACCELERATION DOUBLE_DESCRIPTION.

(** A MatrixXX assigned to a MatrixX3 (resp. VectorX): another number of columns violates an
    assertion of Eigen: undefined. *)
Definition to_matrixX3 (M : matX) : outcome (list vec3) :=
  if Nat.eqb (mx_cols M) 3 then mapM (fun r => match r with [a; b; c] => Ok (V3 a b c) | _ => UB end) (mx_rows M) else UB.
Definition to_vectorX (M : matX) : outcome (list R) :=
  if Nat.eqb (mx_cols M) 1 then mapM (fun r => match r with [a] => Ok a | _ => UB end) (mx_rows M) else UB.

Section Py.
  Variable with_glpk : bool.
  Variable quadprog : qp -> list R -> outcome (Z * list R * R).
  Variable glpk : lp -> outcome (Z * R * list R).

  (** bezier_com_traj.cpp:20-38, zeroStepCapturability; [eq] is a pointer, None in python is null.
      contacts_.push_back copies the ContactData, hence dereferences the pointer (data.hh:35-41). *)
  Definition py_zeroStep (eq : option cphase) (com dCom l0 : vec3) (useAng : bool) (T dt : R) : outcome result0 :=
    ph <- deref eq ;;
    solve0step with_glpk quadprog glpk (py_problem (Contact (Some ph) zero_rows [] zero_rows []) com dCom l0 useAng) [T] dt.

  (** bezier_com_traj.cpp:40-59, zeroStepCapturability with Kin and kin *)
  Definition py_zeroStepKin (eq : option cphase) (com dCom l0 : vec3) (useAng : bool) (T dt : R) (Kin kin : matX) : outcome result0 :=
    K <- to_matrixX3 Kin ;;
    k <- to_vectorX kin ;;
    ph <- deref eq ;;
    solve0step with_glpk quadprog glpk (py_problem (Contact (Some ph) K k zero_rows []) com dCom l0 useAng) [T] dt.

  (** bezier_com_traj.cpp:249-261, computeCOMTraj without and with a solver (solve.hh:66-69) *)
  Definition py_computeCOMTraj (scaled : bool) (pData : problem) (Ts : list R) (dt : R) (solver : option Z) : outcome resultCOM :=
    computeCOMTraj scaled with_glpk quadprog glpk pData Ts dt (match solver with Some s => s | None => SOLVER_QUADPROG end).

  (** bezier_com_traj.cpp:266-268, 279-284, computeEndEffector: no path, weight 0 *)
  Definition py_computeEndEffector (init : nat -> list R) (pData : problem) (T : R) : outcome resultCOM :=
    solveEndEffector with_glpk quadprog glpk init pData (fun _ => Ok vzero) T 0.
End Py.

(** bezier_com_traj.cpp:302-315, computeEndEffectorDistanceCost: [pts] are the columns of the
    matrix.  The function reads pts_path[i] for i < numPoints (an int; none if negative). *)
Definition py_distanceCost (pData : problem) (T : R) (numPoints : Z) (pts : list vec3) : outcome (list (list R) * list R) :=
  _ <- computeConstantWaypoints pData T ;;
  computeDistanceCostFunction (Z.to_nat numPoints) pData T pts.

(** bezier_com_traj.cpp:83-87, 101-105: the attribute x of a result *)
Definition py_x (x : list R) : outcome (list R) := match x with [] => Throw | _ => Ok x end.

(** * ProblemData.constraints_: bezier_com_traj.cpp:160-178, 229-233, 389-393, 397-402 *)

(** The objects a program has made: ProblemData (of which only constraints_ is kept here; it is
    destroyed once no name is left), Constraints, and the objects that the attribute
    constraints_ returns: references into ProblemData number [p] that do not keep it alive
    (reference_existing_object). *)
Inductive pyobj := PProb (alive : bool) (k : constraints) | POwn (k : constraints) | PView (p : nat).
(** [env]: the object each name is bound to *)
Record pyst := PySt { objs : list pyobj; env : nat -> option nat }.
Definition py0 : pyst := PySt [] (fun _ => None).

(** One of the four attributes of Constraints with a value. *)
Inductive field := Flag (v : Z) | ConstrainAcc (v : bool) | MaxAcc (v : R) | ReduceH (v : R).
Definition set_field (f : field) (k : constraints) : constraints :=
  match f with
  | Flag v => Constraints v (k_constraintAcceleration k) (k_maxAcceleration k) (k_reduce_h k)
  | ConstrainAcc v => Constraints (k_flag k) v (k_maxAcceleration k) (k_reduce_h k)
  | MaxAcc v => Constraints (k_flag k) (k_constraintAcceleration k) v (k_reduce_h k)
  | ReduceH v => Constraints (k_flag k) (k_constraintAcceleration k) (k_maxAcceleration k) v
  end.

Inductive pystmt :=
| MkProblem (x : nat)                 (* x = ProblemData() *)
| MkConstraints (x : nat)             (* x = Constraints() *)
| Bind (x y : nat)                    (* x = y *)
| Forget (x : nat)                    (* del x *)
| Ref (x y : nat)                     (* x = y.constraints_ *)
| Put (y z : nat)                     (* y.constraints_ = z *)
| SetAttr (z : nat) (f : field)       (* z.flag_ = v ... *)
| SetVia (y : nat) (f : field)        (* y.constraints_.flag_ = v ... *)
| Read (z : nat)                      (* the attributes of z *)
| ReadVia (y : nat).                  (* the attributes of y.constraints_, or a planner called with y *)
Inductive pyreply := Done | Error | Value (k : constraints).

Definition lookup (s : pyst) (x : nat) : option (nat * pyobj) :=
  match env s x with
  | Some o => match nth_error (objs s) o with Some b => Some (o, b) | None => None end
  | None => None
  end.
Definition with_objs (s : pyst) (l : list pyobj) : pyst := PySt l (env s).
(** is object [o] bound to one of the names below [n]? *)
Fixpoint bound (e : nat -> option nat) (o n : nat) : bool :=
  match n with
  | O => false
  | S m => (match e m with Some p => Nat.eqb p o | None => false end) || bound e o m
  end.
(** [x] is rebound; the object it was bound to is destroyed if that was the last name ([top]: above
    all the names of the program) *)
Definition rebind (top : nat) (s : pyst) (x : nat) (v : option nat) : pyst :=
  let e := fun y => if Nat.eqb y x then v else env s y in
  match env s x with
  | Some o =>
      if bound e o top then PySt (objs s) e else
      match nth_error (objs s) o with
      | Some (PProb _ k) => PySt (set_nth (objs s) o (PProb false k)) e
      | _ => PySt (objs s) e
      end
  | None => PySt (objs s) e
  end.
(** the ProblemData behind a reference *)
Definition target (s : pyst) (p : nat) : outcome constraints :=
  match nth_error (objs s) p with Some (PProb true k) => Ok k | _ => UB end.

Section PyStep.
  (** all the names of the program are below [top] *)
  Variable top : nat.
  Definition pystep (s : pyst) (o : pystmt) : outcome (pyst * pyreply) :=
    match o with
    | MkProblem x =>
        Ok (rebind top (with_objs s (objs s ++ [PProb true default_constraints])) x (Some (length (objs s))), Done)
    | MkConstraints x =>
        Ok (rebind top (with_objs s (objs s ++ [POwn default_constraints])) x (Some (length (objs s))), Done)
    | Bind x y =>
        match env s y with None => Ok (s, Error) | Some p => Ok (rebind top s x (Some p), Done) end
    | Forget x =>
        match env s x with None => Ok (s, Error) | Some _ => Ok (rebind top s x None, Done) end
    | Ref x y =>
        match lookup s y with
        | Some (p, PProb _ _) => Ok (rebind top (with_objs s (objs s ++ [PView p])) x (Some (length (objs s))), Done)
        | _ => Ok (s, Error)
        end
    (* set_constraints_: the implicit operator= *)
    | Put y z =>
        match lookup s y, lookup s z with
        | Some (p, PProb b _), Some (_, POwn k) => Ok (with_objs s (set_nth (objs s) p (PProb b k)), Done)
        | Some (p, PProb b _), Some (_, PView q) =>
            k <- target s q ;; Ok (with_objs s (set_nth (objs s) p (PProb b k)), Done)
        | _, _ => Ok (s, Error)
        end
    | SetAttr z f =>
        match lookup s z with
        | Some (c, POwn k) => Ok (with_objs s (set_nth (objs s) c (POwn (set_field f k))), Done)
        | Some (_, PView p) => k <- target s p ;; Ok (with_objs s (set_nth (objs s) p (PProb true (set_field f k))), Done)
        | _ => Ok (s, Error)
        end
    | SetVia y f =>
        match lookup s y with
        | Some (p, PProb b k) => Ok (with_objs s (set_nth (objs s) p (PProb b (set_field f k))), Done)
        | _ => Ok (s, Error)
        end
    | Read z =>
        match lookup s z with
        | Some (_, POwn k) => Ok (s, Value k)
        | Some (_, PView p) => k <- target s p ;; Ok (s, Value k)
        | _ => Ok (s, Error)
        end
    | ReadVia y =>
        match lookup s y with
        | Some (_, PProb _ k) => Ok (s, Value k)
        | _ => Ok (s, Error)
        end
    end.
  Fixpoint pyrun (s : pyst) (l : list pystmt) : outcome pyst :=
    match l with
    | [] => Ok s
    | o :: l' => r <- pystep s o ;; pyrun (fst r) l'
    end.
End PyStep.
