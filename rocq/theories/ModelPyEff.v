(** The accessors of the python module for the end effector, /repo/python/bezier_com_traj.cpp. *)
From Coq Require Import List.
From Verif Require Import Vec SpecBezier ModelData ModelDispatch ModelWaypointsJerk ModelCont ModelEff.
Import ListNotations.
Open Scope R_scope.

(** bezier_com_traj.cpp:273-277, 286-292, computeEndEffectorConstraints: the attributes A and b of the
    MatrixVector, copies of the pair that the function of the library returns.  The conversions of eigenpy
    are not modelled. *)
Definition py_effConstraints (pData : problem) (T : R) : outcome (list (list R) * list R) :=
  pi <- computeConstantWaypoints pData T ;;
  M <- computeEndEffectorConstraints pData T pi ;;
  Ok (map fst M, map snd M).

(** bezier_com_traj.cpp:294-300, computeEndEffectorVelocityCost, likewise *)
Definition py_velocityCost (pData : problem) (T : R) : outcome (list (list R) * list R) :=
  pi <- computeConstantWaypoints pData T ;;
  Hg <- computeVelocityCost pData T pi ;;
  Ok (blocks_matx (fst Hg), concat (map l3 (snd Hg))).

(** bezier_com_traj.cpp:317-327, computeEndEffectorConstantWaypoints: the columns of the matrix; column
    number col is written for each element of pi in turn, in a matrix with pi.size() columns. *)
Definition py_constantWaypoints (pData : problem) (T : R) : outcome (list vec3) :=
  pi <- computeConstantWaypoints pData T ;;
  Ok (snd (fold_left (fun (s : nat * list vec3) p => (S (fst s), firstn (fst s) (snd s) ++ [p] ++ skipn (S (fst s)) (snd s)))
             pi (O, repeat vzero (length pi)))).
