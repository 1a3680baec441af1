(** Property theorems C106: the number of unknowns that dimVar announces.  Vocabulary: SpecCom.v, SpecEff.v. *)
From Coq Require Import List ZArith.
From Verif Require Import Vec ModelData ModelDispatch SpecCom SpecEff ProofDim.
Import ListNotations.

(** C106: the boundary conditions are the eight low bits of the flag, whatever they are; [bit] declares [k] free
    points; three unknowns for each. *)
Theorem C106_count : forall pData base k bit, (0 <= base < 256)%Z ->
  In (k, bit) [(1, 0); (2, 256); (3, 512); (4, 1024); (5, 2048)]%Z -> flag_of pData = Z.lor base bit -> Z.of_nat (dimVar pData) = (3 * k)%Z.
Proof. exact c106_count. Qed.
Print Assumptions C106_count.
(** For the flags of the planners these are the coordinates of the free points. *)
Theorem C106_planned : forall pData, (In (flag_of pData) com_flags -> dimVar pData = 3%nat) /\
  (In (flag_of pData) effector_flags -> dimVar pData = (3 * eff_free (flag_of pData))%nat).
Proof. exact c106_planned. Qed.
Print Assumptions C106_planned.
