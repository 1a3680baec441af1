(** Concrete inputs for the theorems of PropertiesEffReverse.v. *)
From Coq Require Import List Reals Lia Lra.
From Verif Require Import Vec SpecBezier ModelData ModelDispatch ModelEff SpecCom SpecEff SpecReverse ProofEff2 PropertiesEffReverse ExamplesEff.
Import ListNotations.
Open Scope R_scope.

(** The step of ExamplesEff.v, back from (1,0,0) to (0,0,0). *)
Example ex_C114 : exists cv', eff_curve (reverse x3_pb) 1 (rev st3_xs) = Ok cv' /\
  (forall t, cv_fun cv' t = cv_fun (BCurve st3_pts 1) (1 - t)) /\
  path_gap 50 (reverse x3_pb) 1 cv' (fun i => V3 (INR (50 - 1 - i) / 49) 0 0) = path_gap 50 x3_pb 1 (BCurve st3_pts 1) (fun i => V3 (INR i / 49) 0 0).
Proof.
  destruct (C114_curve x3_pb 1 st3_xs _ st3_in eq_refl ltac:(lra) st3_curve) as (cv' & E & _ & H).
  exists cv'. split; [exact E|]. split; [exact H|].
  exact (C114_path 50 x3_pb 1 _ cv' (fun i => V3 (INR i / 49) 0 0) ltac:(discriminate) ltac:(lia) H).
Qed.
