(** dimVar: three unknowns for each free point that the flag declares. *)
From Coq Require Import List ZArith Lia.
From Verif Require Import Vec ModelData ModelDispatch SpecCom SpecEff.
Import ListNotations.

Lemma land_small base k m : (0 <= base < 256)%Z -> (8 <= k)%Z -> m = (2 ^ k)%Z -> Z.land base m = 0%Z.
Proof.
  intros B K ->. apply Z.bits_inj'. intros n Hn. rewrite Z.land_spec, Z.bits_0. destruct (Z.eq_dec n k) as [->|N].
  - replace (Z.testbit base k) with false; [reflexivity|]. symmetry. destruct (Z.eq_dec base 0) as [->|Z0]; [apply Z.bits_0|].
    apply Z.bits_above_log2; [lia|]. apply Z.lt_le_trans with 8%Z; [|exact K]. apply Z.log2_lt_pow2; cbn; lia.
  - rewrite (Z.pow2_bits_false k n) by congruence. apply Bool.andb_false_r.
Qed.
Lemma c106_count pData base k bit : (0 <= base < 256)%Z ->
  In (k, bit) [(1, 0); (2, 256); (3, 512); (4, 1024); (5, 2048)]%Z -> flag_of pData = Z.lor base bit -> Z.of_nat (dimVar pData) = (3 * k)%Z.
Proof.
  intros B HI E. unfold dimVar. rewrite E. unfold fl_has, FIVE_FREE_VAR, FOUR_FREE_VAR, THREE_FREE_VAR, TWO_FREE_VAR.
  rewrite !Z.land_lor_distr_l. rewrite (land_small base 11 0x800 B), (land_small base 10 0x400 B), (land_small base 9 0x200 B), (land_small base 8 0x100 B) by (reflexivity || lia).
  cbn in HI. repeat destruct HI as [HI|HI]; try contradiction; injection HI as <- <-; reflexivity.
Qed.
Lemma c106_planned pData : (In (flag_of pData) com_flags -> dimVar pData = 3%nat) /\
  (In (flag_of pData) effector_flags -> dimVar pData = (3 * eff_free (flag_of pData))%nat).
Proof.
  split; intros H; unfold dimVar; cbn in H; repeat destruct H as [H|H]; try contradiction; rewrite <- H; reflexivity.
Qed.
