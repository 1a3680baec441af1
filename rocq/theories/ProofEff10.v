(** Velocity cost of the end effector: integral, five free points. *)
From Verif Require Import Vec SpecBezier ModelData Spec0Step ProofBezier ProofCurve Proof0Step2 ProofEff8 ProofEff9.
Open Scope R_scope.

Definition q12 (a : nat -> R) : R :=
  (120411315903631 / 12500000000000) * (a 4%nat * a 4%nat) +
  (134860690009623 / 20000000000000) * (a 4%nat * a 5%nat) +
  (414955180440231 / 200000000000000) * (a 4%nat * a 6%nat) +
  (- (355676093144659 / 200000000000000)) * (a 4%nat * a 7%nat) +
  (- (176827815054763 / 50000000000000)) * (a 4%nat * a 8%nat) +
  (- (178646615739593 / 10000000000000)) * (a 4%nat * a 0%nat) +
  (- (34736842459103 / 2500000000000)) * (a 4%nat * a 1%nat) +
  (64219575985759 / 25000000000000) * (a 4%nat * a 2%nat) +
  (80274216257717 / 5000000000000) * (a 4%nat * a 3%nat) +
  (- (133378697393577 / 20000000000000)) * (a 4%nat * a 9%nat) +
  (- (106208960943353 / 25000000000000)) * (a 4%nat * a 10%nat) +
  (- (45245466662359 / 25000000000000)) * (a 4%nat * a 11%nat) +
  (- (204334365268827 / 500000000000000)) * (a 4%nat * a 12%nat) +
  (134860690009623 / 20000000000000) * (a 5%nat * a 4%nat) +
  (829911962311903 / 100000000000000) * (a 5%nat * a 5%nat) +
  (62243428098687 / 10000000000000) * (a 5%nat * a 6%nat) +
  (210172524303919 / 100000000000000) * (a 5%nat * a 7%nat) +
  (- (177838228097659 / 100000000000000)) * (a 5%nat * a 8%nat) +
  (- (793984965058761 / 100000000000000)) * (a 5%nat * a 0%nat) +
  (- (60716486205447 / 5000000000000)) * (a 5%nat * a 1%nat) +
  (- (44150854426697 / 6250000000000)) * (a 5%nat * a 2%nat) +
  (48164480084267 / 12500000000000) * (a 5%nat * a 3%nat) +
  (- (375436331823579 / 50000000000000)) * (a 5%nat * a 9%nat) +
  (- (14128261837107 / 2000000000000)) * (a 5%nat * a 10%nat) +
  (- (81733746102217 / 20000000000000)) * (a 5%nat * a 11%nat) +
  (- (24520123841333 / 20000000000000)) * (a 5%nat * a 12%nat) +
  (414955180440231 / 200000000000000) * (a 6%nat * a 4%nat) +
  (62243428098687 / 10000000000000) * (a 6%nat * a 5%nat) +
  (158437723188589 / 20000000000000) * (a 6%nat * a 6%nat) +
  (12448679688301 / 2000000000000) * (a 6%nat * a 7%nat) +
  (4149559164651 / 2000000000000) * (a 6%nat * a 8%nat) +
  (- (163467490358221 / 50000000000000)) * (a 6%nat * a 0%nat) +
  (- (194117649251797 / 25000000000000)) * (a 6%nat * a 1%nat) +
  (- (179814242346011 / 20000000000000)) * (a 6%nat * a 2%nat) +
  (- (112383897450447 / 25000000000000)) * (a 6%nat * a 3%nat) +
  (- (112383901964591 / 25000000000000)) * (a 6%nat * a 9%nat) +
  (- (5619195037449 / 625000000000)) * (a 6%nat * a 10%nat) +
  (- (776470588258269 / 100000000000000)) * (a 6%nat * a 11%nat) +
  (- (81733746130031 / 25000000000000)) * (a 6%nat * a 12%nat) +
  (- (355676093144659 / 200000000000000)) * (a 7%nat * a 4%nat) +
  (210172524303919 / 100000000000000) * (a 7%nat * a 5%nat) +
  (12448679688301 / 2000000000000) * (a 7%nat * a 6%nat) +
  (829911871865983 / 100000000000000) * (a 7%nat * a 7%nat) +
  (134860680294621 / 20000000000000) * (a 7%nat * a 8%nat) +
  (- (30650155181659 / 25000000000000)) * (a 7%nat * a 0%nat) +
  (- (408668774398579 / 100000000000000)) * (a 7%nat * a 1%nat) +
  (- (35320655634633 / 5000000000000)) * (a 7%nat * a 2%nat) +
  (- (93859061136583 / 12500000000000)) * (a 7%nat * a 3%nat) +
  (385316232209763 / 100000000000000) * (a 7%nat * a 9%nat) +
  (- (141282618454077 / 20000000000000)) * (a 7%nat * a 10%nat) +
  (- (7589562140669 / 625000000000)) * (a 7%nat * a 11%nat) +
  (- (396992481204547 / 50000000000000)) * (a 7%nat * a 12%nat) +
  (- (176827815054763 / 50000000000000)) * (a 8%nat * a 4%nat) +
  (- (177838228097659 / 100000000000000)) * (a 8%nat * a 5%nat) +
  (4149559164651 / 2000000000000) * (a 8%nat * a 6%nat) +
  (134860680294621 / 20000000000000) * (a 8%nat * a 7%nat) +
  (963290582796267 / 100000000000000) * (a 8%nat * a 8%nat) +
  (- (204334366257487 / 500000000000000)) * (a 8%nat * a 0%nat) +
  (- (45245470218373 / 25000000000000)) * (a 8%nat * a 1%nat) +
  (- (8496717593051 / 2000000000000)) * (a 8%nat * a 2%nat) +
  (- (333446675396089 / 50000000000000)) * (a 8%nat * a 3%nat) +
  (160548429731073 / 10000000000000) * (a 8%nat * a 9%nat) +
  (256877487851457 / 100000000000000) * (a 8%nat * a 10%nat) +
  (- (138947368423667 / 10000000000000)) * (a 8%nat * a 11%nat) +
  (- (178646616541281 / 10000000000000)) * (a 8%nat * a 12%nat).

Definition e12 (a : nat -> R) : R :=
  (- (14741890309 / 28262500000000000)) * (a 4%nat * a 4%nat) +
  (2873108229 / 6460000000000000) * (a 4%nat * a 5%nat) +
  (- (3197331470031 / 839800000000000000)) * (a 4%nat * a 6%nat) +
  (12594199038013 / 5878600000000000000) * (a 4%nat * a 7%nat) +
  (4585050163 / 209950000000000000) * (a 4%nat * a 8%nat) +
  (106634131 / 1330000000000000) * (a 4%nat * a 0%nat) +
  (- (6722957 / 47500000000000)) * (a 4%nat * a 1%nat) +
  (461303801099 / 56525000000000000) * (a 4%nat * a 2%nat) +
  (2958698137 / 11305000000000000) * (a 4%nat * a 3%nat) +
  (- (52489408761 / 587860000000000000)) * (a 4%nat * a 9%nat) +
  (10992025271 / 734825000000000000) * (a 4%nat * a 10%nat) +
  (- (123593699 / 56525000000000000)) * (a 4%nat * a 11%nat) +
  (18168879 / 161500000000000000) * (a 4%nat * a 12%nat) +
  (2873108229 / 6460000000000000) * (a 5%nat * a 4%nat) +
  (329747680697 / 419900000000000000) * (a 5%nat * a 5%nat) +
  (154586386713 / 41990000000000000) * (a 5%nat * a 6%nat) +
  (77451160859 / 226100000000000000) * (a 5%nat * a 7%nat) +
  (961525509013 / 2939300000000000000) * (a 5%nat * a 8%nat) +
  (- (352815213 / 13300000000000000)) * (a 5%nat * a 0%nat) +
  (24689484333 / 11305000000000000) * (a 5%nat * a 1%nat) +
  (- (81858761917 / 14131250000000000)) * (a 5%nat * a 2%nat) +
  (- (110529472313 / 28262500000000000)) * (a 5%nat * a 3%nat) +
  (- (5331076713 / 77350000000000000)) * (a 5%nat * a 9%nat) +
  (- (13698927 / 4522000000000000)) * (a 5%nat * a 10%nat) +
  (8983909 / 6460000000000000) * (a 5%nat * a 11%nat) +
  (- (750559 / 6460000000000000)) * (a 5%nat * a 12%nat) +
  (- (3197331470031 / 839800000000000000)) * (a 6%nat * a 4%nat) +
  (154586386713 / 41990000000000000) * (a 6%nat * a 5%nat) +
  (- (331114789 / 83980000000000000)) * (a 6%nat * a 6%nat) +
  (6011175899 / 8398000000000000) * (a 6%nat * a 7%nat) +
  (- (1067630451 / 8398000000000000)) * (a 6%nat * a 8%nat) +
  (614294617 / 16150000000000000) * (a 6%nat * a 0%nat) +
  (- (37280549 / 425000000000000)) * (a 6%nat * a 1%nat) +
  (- (277761553 / 6460000000000000)) * (a 6%nat * a 2%nat) +
  (1123505619 / 8075000000000000) * (a 6%nat * a 3%nat) +
  (- (334562893 / 8075000000000000)) * (a 6%nat * a 9%nat) +
  (2903973 / 201875000000000) * (a 6%nat * a 10%nat) +
  (- (390573 / 1700000000000000)) * (a 6%nat * a 11%nat) +
  (- (13 / 8075000000000000)) * (a 6%nat * a 12%nat) +
  (12594199038013 / 5878600000000000000) * (a 7%nat * a 4%nat) +
  (77451160859 / 226100000000000000) * (a 7%nat * a 5%nat) +
  (6011175899 / 8398000000000000) * (a 7%nat * a 6%nat) +
  (- (50034737383 / 419900000000000000)) * (a 7%nat * a 7%nat) +
  (- (264837417 / 6460000000000000)) * (a 7%nat * a 8%nat) +
  (- (123675857 / 8075000000000000)) * (a 7%nat * a 0%nat) +
  (- (14130741017 / 32300000000000000)) * (a 7%nat * a 1%nat) +
  (- (2389905213 / 11305000000000000)) * (a 7%nat * a 2%nat) +
  (32421706099 / 19337500000000000) * (a 7%nat * a 3%nat) +
  (1026274143 / 226100000000000000) * (a 7%nat * a 9%nat) +
  (- (324668097 / 45220000000000000)) * (a 7%nat * a 10%nat) +
  (- (52609 / 1413125000000000)) * (a 7%nat * a 11%nat) +
  (- (204751 / 6650000000000000)) * (a 7%nat * a 12%nat) +
  (4585050163 / 209950000000000000) * (a 8%nat * a 4%nat) +
  (961525509013 / 2939300000000000000) * (a 8%nat * a 5%nat) +
  (- (1067630451 / 8398000000000000)) * (a 8%nat * a 6%nat) +
  (- (264837417 / 6460000000000000)) * (a 8%nat * a 7%nat) +
  (7702359687 / 226100000000000000) * (a 8%nat * a 8%nat) +
  (- (301168301 / 161500000000000000)) * (a 8%nat * a 0%nat) +
  (- (8163741353 / 56525000000000000)) * (a 8%nat * a 1%nat) +
  (- (20212548043 / 58786000000000000)) * (a 8%nat * a 2%nat) +
  (1870082756023 / 1469650000000000000) * (a 8%nat * a 3%nat) +
  (- (378043947 / 22610000000000000)) * (a 8%nat * a 9%nat) +
  (32144277 / 226100000000000000) * (a 8%nat * a 10%nat) +
  (- (49673 / 190000000000000)) * (a 8%nat * a 11%nat) +
  (9627 / 1330000000000000) * (a 8%nat * a 12%nat).

Lemma id12 a : q12 a - (velform 12 a - velform 12 (zero_free 4 8 a)) = e12 a.
Proof.
  unfold q12, e12. match goal with |- ?e - _ = ?e' => form_terms a e; form_terms a e' end.
  apply (id_of 12 4 8). vm_compute. reflexivity.
Qed.
Lemma bound12 a M : (forall i, (i <= 12)%nat -> Rabs (a i) <= M) -> Rabs (e12 a) <= / 10 ^ 4 * (M * M).
Proof.
  intros H. unfold e12. eapply Rle_trans; [abs_terms H|]. assert (0 <= M * M) by (apply Rle_0_sqr). lra.
Qed.
