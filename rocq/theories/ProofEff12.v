(** Velocity cost of the end effector: positive definite. *)
From Verif Require Import Vec.
Open Scope R_scope.

Definition h8 (x : nat -> R) : R :=
  (652680652684107 / 100000000000000) * (x 0%nat * x 0%nat).
Lemma h8_pos x : 1 / 100 * (x 0%nat * x 0%nat) <= h8 x.
Proof.
  replace (h8 x) with (1 / 100 * (x 0%nat * x 0%nat) + ((651680652684107 / 100000000000000) * ((x 0%nat) * (x 0%nat)))) by (unfold h8; field).
  pose proof (Rle_0_sqr (x 0%nat)) as S0; unfold Rsqr in S0.
  lra.
Qed.
Definition h10 (x : nat -> R) : R :=
  (388728916823403 / 50000000000000) * (x 0%nat * x 0%nat) +
  (27211024351663 / 5000000000000) * (x 0%nat * x 1%nat) +
  (120937884230467 / 100000000000000) * (x 0%nat * x 2%nat) +
  (27211024351663 / 5000000000000) * (x 1%nat * x 0%nat) +
  (725627312788583 / 100000000000000) * (x 1%nat * x 1%nat) +
  (108844097036619 / 20000000000000) * (x 1%nat * x 2%nat) +
  (120937884230467 / 100000000000000) * (x 2%nat * x 0%nat) +
  (108844097036619 / 20000000000000) * (x 2%nat * x 1%nat) +
  (388728918108279 / 50000000000000) * (x 2%nat * x 2%nat).
Lemma h10_pos x : 1 / 100 * (x 0%nat * x 0%nat + x 1%nat * x 1%nat + x 2%nat * x 2%nat) <= h10 x.
Proof.
  pose proof (Rle_0_sqr (x 0%nat + (71 / 100) * x 1%nat + (4 / 25) * x 2%nat)) as S0; unfold Rsqr in S0.
  pose proof (Rle_0_sqr (x 1%nat + (7 / 5) * x 2%nat)) as S1; unfold Rsqr in S1.
  pose proof (Rle_0_sqr (x 2%nat)) as S2; unfold Rsqr in S2.
  pose proof (Rle_0_sqr (x 0%nat)) as Q0; unfold Rsqr in Q0.
  pose proof (Rle_0_sqr (x 0%nat + x 1%nat)) as P01; unfold Rsqr in P01.
  pose proof (Rle_0_sqr (x 0%nat - x 2%nat)) as P02; unfold Rsqr in P02.
  pose proof (Rle_0_sqr (x 1%nat)) as Q1; unfold Rsqr in Q1.
  pose proof (Rle_0_sqr (x 1%nat - x 2%nat)) as P12; unfold Rsqr in P12.
  pose proof (Rle_0_sqr (x 2%nat)) as Q2; unfold Rsqr in Q2.
  unfold h10. lra.
Qed.
Definition h12 (x : nat -> R) : R :=
  (120411315903631 / 12500000000000) * (x 0%nat * x 0%nat) +
  (134860690009623 / 20000000000000) * (x 0%nat * x 1%nat) +
  (414955180440231 / 200000000000000) * (x 0%nat * x 2%nat) +
  (- (355676093144659 / 200000000000000)) * (x 0%nat * x 3%nat) +
  (- (176827815054763 / 50000000000000)) * (x 0%nat * x 4%nat) +
  (134860690009623 / 20000000000000) * (x 1%nat * x 0%nat) +
  (829911962311903 / 100000000000000) * (x 1%nat * x 1%nat) +
  (62243428098687 / 10000000000000) * (x 1%nat * x 2%nat) +
  (210172524303919 / 100000000000000) * (x 1%nat * x 3%nat) +
  (- (177838228097659 / 100000000000000)) * (x 1%nat * x 4%nat) +
  (414955180440231 / 200000000000000) * (x 2%nat * x 0%nat) +
  (62243428098687 / 10000000000000) * (x 2%nat * x 1%nat) +
  (158437723188589 / 20000000000000) * (x 2%nat * x 2%nat) +
  (12448679688301 / 2000000000000) * (x 2%nat * x 3%nat) +
  (4149559164651 / 2000000000000) * (x 2%nat * x 4%nat) +
  (- (355676093144659 / 200000000000000)) * (x 3%nat * x 0%nat) +
  (210172524303919 / 100000000000000) * (x 3%nat * x 1%nat) +
  (12448679688301 / 2000000000000) * (x 3%nat * x 2%nat) +
  (829911871865983 / 100000000000000) * (x 3%nat * x 3%nat) +
  (134860680294621 / 20000000000000) * (x 3%nat * x 4%nat) +
  (- (176827815054763 / 50000000000000)) * (x 4%nat * x 0%nat) +
  (- (177838228097659 / 100000000000000)) * (x 4%nat * x 1%nat) +
  (4149559164651 / 2000000000000) * (x 4%nat * x 2%nat) +
  (134860680294621 / 20000000000000) * (x 4%nat * x 3%nat) +
  (963290582796267 / 100000000000000) * (x 4%nat * x 4%nat).
Lemma h12_pos x : 1 / 100 * (x 0%nat * x 0%nat + x 1%nat * x 1%nat + x 2%nat * x 2%nat + x 3%nat * x 3%nat + x 4%nat * x 4%nat) <= h12 x.
Proof.
  pose proof (Rle_0_sqr (x 0%nat + (7011 / 10000) * x 1%nat + (2157 / 10000) * x 2%nat + (- (1849 / 10000)) * x 3%nat + (- (3677 / 10000)) * x 4%nat)) as S0; unfold Rsqr in S0.
  pose proof (Rle_0_sqr (x 1%nat + (13411 / 10000) * x 2%nat + (1883 / 2000) * x 3%nat + (1971 / 10000) * x 4%nat)) as S1; unfold Rsqr in S1.
  pose proof (Rle_0_sqr (x 2%nat + (4981 / 2500) * x 3%nat + (3571 / 2000) * x 4%nat)) as S2; unfold Rsqr in S2.
  pose proof (Rle_0_sqr (x 3%nat + (28219 / 10000) * x 4%nat)) as S3; unfold Rsqr in S3.
  pose proof (Rle_0_sqr (x 4%nat)) as S4; unfold Rsqr in S4.
  pose proof (Rle_0_sqr (x 0%nat)) as Q0; unfold Rsqr in Q0.
  pose proof (Rle_0_sqr (x 0%nat - x 1%nat)) as P01; unfold Rsqr in P01.
  pose proof (Rle_0_sqr (x 0%nat + x 2%nat)) as P02; unfold Rsqr in P02.
  pose proof (Rle_0_sqr (x 0%nat - x 3%nat)) as P03; unfold Rsqr in P03.
  pose proof (Rle_0_sqr (x 0%nat - x 4%nat)) as P04; unfold Rsqr in P04.
  pose proof (Rle_0_sqr (x 1%nat)) as Q1; unfold Rsqr in Q1.
  pose proof (Rle_0_sqr (x 1%nat + x 2%nat)) as P12; unfold Rsqr in P12.
  pose proof (Rle_0_sqr (x 1%nat - x 3%nat)) as P13; unfold Rsqr in P13.
  pose proof (Rle_0_sqr (x 1%nat + x 4%nat)) as P14; unfold Rsqr in P14.
  pose proof (Rle_0_sqr (x 2%nat)) as Q2; unfold Rsqr in Q2.
  pose proof (Rle_0_sqr (x 2%nat - x 3%nat)) as P23; unfold Rsqr in P23.
  pose proof (Rle_0_sqr (x 2%nat + x 4%nat)) as P24; unfold Rsqr in P24.
  pose proof (Rle_0_sqr (x 3%nat)) as Q3; unfold Rsqr in Q3.
  pose proof (Rle_0_sqr (x 3%nat + x 4%nat)) as P34; unfold Rsqr in P34.
  pose proof (Rle_0_sqr (x 4%nat)) as Q4; unfold Rsqr in Q4.
  unfold h12. lra.
Qed.
