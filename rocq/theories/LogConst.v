(** * The constants of the no_std logarithm *)
From Coq Require Import NArith ZArith Reals Lra Lia Bool.
From Flocq Require Import Core BinarySingleNaN Sterbenz.
From Verif Require Import ModelRust ModelF64 ModelLog F64Facts LogFacts.
Local Open Scope R_scope.

(** ** The constants *)

Lemma one_bpow : forall e, bpow radix2 e * bpow radix2 (- e) = 1.
Proof. intros. rewrite <- bpow_plus. now replace (e + - e)%Z with 0%Z by lia. Qed.

(** A real number strictly closer to [m * 2^e] than half a unit rounds to it. *)
Lemma rnd_unique : forall x m e, (-1074 <= e)%Z -> (2 ^ 52 < m < 2 ^ 53)%Z ->
  Rabs (x - IZR m * bpow radix2 e) < / 2 * bpow radix2 e -> rnd x = IZR m * bpow radix2 e.
Proof.
  intros x m e He Hm H. pose proof (bpow_gt_0 radix2 e) as Hb.
  assert (B : IZR (2 ^ 52) + 1 <= IZR m <= IZR (2 ^ 53) - 1).
  { rewrite <- plus_IZR, <- minus_IZR. split; apply IZR_le; lia. }
  change (IZR (2 ^ 52)) with (bpow radix2 52) in B. change (IZR (2 ^ 53)) with (bpow radix2 53) in B.
  apply Rabs_def2 in H.
  assert (L : bpow radix2 (e + 52) <= x < bpow radix2 (e + 53)).
  { rewrite !bpow_plus. split; nra. }
  assert (C : cexp radix2 (FLT_exp (-1074) 53) x = e).
  { unfold cexp. rewrite (mag_unique_pos radix2 x (e + 53)).
    - unfold FLT_exp. lia.
    - replace (e + 53 - 1)%Z with (e + 52)%Z by lia. exact L. }
  unfold rnd, round, F2R, scaled_mantissa. cbn [Fnum Fexp]. rewrite C. f_equal. f_equal.
  apply Znearest_imp. rewrite <- (Rmult_1_r (IZR m)), <- (one_bpow e).
  rewrite <- Rmult_assoc, <- Rmult_minus_distr_r, Rabs_mult.
  rewrite (Rabs_pos_eq (bpow radix2 (- e))) by apply bpow_ge_0.
  apply Rmult_lt_reg_r with (bpow radix2 e); auto.
  rewrite Rmult_assoc, <- bpow_plus. replace (- e + e)%Z with 0%Z by lia.
  change (bpow radix2 0) with 1. rewrite Rmult_1_r. apply Rabs_def1; lra.
Qed.

Definition c_LN2_HI : R := 6243314766446592 / 9007199254740992.
Lemma LN2_HI_is : is LN2_HI c_LN2_HI.
Proof.
  change LN2_HI with (from_bits (1022 * 2 ^ 52 + 1739715139076096)).
  pose proof (normal_value 1022 1739715139076096 ltac:(lia) ltac:(lia) eq_refl) as H.
  replace c_LN2_HI with (IZR (Z.of_N (2 ^ 52 + 1739715139076096)) * bpow radix2 (Z.of_N 1022 - 1075)); [exact H|].
  unfold c_LN2_HI. simpl. lra.
Qed.

Definition c_LN2_LO : R := 7382048951581814 / 38685626227668133590597632.
Lemma LN2_LO_is : is LN2_LO c_LN2_LO.
Proof.
  change LN2_LO with (from_bits (990 * 2 ^ 52 + 2878449324211318)).
  pose proof (normal_value 990 2878449324211318 ltac:(lia) ltac:(lia) eq_refl) as H.
  replace c_LN2_LO with (IZR (Z.of_N (2 ^ 52 + 2878449324211318)) * bpow radix2 (Z.of_N 990 - 1075)); [exact H|].
  unfold c_LN2_LO. simpl. lra.
Qed.

Definition c_LG1 : R := 6004799503160723 / 9007199254740992.
Lemma LG1_is : is LG1 c_LG1.
Proof.
  change LG1 with (from_bits (1022 * 2 ^ 52 + 1501199875790227)).
  pose proof (normal_value 1022 1501199875790227 ltac:(lia) ltac:(lia) eq_refl) as H.
  replace c_LG1 with (IZR (Z.of_N (2 ^ 52 + 1501199875790227)) * bpow radix2 (Z.of_N 1022 - 1075)); [exact H|].
  unfold c_LG1. simpl. lra.
Qed.

Definition c_LG2 : R := 7205759403686404 / 18014398509481984.
Lemma LG2_is : is LG2 c_LG2.
Proof.
  change LG2 with (from_bits (1021 * 2 ^ 52 + 2702159776315908)).
  pose proof (normal_value 1021 2702159776315908 ltac:(lia) ltac:(lia) eq_refl) as H.
  replace c_LG2 with (IZR (Z.of_N (2 ^ 52 + 2702159776315908)) * bpow radix2 (Z.of_N 1021 - 1075)); [exact H|].
  unfold c_LG2. simpl. lra.
Qed.

Definition c_LG3 : R := 5146971033736025 / 18014398509481984.
Lemma LG3_is : is LG3 c_LG3.
Proof.
  change LG3 with (from_bits (1021 * 2 ^ 52 + 643371406365529)).
  pose proof (normal_value 1021 643371406365529 ltac:(lia) ltac:(lia) eq_refl) as H.
  replace c_LG3 with (IZR (Z.of_N (2 ^ 52 + 643371406365529)) * bpow radix2 (Z.of_N 1021 - 1075)); [exact H|].
  unfold c_LG3. simpl. lra.
Qed.

Definition c_LG4 : R := 8006390766270639 / 36028797018963968.
Lemma LG4_is : is LG4 c_LG4.
Proof.
  change LG4 with (from_bits (1020 * 2 ^ 52 + 3502791138900143)).
  pose proof (normal_value 1020 3502791138900143 ltac:(lia) ltac:(lia) eq_refl) as H.
  replace c_LG4 with (IZR (Z.of_N (2 ^ 52 + 3502791138900143)) * bpow radix2 (Z.of_N 1020 - 1075)); [exact H|].
  unfold c_LG4. simpl. lra.
Qed.

Definition c_LG5 : R := 6551322304906206 / 36028797018963968.
Lemma LG5_is : is LG5 c_LG5.
Proof.
  change LG5 with (from_bits (1020 * 2 ^ 52 + 2047722677535710)).
  pose proof (normal_value 1020 2047722677535710 ltac:(lia) ltac:(lia) eq_refl) as H.
  replace c_LG5 with (IZR (Z.of_N (2 ^ 52 + 2047722677535710)) * bpow radix2 (Z.of_N 1020 - 1075)); [exact H|].
  unfold c_LG5. simpl. lra.
Qed.

Definition c_LG6 : R := 5517391500461727 / 36028797018963968.
Lemma LG6_is : is LG6 c_LG6.
Proof.
  change LG6 with (from_bits (1020 * 2 ^ 52 + 1013791873091231)).
  pose proof (normal_value 1020 1013791873091231 ltac:(lia) ltac:(lia) eq_refl) as H.
  replace c_LG6 with (IZR (Z.of_N (2 ^ 52 + 1013791873091231)) * bpow radix2 (Z.of_N 1020 - 1075)); [exact H|].
  unfold c_LG6. simpl. lra.
Qed.

Definition c_LG7 : R := 5331612937900612 / 36028797018963968.
Lemma LG7_is : is LG7 c_LG7.
Proof.
  change LG7 with (from_bits (1020 * 2 ^ 52 + 828013310530116)).
  pose proof (normal_value 1020 828013310530116 ltac:(lia) ltac:(lia) eq_refl) as H.
  replace c_LG7 with (IZR (Z.of_N (2 ^ 52 + 828013310530116)) * bpow radix2 (Z.of_N 1020 - 1075)); [exact H|].
  unfold c_LG7. simpl. lra.
Qed.

(** Each pattern of log.rs:66-74 is its decimal literal, correctly rounded. *)
Lemma log_constants :
  is LN2_HI (rnd (693147180369123816490 / 10 ^ 21)) /\
  is LN2_LO (rnd (190821492927058770002 / 10 ^ 30)) /\
  is LG1 (rnd (6666666666666735130 / 10 ^ 19)) /\
  is LG2 (rnd (3999999999940941908 / 10 ^ 19)) /\
  is LG3 (rnd (2857142874366239149 / 10 ^ 19)) /\
  is LG4 (rnd (2222219843214978396 / 10 ^ 19)) /\
  is LG5 (rnd (1818357216161805012 / 10 ^ 19)) /\
  is LG6 (rnd (1531383769920937332 / 10 ^ 19)) /\
  is LG7 (rnd (1479819860511658591 / 10 ^ 19)).
Proof.
  split.
  { replace (rnd (693147180369123816490 / 10 ^ 21)) with c_LN2_HI; [exact LN2_HI_is|].
    rewrite (rnd_unique _ 6243314766446592 (-53)) by (try lia; simpl; apply Rabs_def1; lra).
    unfold c_LN2_HI. simpl. lra. }
  split.
  { replace (rnd (190821492927058770002 / 10 ^ 30)) with c_LN2_LO; [exact LN2_LO_is|].
    rewrite (rnd_unique _ 7382048951581814 (-85)) by (try lia; simpl; apply Rabs_def1; lra).
    unfold c_LN2_LO. simpl. lra. }
  split.
  { replace (rnd (6666666666666735130 / 10 ^ 19)) with c_LG1; [exact LG1_is|].
    rewrite (rnd_unique _ 6004799503160723 (-53)) by (try lia; simpl; apply Rabs_def1; lra).
    unfold c_LG1. simpl. lra. }
  split.
  { replace (rnd (3999999999940941908 / 10 ^ 19)) with c_LG2; [exact LG2_is|].
    rewrite (rnd_unique _ 7205759403686404 (-54)) by (try lia; simpl; apply Rabs_def1; lra).
    unfold c_LG2. simpl. lra. }
  split.
  { replace (rnd (2857142874366239149 / 10 ^ 19)) with c_LG3; [exact LG3_is|].
    rewrite (rnd_unique _ 5146971033736025 (-54)) by (try lia; simpl; apply Rabs_def1; lra).
    unfold c_LG3. simpl. lra. }
  split.
  { replace (rnd (2222219843214978396 / 10 ^ 19)) with c_LG4; [exact LG4_is|].
    rewrite (rnd_unique _ 8006390766270639 (-55)) by (try lia; simpl; apply Rabs_def1; lra).
    unfold c_LG4. simpl. lra. }
  split.
  { replace (rnd (1818357216161805012 / 10 ^ 19)) with c_LG5; [exact LG5_is|].
    rewrite (rnd_unique _ 6551322304906206 (-55)) by (try lia; simpl; apply Rabs_def1; lra).
    unfold c_LG5. simpl. lra. }
  split.
  { replace (rnd (1531383769920937332 / 10 ^ 19)) with c_LG6; [exact LG6_is|].
    rewrite (rnd_unique _ 5517391500461727 (-55)) by (try lia; simpl; apply Rabs_def1; lra).
    unfold c_LG6. simpl. lra. }
replace (rnd (1479819860511658591 / 10 ^ 19)) with c_LG7; [exact LG7_is|].
    rewrite (rnd_unique _ 5331612937900612 (-55)) by (try lia; simpl; apply Rabs_def1; lra).
    unfold c_LG7. simpl. lra.
Qed.
