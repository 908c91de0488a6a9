(** * Accuracy for most hash assignments

    [n] distinct values have [n] hashes; if the hash function is uniform and independent on
    them, each of the [(2^W)^n] lists of [n] hashes is equally likely, and [rare W n delta bad]
    says that the probability of [bad] is at most [delta]. *)
From Coq Require Import NArith ZArith Reals List Bool Lia Lra.
From Flocq Require Import Core BinarySingleNaN.
From Verif Require Import ModelRust ModelF64 ModelEnv ModelHistory ModelTests Spec SpecReal SpecCount SpecDist
  SpecProb SpecBuild BitFacts DistFacts ProbFacts MomentFacts AccFacts AccSmall AccOver ClaimFacts ExtremeFacts
  LogConst Witness RefuteFacts.
Import ListNotations.
Local Open Scope R_scope.

(** ** C53: small counts are exact, except for colliding 25-bit prefixes *)
Theorem C53_exact : forall e p n, build_std e -> accurate e -> (4 <= p <= 18)%N ->
  (4 * N.of_nat n + 16 <= sparse_limit p)%N -> (N.of_nat n <= 5791)%N ->
  rare 64 n (INR n ^ 2 / IZR (2 ^ 26)) (fun hs => ~ plus_counts_int e p (Z.of_nat n) hs).
Proof. exact plus_exact. Qed.
Print Assumptions C53_exact.

(** 1000 values at precision 14: exact for more than 98% of the hash assignments. *)
Example C53_example :
  (4 * N.of_nat 1000 + 16 <= sparse_limit 14)%N /\ INR 1000 ^ 2 / IZR (2 ^ 26) <= 0.015 /\
  build_std test_env /\ accurate test_env /\
  trunc (count_plus test_env keep (inserted 14 mix Insert keep (range 40))) = Ret 40%Z.
Proof.
  split; [vm_compute; discriminate|]. split.
  { rewrite INR_IZR_INZ. change (IZR (Z.of_nat 1000)) with 1000. change (IZR (2 ^ 26)) with 67108864. lra. }
  split; [exact test_build|]. split; [exact test_accurate'|vm_compute; reflexivity].
Qed.

(** ** C54: two registers; the spread of the harmonic sum and of the number of empty registers *)
Theorem C54_pair : forall W p n file i j k l, (
  p < W -> register_files W p n file -> i < 2 ^ p -> j < 2 ^ p -> i <> j -> k <= W - p -> l <= W - p ->
  size_of (fun hs => hash_list W n hs /\
             nth (N.to_nat i) (file hs) 0 <= k /\ nth (N.to_nat j) (file hs) 0 <= l)
          ((2 ^ W - 2 ^ (W - p - k) - 2 ^ (W - p - l)) ^ N.of_nat n))%N.
Proof. exact register_distribution2. Qed.
Print Assumptions C54_pair.

(** The sum of 2^-register has mean about 0.7213 m^2/n and relative standard deviation about
    1.05/sqrt(m). *)
Theorem C54_harmonic : forall W p n file all, (4 <= p)%N -> (p < W)%N ->
  4 * m_R p <= INR n -> INR n <= IZR (2 ^ Z.of_N W) / 32 ->
  register_files W p n file -> enumerates (hash_list W n) all ->
  exists mu, rsum (fun hs => inv_sum (file hs)) all = mu * INR (length all) /\
    mu * INR n <= 0.7229 * m_R p ^ 2 /\ 0.7190 * m_R p ^ 2 <= mu * INR n * (1 + / m_R p) /\
    rsum (fun hs => (inv_sum (file hs) - mu) ^ 2) all
    <= (2.0983 * (1 + / m_R p) ^ 2 - 1) / m_R p * mu ^ 2 * INR (length all).
Proof. exact harmonic_spread. Qed.
Print Assumptions C54_harmonic.

(** The number of empty registers has mean m (1 - 1/m)^n (C46). *)
Theorem C54_zeros : forall W p n file all, (p < W)%N -> register_files W p n file ->
  enumerates (hash_list W n) all ->
  rsum (fun hs => (IZR (Z.of_N (zero_count (file hs))) - m_R p * below p n 0) ^ 2) all
  <= m_R p * (below p n 0 + (m_R p - 1) * (1 - 2 / m_R p) ^ n - m_R p * (below p n 0 * below p n 0)) * INR (length all).
Proof. exact zeros_spread. Qed.
Print Assumptions C54_zeros.

(** Hashes of 4 bits, 4 buckets, 2 values: the registers 1 and 2 are both 0 for 8^2 lists, and
    at most 1 and 0 for 10^2. *)
Example C54_example :
  let all := lists_of (range 16) 2 in
  let both k l := filter (fun hs => (nth 1 (file_of 4 2 hs) 0 <=? k)%N && (nth 2 (file_of 4 2 hs) 0 <=? l)%N) all in
  length all = 256%nat /\ length (both 0%N 0%N) = 64%nat /\ length (both 1%N 0%N) = 100%nat /\
  register_files 4 2 2 (file_of 4 2) /\ 4 * m_R 14 <= 100000 <= IZR (2 ^ Z.of_N 64) / 32.
Proof.
  cbv zeta. split; [reflexivity|]. split; [reflexivity|]. split; [reflexivity|].
  split; [apply file_of_files; discriminate|]. change (m_R 14) with 16384.
  change (IZR (2 ^ Z.of_N 64)) with 18446744073709551616. lra.
Qed.

(** ** C55: large cardinalities *)

(** The count of HyperLogLogPlus, from 5.5m(1+t) values on: for all but a fraction of about
    1.1/(m t^2) of the hash assignments, it is n, up to a factor within about 1 +- t. *)
Theorem C55_plus : forall e p n t, build_std e -> accurate e -> (4 <= p <= 18)%N -> 0 < t < 1 ->
  5.5 * (1 + t) * m_R p <= INR n -> INR n <= IZR (2 ^ 59) ->
  rare 64 n ((2.0983 * (1 + / m_R p) ^ 2 - 1) / (m_R p * t ^ 2))
    (fun hs => ~ plus_counts e p
      (alpha_R p / 0.7229 * INR n / (1 + t) * (1 - / IZR (2 ^ 33)))
      (alpha_R p * (1 + / m_R p) / 0.7190 * INR n / (1 - t) * (1 + / IZR (2 ^ 33))) hs).
Proof. exact plus_large. Qed.
Print Assumptions C55_plus.

Theorem C55_plus_10 : forall e p n t, build_std e -> accurate e -> (10 <= p <= 18)%N -> 0 < t < 1 ->
  5.5 * (1 + t) * m_R p <= INR n -> INR n <= IZR (2 ^ 59) ->
  rare 64 n (1.1025 / (m_R p * t ^ 2))
    (fun hs => ~ plus_counts e p (0.996 * INR n / (1 + t)) (1.004 * INR n / (1 - t)) hs).
Proof. exact plus_large_10. Qed.
Print Assumptions C55_plus_10.

(** HyperLogLogPF, from 4m up to about 2^27 values. *)
Theorem C55_pf : forall e p n t, build e -> accurate e -> (4 <= p <= 16)%N -> 0 < t < 1 ->
  4 * m_R p <= INR n -> 2.7 * (1 + t) * m_R p <= INR n -> INR n <= (1 - t) * IZR (2 ^ 27) ->
  rare 32 n ((2.0983 * (1 + / m_R p) ^ 2 - 1) / (m_R p * t ^ 2))
    (fun hs => ~ pf_counts e p
      (alpha_R p / 0.7229 * INR n / (1 + t) * (1 - / IZR (2 ^ 49)))
      (alpha_R p * (1 + / m_R p) / 0.7190 * INR n / (1 - t) * (1 + / IZR (2 ^ 49))) hs).
Proof. exact pf_large. Qed.
Print Assumptions C55_pf.

Theorem C55_pf_10 : forall e p n t, build e -> accurate e -> (10 <= p <= 16)%N -> 0 < t < 1 ->
  4 * m_R p <= INR n -> 2.7 * (1 + t) * m_R p <= INR n -> INR n <= (1 - t) * IZR (2 ^ 27) ->
  rare 32 n (1.1025 / (m_R p * t ^ 2))
    (fun hs => ~ pf_counts e p (0.996 * INR n / (1 + t)) (1.004 * INR n / (1 - t)) hs).
Proof. exact pf_large_10. Qed.
Print Assumptions C55_pf_10.

(** 100000 values, t = 1/30: precision 16 of HyperLogLogPF and 14 of both satisfy the hypotheses,
    and at most 6.1% of the assignments are bad at precision 14. *)
Example C55_example : exists n,
  5.5 * (1 + / 30) * m_R 14 <= INR n <= IZR (2 ^ 59) /\ 4 * m_R 14 <= INR n /\
  2.7 * (1 + / 30) * m_R 14 <= INR n <= (1 - / 30) * IZR (2 ^ 27) /\
  1.1025 / (m_R 14 * (/ 30) ^ 2) <= 0.061.
Proof.
  exists (Z.to_nat 100000). rewrite INR_IZR_INZ, Znat.Z2Nat.id by discriminate.
  change (m_R 14) with 16384. change (IZR (2 ^ 59)) with 576460752303423488.
  change (IZR (2 ^ 27)) with 134217728. lra.
Qed.

(** ** C56: small cardinalities *)

(** Linear counting: up to m values, n up to a factor 1 - s to 1 + 1.16 s + 1/m, for all but
    1.2/(m s^2) of the assignments. *)
Theorem C56_pf : forall e p n s, build e -> accurate e -> (4 <= p <= 16)%N -> 0 < s <= / 10 ->
  (0 < n)%nat -> INR n <= m_R p ->
  rare 32 n (1.2 / (m_R p * s ^ 2))
    (fun hs => ~ pf_counts e p (INR n * (1 - s) * (1 - / IZR (2 ^ 28)))
      (INR n * (1 + / m_R p + 1.16 * s) * (1 + / IZR (2 ^ 28))) hs).
Proof. exact pf_small. Qed.
Print Assumptions C56_pf.

(** The same for HyperLogLogPlus up to its threshold, whether or not the sketch is sparse; the
    second summand is for colliding prefixes, the second bound for counting 2^24 buckets. *)
Theorem C56_plus : forall e p n s, build_std e -> accurate e -> (4 <= p <= 18)%N -> 0 < s <= / 10 ->
  (0 < n)%nat -> INR n * (1 + / m_R p + 1.16 * s) <= threshold_R p ->
  rare 64 n (1.2 / (m_R p * s ^ 2) + INR n / (IZR (2 ^ 26) * s))
    (fun hs => ~ plus_counts e p (INR n * (1 - s) * (1 - / IZR (2 ^ 28)))
      (INR n * Rmax (1 + / m_R p + 1.16 * s) (IZR (2 ^ 24) / (IZR (2 ^ 24) - INR n)) * (1 + / IZR (2 ^ 28))) hs).
Proof. exact plus_small. Qed.
Print Assumptions C56_plus.

Example C56_example : exists n, (0 < n)%nat /\
  INR n <= m_R 14 /\ INR n * (1 + / m_R 14 + 1.16 * / 20) <= threshold_R 14 /\
  1.2 / (m_R 14 * (/ 20) ^ 2) + INR n / (IZR (2 ^ 26) * / 20) <= 0.033.
Proof.
  exists (Z.to_nat 10000). split; [apply Nat2Z.inj_lt; rewrite Znat.Z2Nat.id; [reflexivity|discriminate]|].
  rewrite INR_IZR_INZ, Znat.Z2Nat.id by discriminate.
  change (m_R 14) with 16384. change (IZR (2 ^ 26)) with 67108864. change (threshold_R 14) with 11500. lra.
Qed.

(** ** C57: HyperLogLogPF beyond 2^32/30

    The claim one would make for a 32-bit hash: whatever the number of values, at least a tenth
    of the hash assignments gives a count within 10%.  It is false at precision 16 for 2^31
    values.  The raw estimate is close to n (see [lo] and [hi] below); the large-range
    correction adds a quarter to it. *)
Theorem C57_refuted : forall e n, build e -> accurate e -> (32 < usize_bits e)%N -> Z.of_nat n = (2 ^ 31)%Z ->
  ~ rare 32 n 0.9 (fun hs => ~ pf_counts e 16 (0.9 * INR n) (1.1 * INR n) hs).
Proof. exact pf_not_within. Qed.
Print Assumptions C57_refuted.

(** All but 7.3% of the assignments are counted at least 20% too high. *)
Theorem C57_high : forall e n, build e -> accurate e -> Z.of_nat n = (2 ^ 31)%Z ->
  rare 32 n 0.073 (fun hs => ~ pf_counts e 16 (1.2 * INR n) (1.5 * INR n) hs).
Proof. exact pf_over_2_31. Qed.
Print Assumptions C57_high.

(** What holds up to 2^31 values. *)
Theorem C57_over : forall e p n t, build e -> accurate e -> (4 <= p <= 16)%N -> 0 < t < 1 ->
  4 * m_R p <= INR n -> INR n <= IZR (2 ^ 31) ->
  let lo := alpha_R p / (0.7226 + (INR n / IZR (2 ^ 33)) ^ 2) * INR n / (1 + t) in
  let hi := alpha_R p * (1 + / m_R p) / 0.7190 * INR n / (1 - t) in
  IZR (2 ^ 32) / 30 < lo -> 2.5 * m_R p < lo -> hi < IZR (2 ^ 32) ->
  rare 32 n ((2.16 * (1 + / m_R p) ^ 2 - 1) / (m_R p * t ^ 2))
    (fun hs => ~ pf_counts e p (large_R lo * (1 - / IZR (2 ^ 28))) (large_R hi * (1 + / IZR (2 ^ 28))) hs).
Proof. exact pf_over. Qed.
Print Assumptions C57_over.

Example C57_example : exists n, Z.of_nat n = (2 ^ 31)%Z /\ build core_env /\ accurate core_env /\
  (32 < usize_bits core_env)%N.
Proof.
  exists (Z.to_nat (2 ^ 31)). split; [apply Znat.Z2Nat.id; discriminate|]. split; [exact core_build|].
  split; [intros E; discriminate E|reflexivity].
Qed.
