(** * The mean and the mean square error of the count *)
From Coq Require Import NArith ZArith Reals List Lia Lra.
From Flocq Require Import Core BinarySingleNaN.
From Verif Require Import ModelRust ModelF64 ModelEnv ModelHistory Spec SpecReal SpecCount SpecDist
  SpecProb SpecBuild SpecMean ProbFacts RiskFacts RiskPF RiskLinear RiskMid RiskMidPF.
Import ListNotations.
Local Open Scope R_scope.

(** ** C66: averaged over all hash assignments, the count is n up to 0.4% and its spread is about 1.05/sqrt(m) *)

Theorem C66_mean : forall e p n C, build_std e -> accurate e -> (10 <= p <= 18)%N ->
  6.06 * m_R p <= INR n -> INR n <= IZR (2 ^ 59) -> plus_program e p n C ->
  forall all, enumerates (hash_list 64 n) all ->
  INR n * (0.9964 - 2 * exp (- (m_R p / 430))) * INR (length all) <= rsum C all /\
  rsum C all <= INR n * (1.0034 + 1.23 / m_R p + 8 * exp (- (m_R p / 430))) * INR (length all).
Proof. exact mean_both. Qed.
Print Assumptions C66_mean.

(** The mean square of the relative error. With t free the second term can be made negligible at
    small cost in the first. *)
Theorem C66_square : forall e p n C, build_std e -> accurate e -> (10 <= p <= 18)%N ->
  6.06 * m_R p <= INR n -> INR n <= IZR (2 ^ 59) -> plus_program e p n C ->
  forall all, enumerates (hash_list 64 n) all -> forall t, 0 < t <= / 10 ->
  rsum (fun hs => (C hs / INR n - 1) ^ 2) all
  <= (((0.004 + 1.05 / sqrt (m_R p)) / (1 - t)) ^ 2 + 13 * exp (- (m_R p * t ^ 2 / 4.3))) * INR (length all).
Proof. exact square_plus. Qed.
Print Assumptions C66_square.

(** There is such a program. *)
Theorem C66_programs : forall e p n, build_std e -> accurate e -> (4 <= p <= 18)%N -> (2 * p < usize_bits e)%N ->
  exists C, plus_program e p n C.
Proof. exact program_exists. Qed.
Print Assumptions C66_programs.

(** The same of HyperLogLogPF, up to 0.95·2^27 values, a count that is not a number taken as 0. *)
Theorem C66_pf_mean : forall e p n C, build e -> accurate e -> rejects e -> (10 <= p <= 16)%N ->
  4 * m_R p <= INR n -> INR n <= 0.95 * IZR (2 ^ 27) -> pf_program e p n C ->
  forall all, enumerates (hash_list 32 n) all ->
  INR n * (0.9964 - 4 * exp (- (m_R p / 430))) * INR (length all) <= rsum C all /\
  rsum C all <= INR n * (1.0034 + 1.23 / m_R p + 12 * exp (- (m_R p / 430))) * INR (length all).
Proof. exact mean_pf. Qed.
Print Assumptions C66_pf_mean.

Theorem C66_pf_square : forall e p n C, build e -> accurate e -> rejects e -> (10 <= p <= 16)%N ->
  4 * m_R p <= INR n -> INR n <= 0.95 * IZR (2 ^ 27) -> pf_program e p n C ->
  forall all, enumerates (hash_list 32 n) all -> forall t, 0 < t <= / 10 ->
  rsum (fun hs => (C hs / INR n - 1) ^ 2) all
  <= (((0.004 + 1.05 / sqrt (m_R p)) / (1 - t)) ^ 2 + 21 * exp (- (m_R p * t ^ 2 / 4.3))) * INR (length all).
Proof. exact square_pf. Qed.
Print Assumptions C66_pf_square.

Theorem C66_pf_programs : forall e p n, build e -> accurate e -> rejects e -> (4 <= p <= 16)%N ->
  (2 * p < usize_bits e)%N -> exists C, pf_program e p n C.
Proof. exact program_exists_pf. Qed.
Print Assumptions C66_pf_programs.

(** Two million values at precision 18: the count's root mean square error is below 0.7%. *)
Example C66_example : exists n, 6.06 * m_R 18 <= INR n /\ INR n <= IZR (2 ^ 59) /\ INR n = 2000000 /\
  ((0.004 + 1.05 / sqrt (m_R 18)) / (1 - / 50)) ^ 2 + 13 * exp (- (m_R 18 * (/ 50) ^ 2 / 4.3)) <= 0.007 ^ 2.
Proof.
  exists (Z.to_nat 2000000). rewrite INR_IZR_INZ, Znat.Z2Nat.id by discriminate.
  change (m_R 18) with 262144. change (IZR (2 ^ 59)) with 576460752303423488. pose proof exp_24.
  replace (1 - / 50) with 0.98 by lra.
  replace (sqrt 262144) with 512 by (replace 262144 with (512 * 512) by lra; rewrite sqrt_square; lra). repeat split; lra.
Qed.

(** A million values at precision 16: below 1.1%. *)
Example C66_pf_example : exists n, 4 * m_R 16 <= INR n /\ INR n <= 0.95 * IZR (2 ^ 27) /\ INR n = 1000000 /\
  ((0.004 + 1.05 / sqrt (m_R 16)) / (1 - / 25)) ^ 2 + 21 * exp (- (m_R 16 * (/ 25) ^ 2 / 4.3)) <= 0.011 ^ 2.
Proof.
  exists (Z.to_nat 1000000). rewrite INR_IZR_INZ, Znat.Z2Nat.id by discriminate.
  change (m_R 16) with 65536. change (IZR (2 ^ 27)) with 134217728. pose proof exp_24_pf.
  replace (1 - / 25) with 0.96 by lra.
  replace (sqrt 65536) with 256 by (replace 65536 with (256 * 256) by lra; rewrite sqrt_square; lra). repeat split; lra.
Qed.

(** ** Few values: linear counting and sparse sketches *)

(** Up to half as many values as registers HyperLogLogPF errs by 1.07/sqrt(m), and is high by less than 1.4/m
    on average, at every precision. *)
Theorem C66_pf_small_mean : forall e p n C, build e -> accurate e -> (4 <= p <= 16)%N -> INR n <= m_R p / 2 ->
  pf_program e p n C -> forall all, enumerates (hash_list 32 n) all ->
  INR n * (1 - / IZR (2 ^ 28)) * INR (length all) <= rsum C all /\
  rsum C all <= INR n * (1 + 1.4 / m_R p) * (1 + / IZR (2 ^ 28)) * INR (length all).
Proof. exact pf_linear_mean. Qed.
Print Assumptions C66_pf_small_mean.

Theorem C66_pf_small_square : forall e p n C, build e -> accurate e -> (4 <= p <= 16)%N -> (0 < n)%nat ->
  INR n <= m_R p / 2 -> pf_program e p n C -> forall all, enumerates (hash_list 32 n) all ->
  rsum (fun hs => (C hs / INR n - 1) ^ 2) all <= 1.13 / m_R p * INR (length all).
Proof. exact pf_linear_square. Qed.
Print Assumptions C66_pf_small_square.

(** While a HyperLogLogPlus is bound to be sparse. *)
Theorem C66_sparse_mean : forall e p n C, build_std e -> accurate e -> (4 <= p <= 18)%N -> (0 < n)%nat ->
  (4 * N.of_nat n + 16 <= sparse_limit p)%N -> plus_program e p n C ->
  forall all, enumerates (hash_list 64 n) all ->
  INR n * (1 - INR n / IZR (2 ^ 26)) * (1 - / IZR (2 ^ 28)) * INR (length all) <= rsum C all /\
  rsum C all <= INR n * (1 + 1.02 * (INR n / IZR (2 ^ 25))) * (1 + / IZR (2 ^ 28)) * INR (length all).
Proof. exact sparse_mean_all. Qed.
Print Assumptions C66_sparse_mean.

Theorem C66_sparse_square : forall e p n C, build_std e -> accurate e -> (4 <= p <= 18)%N -> (0 < n)%nat ->
  (4 * N.of_nat n + 16 <= sparse_limit p)%N -> plus_program e p n C ->
  forall all, enumerates (hash_list 64 n) all ->
  rsum (fun hs => (C hs / INR n - 1) ^ 2) all
  <= (0.8 / IZR (2 ^ 25) + (1.15 * INR n / IZR (2 ^ 25)) ^ 2) * INR (length all).
Proof. exact sparse_square_all. Qed.
Print Assumptions C66_sparse_square.

(** Sparse or not, which may depend on the hashes. At precision 5 the threshold for linear counting
    is 10 where the published one is 20 (C44). *)
Theorem C66_small_square : forall e p n C, build_std e -> accurate e -> (4 <= p <= 18)%N -> p <> 5%N -> (0 < n)%nat ->
  INR n <= 0.45 * m_R p -> plus_program e p n C ->
  forall all, enumerates (hash_list 64 n) all ->
  rsum (fun hs => (C hs / INR n - 1) ^ 2) all
  <= (1.13 / m_R p + 0.8 / IZR (2 ^ 25) + (1.15 * INR n / IZR (2 ^ 25)) ^ 2) * INR (length all).
Proof. exact small_square_all. Qed.
Print Assumptions C66_small_square.

(** A hundred values at precision 16: HyperLogLogPlus is certainly sparse and off by less than 0.02%,
    HyperLogLogPF by less than 0.5%. *)
Example C66_small_example : exists n, (4 * N.of_nat n + 16 <= sparse_limit 16)%N /\ (0 < n)%nat /\ INR n = 100 /\
  INR n <= m_R 16 / 2 /\ INR n <= 0.45 * m_R 16 /\ 1.13 / m_R 16 <= 0.005 ^ 2 /\
  0.8 / IZR (2 ^ 25) + (1.15 * INR n / IZR (2 ^ 25)) ^ 2 <= 0.0002 ^ 2.
Proof.
  exists 100%nat. rewrite INR_IZR_INZ. change (m_R 16) with 65536. change (IZR (2 ^ 25)) with 33554432.
  change (IZR (Z.of_nat 100)) with 100. change (sparse_limit 16) with 52428%N. repeat split; lia || lra.
Qed.

(** ** Every cardinality *)

(** No number of values and no hash assignment is left out: the square root of the mean square relative error
    is within 1.5% + 2.61/sqrt(m), up to a term that vanishes with the number of registers. *)
Theorem C66_everywhere : forall e p n C, build_std e -> accurate e -> (10 <= p <= 18)%N -> (0 < n)%nat ->
  INR n <= IZR (2 ^ 59) -> plus_program e p n C -> forall all, enumerates (hash_list 64 n) all ->
  rsum (fun hs => (C hs / INR n - 1) ^ 2) all
  <= ((0.015 + 2.61 / sqrt (m_R p)) ^ 2 + 28 * exp (- (m_R p / 430))) * INR (length all).
Proof. exact everywhere_square. Qed.
Print Assumptions C66_everywhere.

(** At precision 18 the error is below 2.1%, with 300000 values, where linear counting has given way to
    the bias-corrected estimate, as well. *)
Example C66_everywhere_example : exists n, (0 < n)%nat /\ INR n = 300000 /\ 0.45 * m_R 18 < INR n < 6.06 * m_R 18 /\
  INR n <= IZR (2 ^ 59) /\ (0.015 + 2.61 / sqrt (m_R 18)) ^ 2 + 28 * exp (- (m_R 18 / 430)) <= 0.021 ^ 2.
Proof.
  exists (Z.to_nat 300000). rewrite INR_IZR_INZ, Znat.Z2Nat.id by discriminate.
  change (m_R 18) with 262144. change (IZR (2 ^ 59)) with 576460752303423488.
  replace (sqrt 262144) with 512 by (replace 262144 with (512 * 512) by lra; rewrite sqrt_square; lra).
  assert (X : exp (- (262144 / 430)) <= / 1000000000).
  { eapply Rle_trans; [|exact exp_24]. left. apply exp_increasing. lra. }
  repeat split; try lra. lia.
Qed.

(** HyperLogLogPF, which corrects no bias, within 3.6% + 2.28/sqrt(m). *)
Theorem C66_pf_everywhere : forall e p n C, build e -> accurate e -> rejects e -> (10 <= p <= 16)%N -> (0 < n)%nat ->
  INR n <= 0.95 * IZR (2 ^ 27) -> pf_program e p n C -> forall all, enumerates (hash_list 32 n) all ->
  rsum (fun hs => (C hs / INR n - 1) ^ 2) all
  <= ((0.036 + 2.28 / sqrt (m_R p)) ^ 2 + 42 * exp (- (m_R p / 1000))) * INR (length all).
Proof. exact pf_everywhere_square. Qed.
Print Assumptions C66_pf_everywhere.

(** At precision 16 that is below 4.6%. *)
Example C66_pf_everywhere_example : exists n, (0 < n)%nat /\ INR n = 100000 /\ m_R 16 / 2 < INR n < 4 * m_R 16 /\
  INR n <= 0.95 * IZR (2 ^ 27) /\ (0.036 + 2.28 / sqrt (m_R 16)) ^ 2 + 42 * exp (- (m_R 16 / 1000)) <= 0.046 ^ 2.
Proof.
  exists (Z.to_nat 100000). rewrite INR_IZR_INZ, Znat.Z2Nat.id by discriminate.
  change (m_R 16) with 65536. change (IZR (2 ^ 27)) with 134217728.
  replace (sqrt 65536) with 256 by (replace 65536 with (256 * 256) by lra; rewrite sqrt_square; lra).
  assert (X : exp (- (65536 / 1000)) <= / 1000000000).
  { eapply Rle_trans; [|exact exp_24_pf]. left. apply exp_increasing. lra. }
  repeat split; try lra. lia.
Qed.
