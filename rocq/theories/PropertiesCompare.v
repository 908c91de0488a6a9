(** * HyperLogLogPlus against HyperLogLogPF at small cardinalities *)
From Coq Require Import NArith ZArith Reals List Lia Lra.
From Flocq Require Import Core BinarySingleNaN.
From Verif Require Import ModelRust ModelF64 ModelEnv ModelHistory Spec SpecReal SpecCount SpecDist
  SpecProb SpecBuild SpecMean ProbFacts LinearFacts RiskLinear LowerFacts.
Import ListNotations.
Local Open Scope R_scope.

(** ** C73: sparse sketches err less *)

(** With the same number of registers and the same number n of distinct hashes, while 4n+16 is at
    most the bound on the sparse list (0.8 m, so n up to about m/5), the mean square relative error
    of HyperLogLogPlus over all 64-bit hashes is at most a tenth of that of HyperLogLogPF over all
    32-bit hashes. *)
Theorem C73_smaller : forall e e' p n C D, build_std e -> accurate e -> build e' -> accurate e' ->
  (4 <= p <= 16)%N -> (0 < n)%nat -> (4 * N.of_nat n + 16 <= sparse_limit p)%N ->
  plus_program e p n C -> pf_program e' p n D ->
  forall all64 all32, enumerates (hash_list 64 n) all64 -> enumerates (hash_list 32 n) all32 ->
  10 * (rsum (fun hs => (C hs / INR n - 1) ^ 2) all64 / INR (length all64))
  <= rsum (fun hs => (D hs / INR n - 1) ^ 2) all32 / INR (length all32).
Proof. exact sparse_better. Qed.
Print Assumptions C73_smaller.

(** HyperLogLogPF cannot do better: its mean square error is of the order of 1/m from two values on. *)
Theorem C73_pf_lower : forall e p n C, build e -> accurate e -> (4 <= p <= 16)%N -> (0 < n)%nat ->
  INR n <= m_R p / 2 -> pf_program e p n C ->
  forall all, enumerates (hash_list 32 n) all ->
  0.237 * (1 - / INR n) / m_R p * INR (length all) <= rsum (fun hs => (C hs / INR n - 1) ^ 2) all.
Proof. exact pf_square_lower. Qed.
Print Assumptions C73_pf_lower.

(** The variance of the number of empty registers, exactly. *)
Theorem C73_zeros : forall W p n file all, (p < W)%N -> register_files W p n file ->
  enumerates (hash_list W n) all ->
  rsum (fun hs => (IZR (Z.of_N (zero_count (file hs))) - m_R p * (1 - / m_R p) ^ n) ^ 2) all
  = m_R p * ((1 - / m_R p) ^ n + (m_R p - 1) * (1 - 2 / m_R p) ^ n
             - m_R p * ((1 - / m_R p) ^ n * (1 - / m_R p) ^ n)) * INR (length all).
Proof. exact zeros_exact. Qed.
Print Assumptions C73_zeros.

(** A thousand values at precision 16 are counted in the sparse list, and HyperLogLogPF's root mean
    square error is then at least 0.19%. *)
Example C73_example : (4 * N.of_nat 1000 + 16 <= sparse_limit 16)%N /\ INR 1000 <= m_R 16 / 2 /\
  0.0019 ^ 2 <= 0.237 * (1 - / INR 1000) / m_R 16.
Proof. exact compare_example. Qed.
