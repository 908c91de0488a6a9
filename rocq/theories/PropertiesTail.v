(** * Errors are exponentially rare *)
From Coq Require Import NArith ZArith Reals List Lia Lra.
From Flocq Require Import Core BinarySingleNaN.
From Verif Require Import ModelRust ModelF64 ModelEnv ModelHistory Spec SpecReal SpecCount SpecDist
  SpecProb SpecBuild ProbFacts AccFacts TailLarge TailMid.
Import ListNotations.
Local Open Scope R_scope.

(** ** C65: the fraction of hash assignments with a large error is exponentially small in the number of registers *)

(** From half as many values as registers on. With few values it is false: two of n values share a
    register for a fraction of about n^2/2m of the assignments. *)
Theorem C65_plus : forall e p n t, build_std e -> accurate e -> (10 <= p <= 18)%N -> 0 < t <= / 10 ->
  m_R p / 2 <= INR n -> INR n <= IZR (2 ^ 59) ->
  rare 64 n (5 * exp (- (m_R p * t ^ 2 / 4)))
    (fun hs => ~ plus_counts e p (INR n * (0.985 - 1.75 * t)) (INR n * (1.015 + 1.75 * t)) hs).
Proof. exact plus_tail. Qed.
Print Assumptions C65_plus.

Theorem C65_pf : forall e p n t, build e -> accurate e -> (10 <= p <= 16)%N -> 0 < t <= / 10 ->
  m_R p / 2 <= INR n -> INR n <= 0.89 * IZR (2 ^ 27) ->
  rare 32 n (4 * exp (- (m_R p * t ^ 2 / 10)))
    (fun hs => ~ pf_counts e p (INR n * (0.984 - 1.1 * t)) (INR n * (1.036 + 1.4 * t)) hs).
Proof. exact pf_tail. Qed.
Print Assumptions C65_pf.

(** Every precision, once the raw estimate is returned as it is. *)
Theorem C65_plus_large : forall e p n t, build_std e -> accurate e -> (4 <= p <= 18)%N -> 0 < t <= / 5 ->
  5.5 * (1 + 1.17 * t) * m_R p <= INR n -> INR n <= IZR (2 ^ 59) ->
  rare 64 n (2 * exp (- (m_R p * t ^ 2 / 4)))
    (fun hs => ~ plus_counts e p
      (alpha_R p / 0.7229 * INR n / (1 + 1.17 * t) * (1 - / IZR (2 ^ 33)))
      (alpha_R p * (1 + / m_R p) / 0.7190 * INR n / (1 - 1.17 * t) * (1 + / IZR (2 ^ 33))) hs).
Proof. exact plus_tail_large. Qed.
Print Assumptions C65_plus_large.

Theorem C65_pf_large : forall e p n t, build e -> accurate e -> (4 <= p <= 16)%N -> 0 < t <= / 5 ->
  4 * m_R p <= INR n -> INR n <= (1 - 1.17 * t) * IZR (2 ^ 27) ->
  rare 32 n (2 * exp (- (m_R p * t ^ 2 / 4)))
    (fun hs => ~ pf_counts e p
      (alpha_R p / 0.7229 * INR n / (1 + 1.17 * t) * (1 - / IZR (2 ^ 49)))
      (alpha_R p * (1 + / m_R p) / 0.7190 * INR n / (1 - 1.17 * t) * (1 + / IZR (2 ^ 49))) hs).
Proof. exact pf_tail_large. Qed.
Print Assumptions C65_pf_large.

(** A million values at precision 18: all but one in 10^9 of the hash assignments give a count within 5%. *)
Example C65_example : exists n, m_R 18 / 2 <= INR n /\ INR n <= IZR (2 ^ 59) /\ INR n = 1000000 /\
  5 * exp (- (m_R 18 * (/ 50) ^ 2 / 4)) <= / 1000000000 /\ 0.015 + 1.75 * / 50 <= 0.05.
Proof.
  exists (Z.to_nat 1000000). rewrite INR_IZR_INZ, Znat.Z2Nat.id by discriminate.
  change (m_R 18) with 262144. change (IZR (2 ^ 59)) with 576460752303423488. pose proof exp_26. repeat split; lra || assumption.
Qed.
