(** * The bias tables, and accuracy over the whole range of cardinalities *)
From Coq Require Import NArith ZArith Reals List Bool Lia Lra.
From Flocq Require Import Core BinarySingleNaN.
From Verif Require Import ModelRust ModelF64 ModelEnv ModelConstants ModelHistory ModelTests Spec SpecReal SpecCount SpecDist
  SpecProb SpecBuild SpecTable ProbFacts AccFacts BiasFacts EntryCheck AccRange AccMidPF TableGrid.
Import ListNotations.
Local Open Scope R_scope.

(** ** C58: every entry of the bias tables is the one the theory asks for *)

(** An entry [x] of the raw estimates with bias [y] stands for a cardinality [n], which is [x - y].
    [mu] is the mean of the harmonic sum over all [2^(64n)] lists of [n] hashes, and [x] agrees
    with the raw estimate [alpha m^2 / mu]. *)
Theorem C58_tables : forall p E B i x y, (4 <= p <= 18)%N ->
  index RAW_ESTIMATE_DATA (p - 4) = Ret E -> index BIAS_DATA (p - 4) = Ret B ->
  nth_error E i = Some x -> nth_error B i = Some y ->
  exists n : nat, Rabs (B2R x - B2R y - INR n) <= 0.001 /\
  forall file all, register_files 64 p n file -> enumerates (hash_list 64 n) all ->
  exists mu, rsum (fun hs => inv_sum (file hs)) all = mu * INR (length all) /\ 0 < mu /\
    B2R x * (1 - tolerance p) <= alpha_R p * m_R p ^ 2 / mu <= B2R x * (1 + tolerance p).
Proof. exact tables_right. Qed.
Print Assumptions C58_tables.

(** The second entry at precision 4 is (11.717, 9.717): two values. *)
Example C58_example : exists E B x y,
  index RAW_ESTIMATE_DATA (4 - 4) = Ret E /\ index BIAS_DATA (4 - 4) = Ret B /\
  nth_error E 1 = Some x /\ nth_error B 1 = Some y /\
  Rabs (B2R x - 11.717) < 0.001 /\ Rabs (B2R y - 9.717) < 0.001.
Proof.
  destruct (tables_index 4 ltac:(lia) ltac:(lia)) as [IE IB].
  destruct entry_4_1 as (x & y & R). exists (est_table 4), (bias_table 4), x, y. auto.
Qed.

(** The cardinalities of the entries of one table: they begin at 1, go up in steps of m/40 (rounded
    either way, and never less than 1) to about 5m, and each entry pair meets its own to 10^-9. *)
Theorem C58_cardinalities : forall p E B, (4 <= p <= 18)%N ->
  index RAW_ESTIMATE_DATA (p - 4) = Ret E -> index BIAS_DATA (p - 4) = Ret B ->
  exists ns : list Z, length E = length ns /\ length B = length ns /\ hd 0%Z ns = 1%Z /\
  (49 * 2 ^ Z.of_N p <= 10 * last ns 0 <= 50 * 2 ^ Z.of_N p)%Z /\
  (forall i a b, nth_error ns i = Some a -> nth_error ns (S i) = Some b ->
    Z.abs (40 * (b - a) - Z.max 40 (2 ^ Z.of_N p)) < 40)%Z /\
  (forall i x y n, nth_error E i = Some x -> nth_error B i = Some y -> nth_error ns i = Some n ->
    Rabs (B2R x - B2R y - IZR n) <= / 10 ^ 9).
Proof. exact tables_grid. Qed.
Print Assumptions C58_cardinalities.

(** At precision 18 the entries 0, 1 and 199 stand for 1, 6554 and 1304169 values. *)
Example C58_cardinalities_example : let l := grid raw_dec_18 bias_dec_18 in
  nth_error l 0 = Some 1%Z /\ nth_error l 1 = Some 6554%Z /\ nth_error l 199 = Some 1304169%Z /\ length l = 200%nat.
Proof. exact grid_18. Qed.

(** ** C59: HyperLogLogPlus at every cardinality *)

(** From one value up to 2^59 values, whatever the branch taken -- sparse, linear counting, bias
    correction or raw estimate -- the count is within about 1.5% + 1.75t of n, for all but a
    fraction of 2.21/(m t^2) of the hash assignments. *)
Theorem C59_everywhere : forall e p n t, build_std e -> accurate e -> (10 <= p <= 18)%N -> 0 < t <= / 10 ->
  (0 < n)%nat -> INR n <= IZR (2 ^ 59) ->
  rare 64 n (2.21 / (m_R p * t ^ 2))
    (fun hs => ~ plus_counts e p (INR n * (0.985 - 1.75 * t)) (INR n * (1.015 + 1.75 * t)) hs).
Proof. exact plus_everywhere. Qed.
Print Assumptions C59_everywhere.

(** 50000 values at precision 14 lie between the threshold of linear counting and 5m; the count is
    within 11% for 94% of the assignments. *)
Example C59_example : exists n, (0 < n)%nat /\ INR n <= IZR (2 ^ 59) /\
  threshold_R 14 < INR n < 5 * m_R 14 /\ 2.21 / (m_R 14 * (/ 20) ^ 2) <= 0.054 /\ 0.015 + 1.75 * / 20 <= 0.11.
Proof.
  exists (Z.to_nat 50000). split; [apply Nat2Z.inj_lt; rewrite Znat.Z2Nat.id; [reflexivity|discriminate]|].
  rewrite INR_IZR_INZ, Znat.Z2Nat.id by discriminate.
  change (m_R 14) with 16384. change (IZR (2 ^ 59)) with 576460752303423488. change (threshold_R 14) with 11500. lra.
Qed.

(** ** C60: HyperLogLogPF at every cardinality up to 0.9 * 2^27 *)

(** The bias of the uncorrected raw estimate just above 2.5m is in the upper bound. *)
Theorem C60_everywhere : forall e p n t, build e -> accurate e -> (10 <= p <= 16)%N -> 0 < t <= / 10 ->
  (0 < n)%nat -> INR n <= 0.9 * IZR (2 ^ 27) ->
  rare 32 n (2.65 / (m_R p * t ^ 2))
    (fun hs => ~ pf_counts e p (INR n * (0.984 - 1.1 * t)) (INR n * (1.036 + 1.4 * t)) hs).
Proof. exact pf_everywhere. Qed.
Print Assumptions C60_everywhere.

(** 160000 values at precision 16 are near the switch at 2.5m; for 92% of the assignments the count
    is within 6.8%. *)
Example C60_example : exists n, (0 < n)%nat /\ INR n <= 0.9 * IZR (2 ^ 27) /\
  2.4 * m_R 16 < INR n < 2.5 * m_R 16 /\ 2.65 / (m_R 16 * (/ 44) ^ 2) <= 0.079 /\ 0.036 + 1.4 * / 44 <= 0.068.
Proof.
  exists (Z.to_nat 160000). split; [apply Nat2Z.inj_lt; rewrite Znat.Z2Nat.id; [reflexivity|discriminate]|].
  rewrite INR_IZR_INZ, Znat.Z2Nat.id by discriminate.
  change (m_R 16) with 65536. change (IZR (2 ^ 27)) with 134217728. lra.
Qed.

(** ** C61: the accuracy of the documentation

    "can estimate cardinalities well beyond 10^9 with a typical accuracy of 2%" (src/lib.rs:4-8):
    for at least 72% of the hash assignments, from precision 14 on. *)
Theorem C61_plus : forall e p n, build_std e -> accurate e -> (14 <= p <= 18)%N ->
  1500000 <= INR n <= IZR (2 ^ 59) ->
  rare 64 n 0.28 (fun hs => ~ plus_counts e p (0.98 * INR n) (1.02 * INR n) hs).
Proof. exact plus_two_percent. Qed.
Print Assumptions C61_plus.

(** HyperLogLogPF stops short of 10^9: [C57_high]. *)
Theorem C61_pf : forall e p n, build e -> accurate e -> (14 <= p <= 16)%N ->
  300000 <= INR n <= 0.98 * IZR (2 ^ 27) ->
  rare 32 n 0.28 (fun hs => ~ pf_counts e p (0.98 * INR n) (1.02 * INR n) hs).
Proof. exact pf_two_percent. Qed.
Print Assumptions C61_pf.

Example C61_example : exists n, 1000000000 < INR n /\ 1500000 <= INR n <= IZR (2 ^ 59) /\ (14 <= 14 <= 18)%N.
Proof.
  exists (Z.to_nat 2000000000). rewrite INR_IZR_INZ, Znat.Z2Nat.id by discriminate.
  change (IZR (2 ^ 59)) with 576460752303423488. split; [lra|]. split; [lra|lia].
Qed.
