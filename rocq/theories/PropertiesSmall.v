(** * Counts of a few values, and the examples of the documentation *)
From Coq Require Import NArith ZArith Reals List Lia.
From Flocq Require Import Core BinarySingleNaN.
From Verif Require Import ModelRust ModelF64 ModelEnv ModelHistory ModelTests Spec SpecReal SpecCount SpecDist
  SpecProb SpecBuild SpecSmall BitFacts SmallFacts RefuteFacts Witness.
Import ListNotations.
Local Open Scope N_scope.

(** ** C68: few values are counted exactly, once per bucket *)

(** HyperLogLogPF: the count drops to the number of buckets hit, up to 5 buckets at precision 4,
    361 at precision 16. *)
Theorem C68_pf : forall (V : Type) e (h : hist V) B,
  build e -> accurate e -> valid MAX_PF h -> narrow (usize_bits e) h ->
  enumerates (hit 32 (hist_precision h) (map (fun x => x mod 2 ^ 32) (hist_hashes h))) B ->
  N.of_nat (length B) <= exact_limit (hist_precision h) ->
  exists c, count_pf e h = Ret c /\ is_finite c = true /\ Ztrunc (B2R c) = Z.of_nat (length B).
Proof. exact pf_exact_small. Qed.
Print Assumptions C68_pf.

(** The limit is sharp: one bucket more is one too many. *)
Theorem C68_pf_sharp : forall (V : Type) e (h : hist V) B,
  build e -> accurate e -> valid MAX_PF h -> narrow (usize_bits e) h ->
  enumerates (hit 32 (hist_precision h) (map (fun x => x mod 2 ^ 32) (hist_hashes h))) B ->
  N.of_nat (length B) = exact_limit (hist_precision h) + 1 ->
  exists c, count_pf e h = Ret c /\ is_finite c = true /\ Ztrunc (B2R c) = (Z.of_nat (length B) + 1)%Z.
Proof. exact pf_exact_sharp. Qed.
Print Assumptions C68_pf_sharp.

(** For all but n²/2m of the hash assignments that is the number of values. *)
Theorem C68_pf_rare : forall e p n, build e -> accurate e -> 4 <= p <= 16 ->
  N.of_nat n <= exact_limit p ->
  rare 32 n (INR n ^ 2 / (2 * m_R p)) (fun hs => ~ pf_counts_int e p (Z.of_nat n) hs).
Proof. exact pf_exact_rare. Qed.
Print Assumptions C68_pf_rare.

(** HyperLogLogPlus does the same after it has left the sparse representation; while sparse it
    counts codes, on targets of any width. *)
Theorem C68_plus_normal : forall (V : Type) e ord (h : hist V) B,
  build_std e -> accurate e -> valid MAX_PLUS h -> narrow (usize_bits e) h -> is_order ord ->
  ~ fits (hist_precision h) (hist_hashes h) ->
  enumerates (hit 64 (hist_precision h) (hist_hashes h)) B ->
  N.of_nat (length B) <= exact_limit (hist_precision h) ->
  exists c, count_plus e ord h = Ret c /\ is_finite c = true /\ Ztrunc (B2R c) = Z.of_nat (length B).
Proof. exact plus_exact_small. Qed.
Print Assumptions C68_plus_normal.

Theorem C68_plus_sparse : forall (V : Type) e ord (h : hist V) L,
  build_std e -> accurate e -> valid MAX_PLUS h -> countable (usize_bits e) h -> is_order ord ->
  is_code_list (hist_precision h) (hist_hashes h) L ->
  gap_len 0 L <= sparse_limit (hist_precision h) -> N.of_nat (length L) <= 5791 ->
  exists c, count_plus e ord h = Ret c /\ is_finite c = true /\ Ztrunc (B2R c) = Z.of_nat (length L).
Proof. exact sparse_exact. Qed.
Print Assumptions C68_plus_sparse.

(** The examples of the documentation pass exactly when the two hashes differ in their codes,
    in their buckets. *)
Theorem C68_doc_plus : forall (V : Type) e ord (b : V -> N) x y, build_std e -> accurate e -> is_order ord ->
  (doc_plus e ord b x y <-> sparse_code 16 (hash64 b x) <> sparse_code 16 (hash64 b y)).
Proof. exact doc_plus_iff. Qed.
Print Assumptions C68_doc_plus.

Theorem C68_doc_pf : forall (V : Type) e (b : V -> N) x y, build e -> accurate e -> 32 < usize_bits e ->
  (doc_pf e b x y <-> bucket 32 16 (hash64 b x mod 2 ^ 32) <> bucket 32 16 (hash64 b y mod 2 ^ 32)).
Proof. exact doc_pf_iff. Qed.
Print Assumptions C68_doc_pf.

(** Otherwise they fail: for this many of the 2^128 pairs of hashes, about one in 2^25; for 2^48
    of the 2^64 pairs of 32-bit hashes, one in 65536. *)
Theorem C68_doc_plus_failures : forall e ord, build_std e -> accurate e -> is_order ord ->
  size_of (fun hs => exists a b, hs = [a; b] /\ hash_list 64 2 hs /\ ~ doc_plus e ord (fun x => x) a b)
          ((2 ^ 25 - 2 ^ 16) * 2 ^ 78 + 2 ^ 16 * ((4 ^ 39 - 1) / 3 + 1)).
Proof. exact doc_plus_failures. Qed.
Print Assumptions C68_doc_plus_failures.

Theorem C68_doc_pf_failures : forall e, build e -> accurate e -> 32 < usize_bits e ->
  size_of (fun hs => exists a b, hs = [a; b] /\ hash_list 32 2 hs /\ ~ doc_pf e (fun x => x) a b) (2 ^ 48).
Proof. exact doc_pf_failures. Qed.
Print Assumptions C68_doc_pf_failures.

(** On a 32-bit target with overflow checks the HyperLogLogPF example panics, whatever the hashes. *)
Theorem C68_doc_pf_32 : forall (V : Type) e (b : V -> N) x y, build e -> overflow_checks e = true ->
  usize_bits e = 32 -> count_pf e (doc_program (fun l => l) b x y) = Panic.
Proof. exact doc_pf_32. Qed.
Print Assumptions C68_doc_pf_32.

(** Values [0, 1, ...] hashed to buckets [0, 1, ...] of precision 4; the values of the
    documentation; two hashes with the same code. *)
Definition spread (x : N) : N := (x mod 16) * 2 ^ 28 + x.
Example C68_example :
  let h := fun n => inserted 4 spread Insert keep (range n) in
  trunc (count_pf test_env (h 5)) = Ret 5%Z /\ trunc (count_pf test_env (h 6)) = Ret 7%Z /\
  enumerates (hit 32 4 (map (fun x => x mod 2 ^ 32) (hist_hashes (h 5)))) (range 5) /\
  exact_limit 4 = 5 /\
  trunc (count_plus small_debug keep (doc_program keep mix 12345 23456)) = Ret 2%Z /\
  doc_plus test_env keep mix 12345 23456 /\ ~ doc_plus test_env keep (fun x => x) 12345 12346 /\
  doc_pf test_env mix 12345 23456 /\ ~ doc_pf test_env (fun x => x) 12345 23456 /\
  build small_debug /\ overflow_checks small_debug = true /\ usize_bits small_debug = 32.
Proof.
  cbv zeta. split; [vm_compute; reflexivity|]. split; [vm_compute; reflexivity|].
  split.
  { split; [apply range_NoDup|]. intros b. split.
    - intros Hb. apply range_in in Hb. exists (b * 2 ^ 28 + b). split; [|].
      + assert (C : b = 0 \/ b = 1 \/ b = 2 \/ b = 3 \/ b = 4) by lia.
        destruct C as [->|[->|[->|[->| ->]]]]; vm_compute; tauto.
      + assert (C : b = 0 \/ b = 1 \/ b = 2 \/ b = 3 \/ b = 4) by lia.
        destruct C as [->|[->|[->|[->| ->]]]]; reflexivity.
    - intros (k & Hk & <-). vm_compute in Hk.
      repeat (destruct Hk as [<-|Hk]; [vm_compute; tauto|]). destruct Hk. }
  split; [reflexivity|]. split; [vm_compute; reflexivity|].
  split; [apply C68_doc_plus; [exact test_build|exact test_accurate'|exact keep_order|vm_compute; discriminate]|].
  split; [intros X; apply C68_doc_plus in X; [|exact test_build|exact test_accurate'|exact keep_order]; now apply X|].
  split; [apply C68_doc_pf; [exact (proj1 test_build)|exact test_accurate'|reflexivity|vm_compute; discriminate]|].
  split; [intros X; apply C68_doc_pf in X; [|exact (proj1 test_build)|exact test_accurate'|reflexivity]; now apply X|].
  split; [exact (proj1 small_debug_build)|]. split; reflexivity.
Qed.
