(** * C86: how many values a sparse sketch holds *)
From Coq Require Import NArith ZArith Reals List Lia Lra.
From Verif Require Import ModelRust ModelEnv ModelPlus ModelHistory ModelTests Spec SpecDist SpecProb SpecBuild SpecGap Witness GapFacts.
Import ListNotations.
Local Open Scope N_scope.

(** Bytes: at least one for each code, at most two for each code without a rank and four for each with one, but for 4144. *)
Theorem C86_bytes : forall p H L, Forall (fun h => h < 2 ^ 64) H -> is_code_list p H L ->
  N.of_nat (length L) <= gap_len 0 L <= 2 * plain L + 4 * flagged L + 4144.
Proof. exact codes_split. Qed.
Print Assumptions C86_bytes.

Theorem C86_sparse : forall (V : Type) e ord (h : hist V) L,
  build_std e -> valid MAX_PLUS h -> narrow (usize_bits e) h -> is_order ord -> is_code_list (hist_precision h) (hist_hashes h) L ->
  exists s, run_plus e (HCount ord h) = Ret s /\
    (2 * plain L + 4 * flagged L + 4144 <= sparse_limit (hist_precision h) -> is_sparse s = true).
Proof. exact sparse_by_kind. Qed.
Print Assumptions C86_sparse.

(** The list of a merge is no longer than the two lists together, and no shorter than either. *)
Theorem C86_merge : forall (V : Type) e ord (h1 h2 : hist V), build_std e -> valid MAX_PLUS h1 -> valid MAX_PLUS h2 ->
  narrow (usize_bits e) h1 -> narrow (usize_bits e) h2 -> is_order ord -> hist_precision h1 = hist_precision h2 ->
  exists s1 s2 s, run_plus e (HCount ord h1) = Ret s1 /\ run_plus e (HCount ord h2) = Ret s2 /\
    run_plus e (HCount ord (HMerge ord h1 h2)) = Ret s /\
    (is_sparse s1 = true -> is_sparse s2 = true -> stored s1 + stored s2 <= sparse_limit (hist_precision h1) -> is_sparse s = true) /\
    (is_sparse s = true -> is_sparse s1 = true /\ is_sparse s2 = true /\
       N.max (stored s1) (stored s2) <= stored s <= stored s1 + stored s2).
Proof. exact merged_bytes. Qed.
Print Assumptions C86_merge.

(** Of [n] values with random hashes a fraction [2^(p-25)] has a code with a rank on average. *)
Theorem C86_chance : forall e p n, build_std e -> 4 <= p <= 18 -> 2 * N.of_nat n + 4144 < sparse_limit p ->
  rare 64 n (2 * INR n / IZR (2 ^ Z.of_N (25 - p)) / IZR (Z.of_N (sparse_limit p - 2 * N.of_nat n - 4144)))
    (fun hs => ~ plus_sparse e p hs).
Proof. exact sparse_chance. Qed.
Print Assumptions C86_chance.

(** 4000 values at precision 14 leave more than 99.5% of the sketches sparse; 13107 bytes are not enough for four bytes each. *)
Example C86_example :
  (2 * N.of_nat 4000 + 4144 < sparse_limit 14 < 4 * N.of_nat 4000 + 16 /\
   (2 * INR 4000 / IZR (2 ^ Z.of_N (25 - 14)) / IZR (Z.of_N (sparse_limit 14 - 2 * N.of_nat 4000 - 4144)) <= 0.005)%R) /\
  (let H := hist_hashes demo_sparse in let L := Witness.codes 10 H in
   plain L + flagged L = N.of_nat (length L) /\ gap_len 0 L = 33) /\
  (let* s := run_plus test_env (HCount keep demo_sparse) in
   let* t := run_plus test_env (HCount keep (inserted 10 mix2 Insert keep (range 9))) in
   let* u := run_plus test_env (HCount keep (HMerge keep demo_sparse (inserted 10 mix2 Insert keep (range 9)))) in
   Ret (stored s, stored t, stored u)) = Ret (33, 36, 65).
Proof.
  split; [split; [split; vm_compute; reflexivity|]|split; [split; vm_compute; reflexivity|vm_compute; reflexivity]].
  replace (sparse_limit 14 - 2 * N.of_nat 4000 - 4144) with 963 by (vm_compute; reflexivity).
  rewrite INR_IZR_INZ. change (IZR (Z.of_nat 4000)) with 4000%R. change (IZR (2 ^ Z.of_N (25 - 14))) with 2048%R.
  change (IZR (Z.of_N 963)) with 963%R. lra.
Qed.
