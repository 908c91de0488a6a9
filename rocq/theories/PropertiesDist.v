(** * Counting over all hash assignments; sizes; extreme sketches

    The lists of [n] hashes stand for the assignments of hashes to [n] distinct values; uniform
    and independent hashes make them equally likely. *)
From Coq Require Import NArith ZArith Reals List Bool String Lia Permutation Sorted.
From Flocq Require Import Core BinarySingleNaN.
From Verif Require Import ModelRust ModelF64 ModelEnv ModelRegisters ModelEncoding ModelCommon
  ModelError ModelPF ModelPlus ModelConstants ModelHistory ModelTests Spec SpecDist SpecSketch SpecReal
  SpecCount SpecBuild BitFacts DistFacts CodeDist ClaimFacts ClaimDist ExtremeFacts LogConst Witness.
Import ListNotations.
Local Open Scope N_scope.

(** ** C45: distribution of one register *)
Theorem C45_registers : forall W p n file i k,
  p < W -> register_files W p n file -> i < 2 ^ p -> k <= W - p ->
  size_of (fun hs => hash_list W n hs /\ nth (N.to_nat i) (file hs) 0 <= k)
          ((2 ^ W - 2 ^ (W - p - k)) ^ N.of_nat n).
Proof. exact register_distribution. Qed.
Print Assumptions C45_registers.

(** What the two sketches compute are such register files, and they are always computed. *)
Theorem C45_pf : forall e p n k file, build e -> 4 <= p <= 16 -> 2 * p < usize_bits e ->
  pf_files e p n k file -> register_files 32 p n file.
Proof. exact pf_files_ok. Qed.
Print Assumptions C45_pf.

Theorem C45_pf_total : forall e p n k, build e -> 4 <= p <= 16 -> 2 * p < usize_bits e ->
  exists file, pf_files e p n k file.
Proof. exact pf_files_exist. Qed.
Print Assumptions C45_pf_total.

Theorem C45_plus : forall e p n k ord file, build_std e -> 4 <= p <= 18 ->
  2 * p < usize_bits e -> is_order ord ->
  plus_files e p n k ord file -> register_files 64 p n file.
Proof. exact plus_files_ok. Qed.
Print Assumptions C45_plus.

Theorem C45_plus_total : forall e p n k ord, build_std e -> 4 <= p <= 18 ->
  2 * p < usize_bits e -> is_order ord -> exists file, plus_files e p n k ord file.
Proof. exact plus_files_exist. Qed.
Print Assumptions C45_plus_total.

(** Hashes of 4 bits, 2 buckets, 3 values: 12^3 of the 16^3 lists leave register 1 at most 1. *)
Definition small_file (W p : N) (hs : list N) : list N :=
  map (fun i => fold_right (fun h m => if bucket W p h =? i then N.max (rank W p h) m else m) 0 hs)
      (range (2 ^ p)).
Example C45_example :
  let all := lists_of (range 16) 3 in
  N.of_nat (List.length (filter (fun hs => nth 1 (small_file 4 1 hs) 0 <=? 1) all))
  = (2 ^ 4 - 2 ^ (4 - 1 - 1)) ^ 3 /\
  sum (map (fun hs => zero_count (small_file 4 1 hs)) all) = 2 ^ 1 * (2 ^ 4 - 2 ^ 3) ^ 3 /\
  build_std test_env /\ 2 * 18 < usize_bits test_env.
Proof.
  cbv zeta. split; [vm_compute; reflexivity|]. split; [vm_compute; reflexivity|].
  split; [exact test_build|reflexivity].
Qed.

(** ** C46: the expected number of empty registers is m (1 - 1/m)^n *)
Theorem C46_zeros : forall W p n file all,
  p < W -> register_files W p n file -> enumerates (hash_list W n) all ->
  sum (map (fun hs => zero_count (file hs)) all) = 2 ^ p * (2 ^ W - 2 ^ (W - p)) ^ N.of_nat n.
Proof. exact expected_zeros. Qed.
Print Assumptions C46_zeros.

Theorem C46_number : forall W n, size_of (hash_list W n) (2 ^ (W * N.of_nat n)).
Proof. exact all_size. Qed.
Print Assumptions C46_number.

Example C46_example :
  let all := lists_of (range 8) 2 in
  map (small_file 3 2) [[0; 7]; [3; 2]] = [[2; 0; 0; 1]; [0; 2; 0; 0]] /\
  sum (map (fun hs => zero_count (small_file 3 2 hs)) all) = 2 ^ 2 * (2 ^ 3 - 2 ^ 1) ^ 2 /\
  N.of_nat (List.length all) = 2 ^ (3 * 2).
Proof. vm_compute. repeat split. Qed.

(** ** C47: the expected harmonic sum, times 2^(W-p+1) *)
Theorem C47_harmonic : forall W p n file all,
  p < W -> register_files W p n file -> enumerates (hash_list W n) all ->
  sum (map (fun hs => sum (map (fun v => 2 ^ (W - p + 1 - v)) (file hs))) all)
  = 2 ^ p * (2 ^ (W * N.of_nat n) +
             sum (map (fun k => 2 ^ (W - p - k) * (2 ^ W - 2 ^ (W - p - k)) ^ N.of_nat n)
                      (range (W - p + 1)))).
Proof. exact expected_harmonic. Qed.
Print Assumptions C47_harmonic.

Example C47_example :
  let all := lists_of (range 16) 3 in
  sum (map (fun hs => sum (map (fun v => 2 ^ (4 - 1 + 1 - v)) (small_file 4 1 hs))) all)
  = 2 ^ 1 * (2 ^ (4 * 3) + (8 * 8 ^ 3 + 4 * 12 ^ 3 + 2 * 14 ^ 3 + 1 * 15 ^ 3)).
Proof. vm_compute. reflexivity. Qed.

(** ** C48: the number of codes decides the representation, up to a factor of four *)
Theorem C48_representation : forall (V : Type) e ord (h : hist V) L,
  build_std e -> valid MAX_PLUS h -> narrow (usize_bits e) h -> is_order ord ->
  is_code_list (hist_precision h) (hist_hashes h) L ->
  exists s, run_plus e (HCount ord h) = Ret s /\
    (4 * N.of_nat (List.length L) + 16 <= sparse_limit (hist_precision h) -> is_sparse s = true) /\
    (sparse_limit (hist_precision h) < N.of_nat (List.length L) -> is_sparse s = false).
Proof. exact plus_sparse_by_size. Qed.
Print Assumptions C48_representation.

Theorem C48_exact : forall (V : Type) e ord (h : hist V) L,
  build_std e -> accurate e -> valid MAX_PLUS h -> narrow (usize_bits e) h -> is_order ord ->
  is_code_list (hist_precision h) (hist_hashes h) L ->
  4 * N.of_nat (List.length L) + 16 <= sparse_limit (hist_precision h) ->
  N.of_nat (List.length L) <= 5791 ->
  exists c, count_plus e ord h = Ret c /\ is_finite c = true /\
    Ztrunc (B2R c) = Z.of_nat (List.length L).
Proof. exact small_exact_any. Qed.
Print Assumptions C48_exact.

Example C48_example :
  is_code_list 10 (hist_hashes demo_sparse) (Witness.codes 10 (hist_hashes demo_sparse)) /\
  4 * N.of_nat (List.length (Witness.codes 10 (hist_hashes demo_sparse))) + 16 <= sparse_limit 10 /\
  sparse_limit 4 < N.of_nat (List.length (Witness.codes 4 (hist_hashes demo_normal))).
Proof.
  split; [apply code_list_b_ok; vm_compute; reflexivity|]. split; vm_compute; [discriminate|reflexivity].
Qed.

(** ** C49: the unused estimate_raw *)
Theorem C49_estimate_raw : forall e p l, build e -> 4 <= p <= 18 -> 2 * p < usize_bits e ->
  N.of_nat (List.length l) = 2 ^ p -> Forall (fun v => v < if feat_std e then 64 else 32) l ->
  exists x, estimate_raw e l (2 ^ p) = Ret (x, zero_count l) /\
            estimate_raw_plus e l (2 ^ p) = Ret x.
Proof. exact estimate_raw_gen. Qed.
Print Assumptions C49_estimate_raw.

Example C49_example :
  let l := [0; 3; 0; 7; 1; 1; 2; 0; 5; 61; 0; 4; 2; 2; 1; 9] in
  N.of_nat (List.length l) = 2 ^ 4 /\ Forall (fun v => v < 64) l /\
  (let* (x, z) := estimate_raw test_env l 16 in
   let* y := estimate_raw_plus test_env l 16 in
   Ret (fle x y && fle y x, z)) = Ret (true, 4).
Proof. cbv zeta. split; [reflexivity|]. split; [repeat constructor|]. vm_compute. reflexivity. Qed.

(** ** C50: 2^p values can saturate a sketch *)

(** A HyperLogLogPlus then counts more than 2^64, whatever else it absorbed. *)
Theorem C50_plus : forall (V : Type) e ord (h : hist V),
  build_std e -> accurate e -> valid MAX_PLUS h -> narrow (usize_bits e) h -> is_order ord ->
  (forall i, i < 2 ^ hist_precision h -> In (i * 2 ^ (64 - hist_precision h)) (hist_hashes h)) ->
  exists c, count_plus e ord h = Ret c /\ is_finite c = true /\
    approx (/ IZR (2 ^ 33)) (B2R c) (alpha_R (hist_precision h) * IZR (2 ^ 65)) /\
    (IZR (2 ^ 64) <= B2R c <= IZR (2 ^ 65))%R.
Proof. exact saturated_count. Qed.
Print Assumptions C50_plus.

(** A HyperLogLogPF gives NaN, at every precision. *)
Theorem C50_pf : forall (V : Type) e (h : hist V),
  build e -> accurate e -> rejects e -> valid MAX_PF h -> narrow (usize_bits e) h ->
  (forall i, i < 2 ^ hist_precision h ->
     In (i * 2 ^ (32 - hist_precision h)) (map (fun x => x mod 2 ^ 32) (hist_hashes h))) ->
  exists c, count_pf e h = Ret c /\ is_nan c = true.
Proof. exact saturated_nan. Qed.
Print Assumptions C50_pf.

Definition C50_h : hist N := inserted 4 (fun i => i * 2 ^ 60) Insert keep (range 16).
Definition C50_h_pf : hist N := inserted 4 (fun i => i * 2 ^ 28) Insert keep (range 16).
Example C50_example :
  valid MAX_PLUS C50_h /\ valid MAX_PF C50_h_pf /\
  forallb (fun i => existsb (N.eqb (i * 2 ^ (64 - 4))) (hist_hashes C50_h)) (range (2 ^ 4)) = true /\
  forallb (fun i => existsb (N.eqb (i * 2 ^ (32 - 4))) (map (fun x => x mod 2 ^ 32) (hist_hashes C50_h_pf)))
    (range (2 ^ 4)) = true /\
  trunc (count_plus test_env keep C50_h) = Ret 24829317523213058048%Z /\
  (let* c := count_pf core_env C50_h_pf in Ret (is_nan c)) = Ret true.
Proof.
  split; [apply inserted_valid; [apply keep_order|split; discriminate]|].
  split; [apply inserted_valid; [apply keep_order|split; discriminate]|].
  vm_compute. repeat split.
Qed.

(** ** C51: the sparse codes *)

(** How many hashes share a code: 2^39 without a rank, 2^(39-r) with rank r. *)
Theorem C51_plain : forall p q, q < 2 ^ 25 -> q mod 2 ^ (25 - p) <> 0 ->
  size_of (fun h => h < 2 ^ 64 /\ sparse_code p h = 2 * q) (2 ^ 39).
Proof. exact (fun p q H1 H2 => plain_class p q (conj H1 H2)). Qed.
Print Assumptions C51_plain.

Theorem C51_ranked : forall p q r, q < 2 ^ 25 -> q mod 2 ^ (25 - p) = 0 -> 1 <= r <= 40 ->
  size_of (fun h => h < 2 ^ 64 /\ sparse_code p h = 128 * q + 2 * r + 1)
          (if r =? 40 then 1 else 2 ^ (39 - r)).
Proof. exact (fun p q r H1 H2 => ranked_class p q r (conj H1 H2)). Qed.
Print Assumptions C51_ranked.

(** There are 2^25 + 39 * 2^p codes; count assumes 2^24 buckets (see C40). *)
Theorem C51_space : forall p, p <= 25 ->
  size_of (fun c => exists h, h < 2 ^ 64 /\ sparse_code p h = c) (2 ^ 25 + 39 * 2 ^ p).
Proof. exact code_space_size. Qed.
Print Assumptions C51_space.

(** The expected number of codes of [n] values. *)
Theorem C51_expected : forall p n ncodes all, p <= 25 -> enumerates (hash_list 64 n) all ->
  (forall hs, hash_list 64 n hs ->
     exists L, is_code_list p hs L /\ ncodes hs = N.of_nat (List.length L)) ->
  sum (map ncodes all)
  = (2 ^ 25 - 2 ^ p) * (2 ^ (64 * N.of_nat n) - (2 ^ 64 - 2 ^ 39) ^ N.of_nat n)
    + 2 ^ p * sum (map (fun r => 2 ^ (64 * N.of_nat n) -
                          (2 ^ 64 - if r =? 40 then 1 else 2 ^ (39 - r)) ^ N.of_nat n)
                       (map N.succ (range 40))).
Proof. exact expected_codes. Qed.
Print Assumptions C51_expected.

(** While sparse, the sketch stores exactly these codes. *)
Theorem C51_stored : forall (V : Type) e ord (h : hist V) L s,
  build_std e -> valid MAX_PLUS h -> narrow (usize_bits e) h -> is_order ord ->
  is_code_list (hist_precision h) (hist_hashes h) L ->
  run_plus e (HCount ord h) = Ret s -> is_sparse s = true ->
  dif_count (hp_sparse s) = N.of_nat (List.length L) /\
  dif_for e (hp_sparse s) (fun acc x => Ret (acc ++ [x])) [] = Ret L.
Proof. exact plus_stored. Qed.
Print Assumptions C51_stored.

(** One value has one code: the total over all 2^64 lists of one hash is 2^64. *)
Example C51_example :
  5 < 2 ^ 25 /\ 5 mod 2 ^ (25 - 18) <> 0 /\ 256 mod 2 ^ (25 - 18) = 0 /\
  map (sparse_code 18) [5 * 2 ^ 39 + 17; 256 * 2 ^ 39 + 17] = [2 * 5; 128 * 256 + 2 * 35 + 1] /\
  (2 ^ 25 - 2 ^ 18) * (2 ^ (64 * 1) - (2 ^ 64 - 2 ^ 39) ^ 1)
    + 2 ^ 18 * sum (map (fun r => 2 ^ (64 * 1) - (2 ^ 64 - if r =? 40 then 1 else 2 ^ (39 - r)) ^ 1)
                        (map N.succ (range 40))) = 2 ^ 64.
Proof. vm_compute. repeat split. discriminate. Qed.

(** ** C52: error messages *)
Theorem C52_display : forall err err', error_display err = error_display err' -> err = err'.
Proof. exact display_injective. Qed.
Print Assumptions C52_display.

Theorem C52_plus : forall (V W : Type) e ord p (b : V -> N) (s s' : plus V) (t : plus W) err,
  build e ->
  (hp_new e p b = Ret (RErr err) -> error_display err = "precision is out of bounds"%string) /\
  (hp_merge e ord s t = Ret (s', RErr err) -> error_display err = "precisions must be equal"%string).
Proof. exact plus_messages. Qed.
Print Assumptions C52_plus.

Theorem C52_pf : forall (V W : Type) e p (b : V -> N) (s s' : pf V) (t : pf W) err,
  build e ->
  (pf_new e p b = Ret (RErr err) -> error_display err = "precision is out of bounds"%string) /\
  (pf_merge e s t = Ret (s', RErr err) -> error_display err = "precisions must be equal"%string).
Proof. exact pf_messages. Qed.
Print Assumptions C52_pf.

Example C52_example :
  (let* r := hp_new test_env 3 mix in
   match r with RErr err => Ret (error_display err) | ROk _ => Panic end)
  = Ret "precision is out of bounds"%string.
Proof. reflexivity. Qed.
