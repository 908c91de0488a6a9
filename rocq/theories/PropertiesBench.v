(** * C76: the benchmarks *)
From Coq Require Import String.
From Coq Require Import NArith ZArith Reals List Bool Permutation.
From Flocq Require Import Core BinarySingleNaN.
From Verif Require Import ModelRust ModelF64 ModelEnv ModelRegisters ModelEncoding ModelCommon ModelPF ModelPlus ModelHistory ModelEval ModelFiles ModelTests ModelBench
  Spec SpecReal SpecBuild SpecBench Witness PropertiesFloat EncFacts BenchFacts BenchSparse BenchFloat.
Import ListNotations.
Local Open Scope N_scope.

(** Two strings of a workload are equal only if both numbers drawn for them are. *)
Theorem C76_string : forall a b a' b', bench_string a b = bench_string a' b' -> a = a' /\ b = b'.
Proof. exact bench_string_inj. Qed.
Print Assumptions C76_string.

(** [bench_insert] never panics, whatever the strings, the hash functions and the iteration orders;
    its precisions are 8, 14 and 16. *)
Theorem C76_insert_pf : forall e workload builders p iters, 32 <= usize_bits e -> 4 <= p <= 16 ->
  bench_insert_pf e workload builders p iters = Ret tt.
Proof. exact bench_insert_pf_ok. Qed.
Print Assumptions C76_insert_pf.

Theorem C76_insert_plus : forall e ords workload builders p iters, 32 <= usize_bits e -> 4 <= p <= 18 ->
  (forall i k, is_order (ords i k)) -> bench_insert_plus e ords workload builders p iters = Ret tt.
Proof. exact bench_insert_plus_ok. Qed.
Print Assumptions C76_insert_plus.

(** [bench_count] measures the same count in every iteration, that of the strings in the order
    drawn: shuffling them changes nothing. *)
Theorem C76_count_pf : forall e draws shuffle b p count iters, build e -> 4 <= p <= 16 -> 2 * p < usize_bits e ->
  (forall l, Permutation (shuffle l) l) ->
  exists s c, bench_count_pf e draws shuffle b p count iters = Ret (s, repeat c (N.to_nat iters)) /\
    run_pf e (inserted p b Insert keep (strings draws count)) = Ret s /\
    count_pf e (inserted p b Insert keep (strings draws count)) = Ret c.
Proof. exact bench_count_pf_ok. Qed.
Print Assumptions C76_count_pf.

Theorem C76_count_plus : forall e ords ords' draws shuffle b p count iters, build_std e -> 4 <= p <= 18 -> 2 * p < usize_bits e ->
  (forall k, is_order (ords k)) -> (forall k, is_order (ords' k)) -> (forall l, Permutation (shuffle l) l) ->
  exists s c, bench_count_plus e ords ords' draws shuffle b p count iters = Ret (s, repeat c (N.to_nat iters)) /\
    forall ord, is_order ord -> count_plus e ord (inserted p b Insert keep (strings draws count)) = Ret c.
Proof. exact bench_count_plus_ok. Qed.
Print Assumptions C76_count_plus.

Theorem C76_cases : Forall (fun p => 4 <= p <= 16) insert_precisions /\
  Forall (fun '(p, n) => 4 <= p <= 16 /\ 0 < n) count_pf_cases /\ Forall (fun '(p, n) => 4 <= p <= 16 /\ 0 < n) count_plus_cases.
Proof. exact bench_cases. Qed.
Print Assumptions C76_cases.

(** The cases of [bench_count] named "below_thres" are at most the threshold of linear counting of their
    precision, those named "above_thres" above it; these and the cases of HyperLogLogPF are also above 5m,
    from where the raw estimate is not corrected. *)
Theorem C76_thresholds :
  map fst count_pf_cases = insert_precisions /\
  (Forall (fun '(p, n) => 5 * m_R p < IZR (Z.of_N n)) count_pf_cases)%R /\
  exists low high, count_plus_cases = flat_map (fun '(a, b) => [a; b]) (combine low high) /\
    map fst low = insert_precisions /\ map fst high = insert_precisions /\
    (Forall (fun '(p, n) => IZR (Z.of_N n) <= threshold_R p) low)%R /\
    (Forall (fun '(p, n) => threshold_R p < IZR (Z.of_N n) /\ 5 * m_R p < IZR (Z.of_N n)) high)%R.
Proof. exact bench_thresholds. Qed.
Print Assumptions C76_thresholds.

(** ** The [benches] modules *)

(** Every register read is 0. *)
Theorem C76_registers_get : forall e iters, 32 <= usize_bits e ->
  exists r, bench_registers_get e iters = Ret (r, repeat (repeat 0 1000) (N.to_nat iters)).
Proof. exact registers_get. Qed.
Print Assumptions C76_registers_get.

(** 123 does not fit in a register of 6 bits: the benchmark leaves 59 in all 1000 registers, and
    the counter of zero registers at 800. *)
Theorem C76_registers_set : forall e iters, 32 <= usize_bits e -> 0 < iters ->
  exists r, bench_registers_set e iters = Ret r /\ reg_zeros r = 800 /\ forall i, i < 1000 -> reg_get SIZE_PLUS r i = Ret 59.
Proof. exact registers_set. Qed.
Print Assumptions C76_registers_set.

(** Pushing appends one byte per iteration for 0, five for 2^32 - 1; decoding reads them back. *)
Theorem C76_varint_push : forall iters,
  bench_varint_push iters 0 = Ret (repeat 0 (N.to_nat iters)) /\
  bench_varint_push iters (2 ^ 32 - 1) = Ret (concat (repeat [255; 255; 255; 255; 15] (N.to_nat iters))).
Proof. exact varint_push_cases. Qed.
Print Assumptions C76_varint_push.

Theorem C76_varint_decode : forall e iters,
  (exists v, bench_varint_decode e iters 0 = Ret (v, repeat (0, 1) (N.to_nat iters))) /\
  (exists v, bench_varint_decode e iters (2 ^ 32 - 1) = Ret (v, repeat (2 ^ 32 - 1, 5) (N.to_nat iters))).
Proof. exact varint_decode_cases. Qed.
Print Assumptions C76_varint_decode.

(** The 1000 and 10000 values that are inserted all hit the same register, of which there are
    65536, with the same rank. *)
Theorem C76_pf_insert : forall e iters, 32 <= usize_bits e -> 0 < iters ->
  exists s, bench_pf_insert e iters = Ret s /\ one_register SIZE_PF (pf_registers s) /\ reg_zeros (pf_registers s) = 65535.
Proof. exact pf_insert_bench. Qed.
Print Assumptions C76_pf_insert.

Theorem C76_pf_count : forall e iters, 32 < usize_bits e ->
  exists s c, bench_pf_count e iters = Ret (s, repeat c (N.to_nat iters)) /\ pf_count_est e s = Ret c /\
    one_register SIZE_PF (pf_registers s) /\ reg_zeros (pf_registers s) = 65535.
Proof. exact pf_count_bench. Qed.
Print Assumptions C76_pf_count.

Theorem C76_pf_with_hash : forall e draws b iters, build e -> 32 < usize_bits e ->
  exists c, bench_pf_insert_with_hash e draws b iters = Ret (tt, repeat c (N.to_nat iters)) /\
    count_pf e (inserted 16 b Insert keep (strings draws 2000)) = Ret c.
Proof. exact pf_with_hash_ok. Qed.
Print Assumptions C76_pf_with_hash.

(** The same for HyperLogLogPlus, forced into the normal representation. *)
Theorem C76_plus_insert_normal : forall e ords iters, 32 <= usize_bits e -> 0 < iters ->
  exists s r, bench_plus_insert_normal e ords iters = Ret s /\ hp_registers s = Some r /\ one_register SIZE_PLUS r /\ reg_zeros r = 65535.
Proof. exact plus_insert_normal_bench. Qed.
Print Assumptions C76_plus_insert_normal.

(** Here linear counting is always used, from the registers that the 2000 hashes leave at 0. *)
Theorem C76_plus_with_hash : forall e ords draws b iters, build_std e -> accurate e -> 32 < usize_bits e ->
  exists l c, is_register_file 64 16 (rev (map (hash64 b) (strings draws 2000))) l /\
    bench_insert_normal_with_hash e ords draws b iters = Ret (tt, repeat c (N.to_nat iters)) /\
    65536 <= zero_count l + 2000 /\ near_linear 65536 (zero_count l) c.
Proof. exact with_hash_bench. Qed.
Print Assumptions C76_plus_with_hash.

(** What is counted here is empty. *)
Theorem C76_plus_count_normal : forall e ords iters, build_std e -> accurate e -> 32 < usize_bits e ->
  exists s c, bench_plus_count_normal e ords iters = Ret (s, repeat c (N.to_nat iters)) /\ is_finite c = true /\ B2R c = 0%R.
Proof. exact count_normal_bench. Qed.
Print Assumptions C76_plus_count_normal.

(** All three assertions hold, and the 500 codes stay sparse; without an iteration the last fails. *)
Theorem C76_merge_sparse : forall e ords ords' iters, 32 <= usize_bits e -> (forall k, is_order (ords' k)) ->
  (0 < iters -> exists s, bench_plus_merge_sparse e ords ords' iters = Ret s /\ hp_registers s = None /\ hp_tmpset s = [] /\ dif_count (hp_sparse s) = 500) /\
  bench_plus_merge_sparse e ords ords' 0 = Panic.
Proof. exact merge_sparse_bench. Qed.
Print Assumptions C76_merge_sparse.

Theorem C76_estimate_bias : forall e iters, build e -> feat_std e = true ->
  exists l, bench_estimate_bias e iters = Ret (tt, repeat l (N.to_nat iters)) /\
    Forall2 bias_at_18 (map (fun n => B2R (lit n 3)) [275468768; 587532522; 1205430993; 1251260649]%Z) l.
Proof. exact bias_bench. Qed.
Print Assumptions C76_estimate_bias.

Example C76_example :
  build_std test_env /\ accurate test_env /\ is_order keep /\ 32 < usize_bits test_env /\ (forall l : list bytes, Permutation (rev l) l) /\
  generate_strings (fun i => i * i) (@rev bytes) 3 = [str "- 16 - 25 -"; str "- 4 - 9 -"; str "- 0 - 1 -"].
Proof.
  split; [exact test_build|]. split; [exact test_accurate|]. split; [exact keep_order|]. split; [reflexivity|].
  split; [intros l; apply Permutation_sym, Permutation_rev|]. vm_compute. reflexivity.
Qed.
