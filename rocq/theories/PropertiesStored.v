(** * Inserting into, merging and counting sketches that were read from outside

    A deserialized sketch is arbitrary: any precision that fits a byte, any register counts, any
    words, any zero counter, any pending codes and any byte string. *)
From Coq Require Import NArith ZArith List Bool Lia Permutation.
From Verif Require Import ModelRust ModelF64 ModelEnv ModelRegisters ModelEncoding ModelCommon ModelPF ModelPlus
  ModelSerde ModelTests Spec SpecBuild SpecSketch SpecBytes SpecStored StoredFacts StoredCodes StoredOps StoredRelease StoredClaim
  Witness.
Import ListNotations.
Local Open Scope N_scope.

(** ** C31: counting a sparse sketch, whatever its precision and register count

    [C31_plus_refuted] (PropertiesRefuted.v) shows that the property does not hold as stated;
    [C31_normal_exact_partial] (PropertiesDecode.v) is exact for sketches with registers, and
    [C31_wrapping_partial] (PropertiesFree.v) for sparse ones without overflow checks. *)

(** With overflow checks: exactly when. *)
Theorem C31_checked_partial : forall (V : Type) e ord de_b v (s : plus V), build_std e -> is_order ord ->
  overflow_checks e = true -> de_plus e de_b v = Some s -> hp_registers s = None ->
  let p := hp_precision s in let m := hp_counts0 s in
  let bad := flush_fails (usize_bits e) p m (hp_counts2 s) (hp_tmpset s) (d_buf (hp_sparse s)) in
  (hp_count e ord s = Panic /\ bad) \/
  (~ bad /\ exists L K, reads_as (d_buf (hp_sparse s)) L /\ flushes_to (hp_tmpset s) L K /\
     (gap_len 0 K <= hp_counts2 s /\
      (hp_count e ord s = Panic /\ hp_counts1 s < N.of_nat (length K) \/
       N.of_nat (length K) <= hp_counts1 s /\ exists s' c, hp_count e ord s = Ret (s', c)) \/
      hp_counts2 s < gap_len 0 K /\ exists s' r, hp_count e ord s = hp_count e ord s' /\ hp_registers s' = Some r /\
        hp_precision s' = p /\ hp_counts0 s' = m /\ r_zeros r + zeros_taken all_zero p [] K = m)).
Proof. exact count_stored. Qed.
Print Assumptions C31_checked_partial.

(** Precision 4 and a limit of 0 bytes, so that the codes are converted: 16 registers take the code
    2^28 + 9 (register 1), 1 register takes it too (there are five in a word), but not a code for
    register 15; with precision 26 or 0 any code panics, and no code does not. *)
Example C31_checked_example :
  let c p m T := try_count test_env (stored_plus p m 0 T [] SNone) in
  c 4 16 [2 ^ 28 + 9] = true /\ c 4 1 [2 ^ 28 + 9] = true /\ c 4 16 [15 * 2 ^ 28 + 9] = true /\
  c 4 1 [15 * 2 ^ 28 + 9] = false /\ c 26 16 [2 ^ 28 + 9] = false /\ c 0 16 [2 ^ 28 + 9] = false /\
  c 4 0 [2 ^ 28 + 9] = false /\
  slots_for 1 = 5 /\ reg_of 4 (2 ^ 28 + 9) = 1 /\ reg_of 4 (15 * 2 ^ 28 + 9) = 15.
Proof. cbv zeta. repeat split; vm_compute; reflexivity. Qed.

(** Without overflow checks, when the bytes can be read: exactly when a converted code is out of
    bounds. *)
Theorem C31_unchecked_partial : forall (V : Type) e ord de_b v (s : plus V) L K, build_std e -> is_order ord ->
  overflow_checks e = false -> de_plus e de_b v = Some s -> hp_registers s = None ->
  hp_counts0 s + 5 < 2 ^ usize_bits e ->
  reads_as (d_buf (hp_sparse s)) L -> flushes_to (hp_tmpset s) L K ->
  let bad := hp_counts2 s < gap_len 0 K /\ codes_out (hp_precision s) (slots_for (hp_counts0 s)) K in
  (hp_count e ord s = Panic /\ bad) \/
  (~ bad /\ (gap_len 0 K <= hp_counts2 s /\ (exists s' c, hp_count e ord s = Ret (s', c)) \/
     hp_counts2 s < gap_len 0 K /\ exists s' r, hp_count e ord s = hp_count e ord s' /\ hp_registers s' = Some r /\
       hp_precision s' = hp_precision s /\ hp_counts0 s' = hp_counts0 s)).
Proof. exact count_free. Qed.
Print Assumptions C31_unchecked_partial.

Example C31_unchecked_example :
  let c p m T := try_count small_env (stored_plus p m 0 T [] SNone) in
  c 4 16 [15 * 2 ^ 28 + 9] = true /\ c 4 1 [15 * 2 ^ 28 + 9] = false /\ c 4 5 [2 ^ 28 + 9] = true /\
  code_slot 4 (15 * 2 ^ 28 + 9) = 15 /\ code_slot 36 (15 * 2 ^ 28 + 9) = 15 /\ slots_for 16 = 20.
Proof. cbv zeta. repeat split; vm_compute; reflexivity. Qed.

(** ** C69: inserting into and merging deserialized sketches

    Exactly when an operation panics. *)

(** Inserting into a HyperLogLogPF: when the shift is too wide for a checked build, when the
    register is not there, or when a checked build finds a zero register with a zero counter at 0. *)
Theorem C69_pf_insert : forall (V : Type) e de_b v (s : pf V) (x : V), build e -> de_pf e de_b v = Some s ->
  let p := pf_precision s in
  let b := r_buf (pf_registers s) in
  let i := slot_of 32 p (pf_builder s x mod 2 ^ 32) in
  let bad := overflow_checks e = true /\ (p = 0 \/ 32 <= p) \/ slots 5 b <= i \/
    overflow_checks e = true /\ reg_at 5 b i = 0 /\ r_zeros (pf_registers s) = 0 in
  (pf_insert e s x = Panic /\ bad) \/ ((exists s', pf_insert e s x = Ret s') /\ ~ bad).
Proof. exact de_pf_insert. Qed.
Print Assumptions C69_pf_insert.

(** Three words hold 18 registers of five bits.  2^31 selects register 8. *)
Example C69_pf_insert_example :
  try_pf test_env (stored_pf 4 [0; 0; 0] 16) (2 ^ 31) = true /\
  try_pf test_env (stored_pf 4 [0; 0; 0] 0) (2 ^ 31) = false /\
  try_pf test_env (stored_pf 4 [0; 1024; 0] 0) (2 ^ 31) = true /\
  try_pf small_env (stored_pf 4 [0; 0; 0] 0) (2 ^ 31) = true /\
  try_pf test_env (stored_pf 4 [0] 16) (2 ^ 31) = false /\
  try_pf small_env (stored_pf 4 [0] 16) (2 ^ 31) = false /\
  try_pf test_env (stored_pf 40 [0; 0; 0] 16) (2 ^ 24) = false /\
  try_pf small_env (stored_pf 40 [0; 0; 0] 16) (2 ^ 24) = true /\
  slot_of 32 4 (2 ^ 31) = 8 /\ slot_of 32 40 (2 ^ 24) = 1 /\ slots 5 [0; 0; 0] = 18 /\ reg_at 5 [0; 1024; 0] 8 = 1.
Proof. repeat split; vm_compute; reflexivity. Qed.

(** Inserting into a HyperLogLogPlus with registers. *)
Theorem C69_plus_insert : forall (V : Type) e ord de_b v (s : plus V) (x : V) r, de_plus e de_b v = Some s ->
  hp_registers s = Some r ->
  let p := hp_precision s in
  let i := slot_of 64 p (hp_builder s x mod 2 ^ 64) mod 2 ^ usize_bits e in
  let bad := overflow_checks e = true /\ (p = 0 \/ 64 <= p) \/ slots 6 (r_buf r) <= i \/
    overflow_checks e = true /\ reg_at 6 (r_buf r) i = 0 /\ r_zeros r = 0 in
  (hp_insert e ord s x = Panic /\ bad) \/ ((exists s', hp_insert e ord s x = Ret s') /\ ~ bad).
Proof. exact de_plus_insert. Qed.
Print Assumptions C69_plus_insert.

(** Four words hold 20 registers of six bits.  2^63 selects register 8. *)
Example C69_plus_insert_example :
  try_insert test_env (stored_normal 4 [0; 0; 0; 0] 16) (2 ^ 63) = true /\
  try_insert test_env (stored_normal 4 [0; 0; 0; 0] 0) (2 ^ 63) = false /\
  try_insert small_env (stored_normal 4 [0; 0; 0; 0] 0) (2 ^ 63) = true /\
  try_insert test_env (stored_normal 4 [0] 16) (2 ^ 63) = false /\
  try_insert test_env (stored_normal 70 [0; 0; 0; 0] 16) 1 = false /\
  try_insert small_env (stored_normal 70 [0; 0; 0; 0] 16) 1 = true /\
  slot_of 64 4 (2 ^ 63) = 8 /\ slots 6 [0; 0; 0; 0] = 20.
Proof. repeat split; vm_compute; reflexivity. Qed.

(** Inserting into a sparse HyperLogLogPlus, with overflow checks: when the precision is 25 or more,
    or when the pending set becomes too large and cannot be flushed. *)
Theorem C69_plus_insert_sparse : forall (V : Type) e ord de_b v (s : plus V) (x : V), build e -> is_order ord ->
  overflow_checks e = true -> de_plus e de_b v = Some s -> hp_registers s = None ->
  100 * (N.of_nat (length (hp_tmpset s)) + 1) < 2 ^ usize_bits e ->
  let p := hp_precision s in
  let T := with_code (hp_tmpset s) (sparse_code p (hp_builder s x mod 2 ^ 64)) in
  let bad := 25 <= p \/ hp_counts2 s < 100 * N.of_nat (length T) /\
    flush_fails (usize_bits e) p (hp_counts0 s) (hp_counts2 s) T (d_buf (hp_sparse s)) in
  (hp_insert e ord s x = Panic /\ bad) \/ ((exists s', hp_insert e ord s x = Ret s') /\ ~ bad).
Proof. exact de_plus_insert_sparse. Qed.
Print Assumptions C69_plus_insert_sparse.

(** One pending code is kept within a limit of 100 bytes; with a limit of 0 it is converted, which
    needs a register for it. *)
Example C69_plus_insert_sparse_example :
  let i p m limit T b := try_insert test_env (stored_plus p m limit T b SNone) (2 ^ 63) in
  i 4 16 100 [] [] = true /\ i 25 16 100 [] [] = false /\ i 24 16 100 [] [] = true /\
  i 4 0 100 [] [] = true /\ i 4 0 99 [] [] = true /\ i 4 0 0 [] [] = false /\ i 4 16 0 [] [] = true /\
  i 4 16 100 [7] [128] = false /\ i 4 16 100 [] [128] = true /\
  sparse_code 4 (2 ^ 63) = 2 ^ 31 + 81.
Proof. cbv zeta. repeat split; vm_compute; reflexivity. Qed.

(** Without overflow checks, when the bytes can be read: when the result is converted and a code is
    out of bounds. *)
Theorem C69_plus_insert_sparse_unchecked : forall (V : Type) e ord de_b v (s : plus V) (x : V) L K, build e -> is_order ord ->
  overflow_checks e = false -> de_plus e de_b v = Some s -> hp_registers s = None -> hp_precision s < 25 ->
  hp_counts0 s + 5 < 2 ^ usize_bits e ->
  100 * (N.of_nat (length (hp_tmpset s)) + 1) < 2 ^ usize_bits e ->
  let p := hp_precision s in
  let T := with_code (hp_tmpset s) (sparse_code p (hp_builder s x mod 2 ^ 64)) in
  reads_as (d_buf (hp_sparse s)) L -> flushes_to T L K ->
  let bad := hp_counts2 s < 100 * N.of_nat (length T) /\ hp_counts2 s < gap_len 0 K /\
    codes_out p (slots_for (hp_counts0 s)) K in
  (hp_insert e ord s x = Panic /\ bad) \/ ((exists s', hp_insert e ord s x = Ret s') /\ ~ bad).
Proof. exact de_plus_insert_free. Qed.
Print Assumptions C69_plus_insert_sparse_unchecked.

Example C69_plus_insert_sparse_unchecked_example :
  let i p m limit T b := try_insert small_env (stored_plus p m limit T b SNone) (2 ^ 63) in
  i 4 16 100 [] [] = true /\ i 4 0 0 [] [] = false /\ i 4 9 0 [] [] = true /\ i 4 5 0 [] [] = false /\
  slots_for 9 = 10 /\ slots_for 5 = 5 /\ code_slot 4 (sparse_code 4 (2 ^ 63)) = 8.
Proof. cbv zeta. repeat split; vm_compute; reflexivity. Qed.

(** Merging two HyperLogLogPF: when the other lists registers that are not there, or, in a checked
    build, the zero counter is exceeded; otherwise the registers are the larger ones. *)
Theorem C69_pf_merge : forall (V W : Type) e de_b de_b' v v' (s : pf V) (o : pf W),
  de_pf e de_b v = Some s -> de_pf e de_b' v' = Some o ->
  let r := pf_registers s in let b := r_buf (pf_registers o) in
  let n := listed 5 (r_count (pf_registers o)) b in
  let bad := pf_precision s = pf_precision o /\ (slots 5 (r_buf r) < n \/
    overflow_checks e = true /\ r_zeros r < newly 5 (r_buf r) b n) in
  (pf_merge e s o = Panic /\ bad) \/
  (~ bad /\
   (pf_precision s <> pf_precision o /\ pf_merge e s o = Ret (s, RErr IncompatiblePrecision) \/
    pf_precision s = pf_precision o /\
    exists s', pf_merge e s o = Ret (s', ROk tt) /\
      (overflow_checks e = true -> r_zeros (pf_registers s') + newly 5 (r_buf r) b n = r_zeros r) /\
      forall j, reg_at 5 (r_buf (pf_registers s')) j =
        if j <? n then N.max (reg_at 5 (r_buf r) j) (reg_at 5 b j) else reg_at 5 (r_buf r) j)).
Proof. exact de_pf_merge. Qed.
Print Assumptions C69_pf_merge.

Example C69_pf_merge_example :
  let v z := stored_pf 4 [3; 0; 0] z in
  try_pf_merge test_env (v 15) (stored_pf 4 [1056; 1; 0] 0) = true /\
  try_pf_merge test_env (v 3) (stored_pf 4 [1056; 1; 0] 0) = true /\
  try_pf_merge test_env (v 2) (stored_pf 4 [1056; 1; 0] 0) = false /\
  try_pf_merge small_env (v 2) (stored_pf 4 [1056; 1; 0] 0) = true /\
  try_pf_merge small_env (stored_pf 4 [3; 0] 15) (v 15) = false /\
  try_pf_merge small_env (v 15) (stored_pf 4 [3; 0] 15) = true /\
  try_pf_merge small_env (stored_pf 5 [3; 0] 15) (v 15) = true /\
  newly 5 [3; 0; 0] [1056; 1; 0] 16 = 3 /\ listed 5 16 [3; 0; 0] = 16 /\ listed 5 16 [3; 0] = 12.
Proof. cbv zeta. repeat split; vm_compute; reflexivity. Qed.

(** The same for two HyperLogLogPlus with registers. *)
Theorem C69_plus_merge : forall (V W : Type) e ord de_b de_b' v v' (s : plus V) (o : plus W) r ro,
  de_plus e de_b v = Some s -> de_plus e de_b' v' = Some o ->
  hp_registers s = Some r -> hp_registers o = Some ro -> hp_precision s = hp_precision o ->
  let n := listed 6 (r_count ro) (r_buf ro) in
  let bad := slots 6 (r_buf r) < n \/ overflow_checks e = true /\ r_zeros r < newly 6 (r_buf r) (r_buf ro) n in
  (hp_merge e ord s o = Panic /\ bad) \/
  (~ bad /\ exists s' r', hp_merge e ord s o = Ret (s', ROk tt) /\ hp_registers s' = Some r' /\
      (overflow_checks e = true -> r_zeros r' + newly 6 (r_buf r) (r_buf ro) n = r_zeros r) /\
      forall j, reg_at 6 (r_buf r') j =
        if j <? n then N.max (reg_at 6 (r_buf r) j) (reg_at 6 (r_buf ro) j) else reg_at 6 (r_buf r) j).
Proof. exact de_plus_merge. Qed.
Print Assumptions C69_plus_merge.

Example C69_plus_merge_example :
  let v z := stored_normal 4 [3; 0; 0; 0] z in
  let o := stored_normal 4 [4161; 1; 0; 0] 0 in
  try_merge test_env (v 3) o = true /\ try_merge test_env (v 2) o = false /\ try_merge small_env (v 2) o = true /\
  try_merge small_env (stored_normal 4 [3; 0] 15) o = false /\
  try_merge small_env o (stored_normal 4 [3; 0] 15) = true /\
  newly 6 [3; 0; 0; 0] [4161; 1; 0; 0] 16 = 3 /\ listed 6 16 [3; 0] = 10.
Proof. cbv zeta. repeat split; vm_compute; reflexivity. Qed.

(** Two sparse sketches, with overflow checks: when the bytes of the other cannot be read, or the
    united pending set becomes too large and cannot be flushed. *)
Theorem C69_plus_merge_sparse : forall (V W : Type) e ord de_b de_b' v v' (s : plus V) (o : plus W), build e -> is_order ord ->
  overflow_checks e = true -> de_plus e de_b v = Some s -> de_plus e de_b' v' = Some o ->
  hp_registers s = None -> hp_registers o = None -> hp_precision s = hp_precision o ->
  (unreadable true (d_buf (hp_sparse o)) -> hp_merge e ord s o = Panic) /\
  forall L T, reads_as (d_buf (hp_sparse o)) L -> union_of (hp_tmpset s) (hp_tmpset o) L T ->
    100 * N.of_nat (length T) < 2 ^ usize_bits e ->
    let bad := hp_counts2 s < 100 * N.of_nat (length T) /\
      flush_fails (usize_bits e) (hp_precision s) (hp_counts0 s) (hp_counts2 s) T (d_buf (hp_sparse s)) in
    (hp_merge e ord s o = Panic /\ bad) \/ ((exists s', hp_merge e ord s o = Ret (s', ROk tt)) /\ ~ bad).
Proof. exact de_plus_merge_sparse. Qed.
Print Assumptions C69_plus_merge_sparse.

Example C69_plus_merge_sparse_example :
  let v m limit T b := stored_plus 4 m limit T b SNone in
  try_merge test_env (v 16 200 [7] []) (v 16 0 [8; 7] []) = true /\
  try_merge test_env (v 0 200 [7] []) (v 16 0 [8; 7] []) = true /\
  try_merge test_env (v 0 200 [7] []) (v 16 0 [8; 7] [9]) = true /\
  try_merge test_env (v 0 2 [7] []) (v 16 0 [8; 7] [9]) = false /\
  try_merge test_env (v 16 2 [7] []) (v 16 0 [8; 7] [9]) = true /\
  try_merge test_env (v 16 200 [7] []) (v 16 0 [8; 7] [129]) = false /\
  try_merge test_env (v 16 200 [7] [129]) (v 16 0 [8; 7] []) = true /\
  try_merge test_env (v 16 200 [7] [129]) (v 16 0 [8; 7] [9]) = false.
Proof. cbv zeta. repeat split; vm_compute; reflexivity. Qed.

(** Without overflow checks, when the bytes can be read. *)
Theorem C69_plus_merge_sparse_unchecked : forall (V W : Type) e ord de_b de_b' v v' (s : plus V) (o : plus W) L T L' K, build e -> is_order ord ->
  overflow_checks e = false -> de_plus e de_b v = Some s -> de_plus e de_b' v' = Some o ->
  hp_registers s = None -> hp_registers o = None ->
  hp_precision s = hp_precision o -> hp_counts0 s + 5 < 2 ^ usize_bits e ->
  reads_as (d_buf (hp_sparse o)) L -> union_of (hp_tmpset s) (hp_tmpset o) L T ->
  100 * N.of_nat (length T) < 2 ^ usize_bits e ->
  reads_as (d_buf (hp_sparse s)) L' -> flushes_to T L' K ->
  let bad := hp_counts2 s < 100 * N.of_nat (length T) /\ hp_counts2 s < gap_len 0 K /\
    codes_out (hp_precision s) (slots_for (hp_counts0 s)) K in
  (hp_merge e ord s o = Panic /\ bad) \/ ((exists s', hp_merge e ord s o = Ret (s', ROk tt)) /\ ~ bad).
Proof. exact de_plus_merge_free. Qed.
Print Assumptions C69_plus_merge_sparse_unchecked.

Example C69_plus_merge_sparse_unchecked_example :
  let v m limit T b := stored_plus 4 m limit T b SNone in
  try_merge small_env (v 0 200 [7] []) (v 16 0 [8; 7] [9]) = true /\
  try_merge small_env (v 0 2 [7] []) (v 16 0 [8; 7] [9]) = false /\
  try_merge small_env (v 16 2 [7] []) (v 16 0 [8; 7] [9]) = true /\
  union_of [7] [8; 7] [9] [7; 8; 9] /\ reads_as [9] [9] /\ gap_len 0 [7; 8; 9] = 3.
Proof.
  cbv zeta. split; [vm_compute; reflexivity|]. split; [vm_compute; reflexivity|]. split; [vm_compute; reflexivity|].
  split; [|split; [|vm_compute; reflexivity]].
  - split; [repeat constructor; simpl; intuition lia|simpl; intuition].
  - exists [[9]]. split; [reflexivity|]. split; [constructor; [exists [], 9; split; [reflexivity|split; [constructor|lia]]|constructor]|].
    split; [constructor; [simpl; lia|constructor]|]. split; reflexivity.
Qed.

(** A sparse sketch into one with registers, with overflow checks: when its bytes cannot be read, or
    one of its codes cannot be written. *)
Theorem C69_plus_merge_codes : forall (V W : Type) e ord de_b de_b' v v' (s : plus V) (o : plus W) r, build e -> is_order ord ->
  overflow_checks e = true -> de_plus e de_b v = Some s -> de_plus e de_b' v' = Some o ->
  hp_registers s = Some r -> hp_registers o = None -> hp_precision s = hp_precision o ->
  let bad := unreadable true (d_buf (hp_sparse o)) \/
    exists L, reads_as (d_buf (hp_sparse o)) L /\
      codes_fail (zero_in (r_buf r)) (hp_precision s) (slots 6 (r_buf r)) (r_zeros r) (ord (hp_tmpset o) ++ L) in
  (hp_merge e ord s o = Panic /\ bad) \/ ((exists s', hp_merge e ord s o = Ret (s', ROk tt)) /\ ~ bad).
Proof. exact de_plus_merge_codes. Qed.
Print Assumptions C69_plus_merge_codes.

Example C69_plus_merge_codes_example :
  let v T b := stored_plus 4 16 200 T b SNone in
  let w p z := stored_normal p [3; 0; 0; 0] z in
  try_merge test_env (w 4 1) (v [2 ^ 28 + 9; 9] []) = true /\
  try_merge test_env (w 4 0) (v [2 ^ 28 + 9; 9] []) = false /\
  try_merge test_env (w 4 0) (v [9] []) = true /\
  try_merge test_env (w 4 15) (v [9] [9]) = true /\
  try_merge test_env (w 4 15) (v [9] [129]) = false /\
  try_merge test_env (stored_normal 4 [3] 15) (v [7 * 2 ^ 28 + 9] []) = false /\
  zeros_taken (zero_in [3; 0; 0; 0]) 4 [] [2 ^ 28 + 9; 9] = 1 /\ zeros_taken (zero_in [3; 0; 0; 0]) 4 [] [9] = 0.
Proof. cbv zeta. repeat split; vm_compute; reflexivity. Qed.

(** Without overflow checks, when the bytes can be read. *)
Theorem C69_plus_merge_codes_unchecked : forall (V W : Type) e ord de_b de_b' v v' (s : plus V) (o : plus W) r L, build e -> is_order ord ->
  overflow_checks e = false -> de_plus e de_b v = Some s -> de_plus e de_b' v' = Some o ->
  hp_registers s = Some r -> hp_registers o = None ->
  hp_precision s = hp_precision o -> reads_as (d_buf (hp_sparse o)) L ->
  let bad := codes_out (hp_precision s) (slots 6 (r_buf r)) (hp_tmpset o ++ L) in
  (hp_merge e ord s o = Panic /\ bad) \/ ((exists s', hp_merge e ord s o = Ret (s', ROk tt)) /\ ~ bad).
Proof. exact de_plus_merge_codes_free. Qed.
Print Assumptions C69_plus_merge_codes_unchecked.

Example C69_plus_merge_codes_unchecked_example :
  let v T b := stored_plus 4 16 200 T b SNone in
  try_merge small_env (stored_normal 4 [3; 0; 0; 0] 0) (v [2 ^ 28 + 9; 9] []) = true /\
  try_merge small_env (stored_normal 4 [3] 15) (v [4 * 2 ^ 28 + 9] [9]) = true /\
  try_merge small_env (stored_normal 4 [3] 15) (v [5 * 2 ^ 28 + 9] [9]) = false /\
  code_slot 4 (5 * 2 ^ 28 + 9) = 5 /\ slots 6 [3] = 5.
Proof. cbv zeta. repeat split; vm_compute; reflexivity. Qed.

(** A sketch with registers into a sparse one, with overflow checks: when the sparse one cannot be
    converted, or the registers of the other do not fit or exceed the zero counter afterwards. *)
Theorem C69_plus_merge_into : forall (V W : Type) e ord de_b de_b' v v' (s : plus V) (o : plus W) ro, build e -> is_order ord ->
  overflow_checks e = true -> de_plus e de_b v = Some s -> de_plus e de_b' v' = Some o ->
  hp_registers s = None -> hp_registers o = Some ro -> hp_precision s = hp_precision o ->
  let p := hp_precision s in let m := hp_counts0 s in
  let n := listed 6 (r_count ro) (r_buf ro) in
  let bad := unreadable true (d_buf (hp_sparse s)) \/
    exists L K, reads_as (d_buf (hp_sparse s)) L /\ flushes_to (hp_tmpset s) L K /\
      (conversion_fails (usize_bits e) p m K \/ slots_for m < n \/
       m < zeros_taken all_zero p [] K + fills (fun i => zero_now all_zero p i (rev K)) (r_buf ro) n) in
  (hp_merge e ord s o = Panic /\ bad) \/ ((exists s', hp_merge e ord s o = Ret (s', ROk tt)) /\ ~ bad).
Proof. exact de_plus_merge_into. Qed.
Print Assumptions C69_plus_merge_into.

Example C69_plus_merge_into_example :
  let v m T b := stored_plus 4 m 200 T b SNone in
  let w := stored_normal 4 [3; 0; 0; 0] 15 in
  try_merge test_env (v 16 [2 ^ 28 + 9] []) w = true /\
  try_merge test_env (v 16 [2 ^ 28 + 9] [129]) w = false /\
  try_merge test_env (v 5 [2 ^ 28 + 9] []) w = false /\
  try_merge test_env (v 5 [2 ^ 28 + 9] []) (stored_normal 4 [3] 15) = true /\
  try_merge test_env (v 1 [2 ^ 28 + 9] []) (stored_normal 4 [3] 15) = false /\
  try_merge test_env (v 1 [9] []) (stored_normal 4 [3] 15) = true.
Proof. cbv zeta. repeat split; vm_compute; reflexivity. Qed.

(** Without overflow checks, when the bytes can be read. *)
Theorem C69_plus_merge_into_unchecked : forall (V W : Type) e ord de_b de_b' v v' (s : plus V) (o : plus W) ro L K, build e -> is_order ord ->
  overflow_checks e = false -> de_plus e de_b v = Some s -> de_plus e de_b' v' = Some o ->
  hp_registers s = None -> hp_registers o = Some ro ->
  hp_precision s = hp_precision o -> hp_counts0 s + 5 < 2 ^ usize_bits e ->
  reads_as (d_buf (hp_sparse s)) L -> flushes_to (hp_tmpset s) L K ->
  let m := hp_counts0 s in
  let bad := codes_out (hp_precision s) (slots_for m) K \/ slots_for m < listed 6 (r_count ro) (r_buf ro) in
  (hp_merge e ord s o = Panic /\ bad) \/ ((exists s', hp_merge e ord s o = Ret (s', ROk tt)) /\ ~ bad).
Proof. exact de_plus_merge_into_free. Qed.
Print Assumptions C69_plus_merge_into_unchecked.

Example C69_plus_merge_into_unchecked_example :
  let v m T b := stored_plus 4 m 200 T b SNone in
  try_merge small_env (v 5 [2 ^ 28 + 9] []) (stored_normal 4 [3; 0; 0; 0] 15) = false /\
  try_merge small_env (v 1 [2 ^ 28 + 9] []) (stored_normal 4 [3] 15) = true /\
  try_merge small_env (v 1 [5 * 2 ^ 28 + 9] []) (stored_normal 4 [3] 15) = false.
Proof. cbv zeta. repeat split; vm_compute; reflexivity. Qed.

