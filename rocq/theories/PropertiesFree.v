(** * Sketches that were read from outside, in builds without overflow checks

    Nothing is assumed of the bytes, of the precision or of the register count: what the wrapping
    arithmetic of such a build makes of them is spelled out in SpecFree.v. *)
From Coq Require Import NArith ZArith List Bool Lia Permutation Sorted.
From Verif Require Import ModelRust ModelF64 ModelEnv ModelRegisters ModelEncoding ModelCommon ModelPF ModelPlus
  ModelSerde ModelTests Spec SpecBuild SpecSketch SpecBytes SpecStored SpecFree StoredFacts StoredCodes StoredOps StoredClaim
  FreeFacts FreeOps Witness.
Import ListNotations.
Local Open Scope N_scope.

(** ** C31: counting a sparse sketch

    [C31_plus_refuted] (PropertiesRefuted.v) shows that the property does not hold as stated.  With
    [C31_checked_partial] (PropertiesStored.v) this says exactly when counting a sparse sketch
    panics, in every build: here when the bytes end inside a number, or when the flushed codes exceed
    the limit and one of them has no register.  A converted sketch counts as [C31_normal_exact_partial]
    (PropertiesDecode.v) says. *)
Theorem C31_wrapping_partial : forall (V : Type) e ord de_b v (s : plus V), build_std e -> is_order ord ->
  overflow_checks e = false -> de_plus e de_b v = Some s -> hp_registers s = None ->
  let bad := flush_breaks (usize_bits e) (hp_precision s) (hp_counts0 s) (hp_counts2 s) (hp_tmpset s) (d_buf (hp_sparse s)) in
  (hp_count e ord s = Panic /\ bad) \/
  (~ bad /\ exists L K, reads_free (d_buf (hp_sparse s)) L /\ merges_to (hp_tmpset s) L K /\
     (step_len 0 K <= hp_counts2 s /\
      (exists s' c zeros, hp_count e ord s = Ret (s', c) /\ linear_count e (hp_counts1 s) zeros = Ret c /\
        (zeros + N.of_nat (length K) = hp_counts1 s \/
         hp_counts1 s < N.of_nat (length K) /\ zeros = hp_counts1 s + 2 ^ usize_bits e - N.of_nat (length K))) \/
      hp_counts2 s < step_len 0 K /\ exists s' r lc, hp_count e ord s = hp_count e ord s' /\ hp_registers s' = Some r /\
        hp_precision s' = hp_precision s /\ hp_counts0 s' = hp_counts0 s /\ linear_count e (hp_counts0 s') (r_zeros r) = Ret lc)).
Proof. exact count_any. Qed.
Print Assumptions C31_wrapping_partial.

(** The bytes are 2^32 - 1 and 10, whose sum wraps to 9; with the pending code 5 they are flushed to
    5, 2^32 - 1, 9, which take seven bytes.  Within a limit of seven they stay; otherwise they need
    registers 0 and 15.  A number may take six bytes: the last is shifted by 35 modulo 32. *)
Example C31_wrapping_example :
  let b := [255; 255; 255; 255; 15; 10] in
  let c e m limit b := try_count e (stored_plus 4 m limit [5] b SNone) in
  reads_free b [2 ^ 32 - 1; 9] /\ merges_to [5] [2 ^ 32 - 1; 9] [5; 2 ^ 32 - 1; 9] /\
  step_len 0 [5; 2 ^ 32 - 1; 9] = 7 /\ code_slot 4 (2 ^ 32 - 1) = 15 /\ slots_free 64 15 = 15 /\ slots_free 64 16 = 20 /\
  c small_env 15 6 b = false /\ c small_env 16 6 b = true /\ c test_env 16 6 b = false /\
  c small_env 16 0 [129; 128; 128; 128; 128; 1] = true /\ c test_env 16 0 [129; 128; 128; 128; 128; 1] = false /\
  c small_env 16 0 [129; 128; 128; 128; 128; 129] = false /\ reads_free [129; 128; 128; 128; 128; 1] [9] /\
  slots_free 64 (2 ^ 64 - 1) = 0.
Proof.
  cbv zeta. split; [|split].
  - exists [[255; 255; 255; 255; 15]; [10]]. split; [reflexivity|]. split; [|vm_compute; reflexivity].
    repeat constructor; [exists [255; 255; 255; 255], 15|exists [], 10]; (split; [reflexivity|]; split; [|reflexivity]);
      repeat constructor; discriminate.
  - exists [5]. split; [reflexivity|]. split; [repeat constructor|]. constructor; [reflexivity|constructor].
  - do 9 (split; [vm_compute; reflexivity|]). split; [vm_compute; reflexivity|]. split; [|vm_compute; reflexivity].
    exists [[129; 128; 128; 128; 128; 1]]. split; [reflexivity|]. split; [|vm_compute; reflexivity].
    repeat constructor. exists [129; 128; 128; 128; 128], 1. split; [reflexivity|]. split; [|reflexivity]. repeat constructor; discriminate.
Qed.

(** ** C69: inserting and merging *)

(** The code that is inserted, at any precision. *)
Theorem C69_code_wrapping : forall e p h, overflow_checks e = false -> p < 256 -> h < 2 ^ 64 ->
  encode_hash e p h = Ret (code_free p h).
Proof. exact encode_any. Qed.
Print Assumptions C69_code_wrapping.

Theorem C69_code_legal : forall p h, p < 25 -> h < 2 ^ 64 -> code_free p h = sparse_code p h.
Proof. exact code_free_legal. Qed.
Print Assumptions C69_code_legal.

(** At precision 4 the 21 bits after the first four decide; at precision 68 as well; at 25 the bits
    after the first 25, which are not dropped (64 is 0 modulo 64). *)
Example C69_code_example :
  code_free 4 (2 ^ 63) = 2 ^ 31 + 81 /\ code_free 68 (2 ^ 63) = 2 ^ 31 + 81 /\
  code_free 4 (2 ^ 63 + 2 ^ 40) = 2 ^ 25 + 4 /\
  code_free 25 (2 ^ 63) = 2 ^ 31 + 81 /\ code_free 25 (2 ^ 63 + 1) = 2 ^ 25 /\
  encode_hash small_env 25 (2 ^ 63 + 1) = Ret (2 ^ 25) /\ encode_hash test_env 25 (2 ^ 63 + 1) = Panic /\
  encode_hash small_env 255 (2 ^ 63) = Ret (code_free 255 (2 ^ 63)).
Proof. repeat split; vm_compute; reflexivity. Qed.

(** Inserting: when the pending set becomes too large and cannot be flushed.  The size is computed
    modulo 2^64 (or 2^32). *)
Theorem C69_plus_insert_wrapping : forall (V : Type) e ord de_b v (s : plus V) (x : V), build e -> is_order ord ->
  overflow_checks e = false -> de_plus e de_b v = Some s -> hp_registers s = None ->
  let p := hp_precision s in
  let T := with_code (hp_tmpset s) (code_free p (hp_builder s x mod 2 ^ 64)) in
  let bad := hp_counts2 s < 100 * N.of_nat (length T) mod 2 ^ usize_bits e /\
    flush_breaks (usize_bits e) p (hp_counts0 s) (hp_counts2 s) T (d_buf (hp_sparse s)) in
  (hp_insert e ord s x = Panic /\ bad) \/ ((exists s', hp_insert e ord s x = Ret s') /\ ~ bad).
Proof. exact insert_any. Qed.
Print Assumptions C69_plus_insert_wrapping.

Example C69_plus_insert_wrapping_example :
  let i e p m limit b := try_insert e (stored_plus p m limit [] b SNone) (2 ^ 63) in
  i small_env 25 16 100 [] = true /\ i test_env 25 16 100 [] = false /\
  i small_env 25 16 0 [] = false /\ i small_env 36 16 0 [] = true /\ i small_env 36 7 0 [] = true /\ i small_env 36 5 0 [] = false /\
  i small_env 4 16 99 [128] = false /\ i small_env 4 16 100 [128] = true /\
  i small_env 4 16 99 [129; 128; 128; 128; 128; 1] = true /\ i test_env 4 16 99 [129; 128; 128; 128; 128; 1] = false /\
  code_free 36 (2 ^ 63) = 2 ^ 31 + 81 /\ code_slot 36 (2 ^ 31 + 81) = 8 /\ slots_free 64 7 = 10.
Proof. cbv zeta. repeat split; vm_compute; reflexivity. Qed.

(** Two sparse sketches: when the bytes of the other end inside a number, or the union of the
    pending codes and the other's codes is too large and cannot be flushed. *)
Theorem C69_plus_merge_sparse_wrapping : forall (V W : Type) e ord de_b de_b' v v' (s : plus V) (o : plus W), build e -> is_order ord ->
  overflow_checks e = false -> de_plus e de_b v = Some s -> de_plus e de_b' v' = Some o ->
  hp_registers s = None -> hp_registers o = None -> hp_precision s = hp_precision o ->
  (ends_open (d_buf (hp_sparse o)) -> hp_merge e ord s o = Panic) /\
  forall L T, reads_free (d_buf (hp_sparse o)) L -> union_of (hp_tmpset s) (hp_tmpset o) L T ->
    let bad := hp_counts2 s < 100 * N.of_nat (length T) mod 2 ^ usize_bits e /\
      flush_breaks (usize_bits e) (hp_precision s) (hp_counts0 s) (hp_counts2 s) T (d_buf (hp_sparse s)) in
    (hp_merge e ord s o = Panic /\ bad) \/ ((exists s', hp_merge e ord s o = Ret (s', ROk tt)) /\ ~ bad).
Proof. exact merge_sparse_any. Qed.
Print Assumptions C69_plus_merge_sparse_wrapping.

(** One of the two cases applies. *)
Theorem C69_bytes_wrapping : forall v, ends_open v \/ ~ ends_open v /\ exists L, reads_free v L.
Proof. exact free_or_open. Qed.
Print Assumptions C69_bytes_wrapping.

Example C69_plus_merge_sparse_wrapping_example :
  let b := [255; 255; 255; 255; 15; 10] in
  let v m limit T b := stored_plus 4 m limit T b SNone in
  try_merge small_env (v 16 0 [5] []) (v 16 0 [5] b) = true /\
  try_merge small_env (v 15 0 [5] []) (v 16 0 [5] b) = false /\
  try_merge small_env (v 15 300 [5] []) (v 16 0 [5] b) = true /\
  try_merge small_env (v 15 7 [5] []) (v 16 0 [5] b) = true /\
  try_merge small_env (v 15 300 [5] []) (v 16 0 [5] [128]) = false /\
  try_merge small_env (v 15 300 [5] [128]) (v 16 0 [5] b) = true /\
  try_merge small_env (v 15 299 [5] [128]) (v 16 0 [5] b) = false /\
  try_merge test_env (v 16 300 [5] []) (v 16 0 [5] b) = false.
Proof. cbv zeta. repeat split; vm_compute; reflexivity. Qed.

(** A sparse sketch into registers. *)
Theorem C69_plus_merge_codes_wrapping : forall (V W : Type) e ord de_b de_b' v v' (s : plus V) (o : plus W) r, build e -> is_order ord ->
  overflow_checks e = false -> de_plus e de_b v = Some s -> de_plus e de_b' v' = Some o ->
  hp_registers s = Some r -> hp_registers o = None -> hp_precision s = hp_precision o ->
  let bad := ends_open (d_buf (hp_sparse o)) \/
    exists L, reads_free (d_buf (hp_sparse o)) L /\ codes_out (hp_precision s) (slots 6 (r_buf r)) (hp_tmpset o ++ L) in
  (hp_merge e ord s o = Panic /\ bad) \/ ((exists s', hp_merge e ord s o = Ret (s', ROk tt)) /\ ~ bad).
Proof. exact merge_codes_any. Qed.
Print Assumptions C69_plus_merge_codes_wrapping.

Example C69_plus_merge_codes_wrapping_example :
  let b := [255; 255; 255; 255; 15; 10] in
  let v T b := stored_plus 4 16 200 T b SNone in
  try_merge small_env (stored_normal 4 [3; 0; 0; 0] 0) (v [9] b) = true /\
  try_merge small_env (stored_normal 4 [3; 0; 0] 0) (v [9] b) = false /\
  try_merge small_env (stored_normal 4 [3; 0; 0] 0) (v [9] [10]) = true /\
  try_merge small_env (stored_normal 4 [3; 0; 0] 0) (v [9] [10; 128]) = false /\
  try_merge test_env (stored_normal 4 [3; 0; 0; 0] 15) (v [9] b) = false /\
  slots 6 [3; 0; 0] = 15.
Proof. cbv zeta. repeat split; vm_compute; reflexivity. Qed.

(** Registers into a sparse sketch, which is converted first. *)
Theorem C69_plus_merge_into_wrapping : forall (V W : Type) e ord de_b de_b' v v' (s : plus V) (o : plus W) ro, build e -> is_order ord ->
  overflow_checks e = false -> de_plus e de_b v = Some s -> de_plus e de_b' v' = Some o ->
  hp_registers s = None -> hp_registers o = Some ro -> hp_precision s = hp_precision o ->
  let n := slots_free (usize_bits e) (hp_counts0 s) in
  let bad := ends_open (d_buf (hp_sparse s)) \/ n < listed 6 (r_count ro) (r_buf ro) \/
    exists L, reads_free (d_buf (hp_sparse s)) L /\ codes_out (hp_precision s) n (hp_tmpset s ++ L) in
  (hp_merge e ord s o = Panic /\ bad) \/ ((exists s', hp_merge e ord s o = Ret (s', ROk tt)) /\ ~ bad).
Proof. exact merge_into_any. Qed.
Print Assumptions C69_plus_merge_into_wrapping.

Example C69_plus_merge_into_wrapping_example :
  let b := [255; 255; 255; 255; 15; 10] in
  let v m T b := stored_plus 4 m 200 T b SNone in
  try_merge small_env (v 16 [9] b) (stored_normal 4 [3; 0; 0; 0] 15) = true /\
  try_merge small_env (v 15 [9] b) (stored_normal 4 [3] 15) = false /\
  try_merge small_env (v 15 [9] [10]) (stored_normal 4 [3] 15) = true /\
  try_merge small_env (v 15 [9] [10]) (stored_normal 4 [3; 0; 0; 0] 15) = false /\
  try_merge small_env (v 16 [9] [138]) (stored_normal 4 [3] 15) = false /\
  try_merge test_env (v 16 [9] b) (stored_normal 4 [3; 0; 0; 0] 15) = false.
Proof. cbv zeta. repeat split; vm_compute; reflexivity. Qed.
