(** * Reading arbitrary bytes, and counting sketches that were read from outside

    The difference vector of a deserialized HyperLogLogPlus is an arbitrary byte string. *)
From Coq Require Import NArith ZArith List Bool Lia Permutation.
From Verif Require Import ModelRust ModelF64 ModelEnv ModelRegisters ModelEncoding ModelCommon ModelPlus
  ModelSerde ModelConstants ModelTests Spec SpecBuild SpecSketch SpecBytes DecodeFacts DecodeState DecodeClaim UntidyFacts
  Witness RefuteFacts.
Import ListNotations.
Local Open Scope N_scope.

(** ** C63: decoding any byte string *)

(** Collecting the numbers panics exactly when the string is cut off inside a number, or, with
    overflow checks, holds a number of more than five bytes.  It always ends; numbers of at most
    five bytes are read modulo 2^32. *)
Theorem C63_varint : forall e v, Forall (fun b => b < 256) v ->
  (varint_collect e v = Panic <-> ends_open v \/ overflow_checks e = true /\ long_run v) /\
  (varint_collect e v = Panic \/ exists xs, varint_collect e v = Ret xs) /\
  (forall ns, v = concat ns -> Forall is_number ns -> Forall (fun n => (length n <= 5)%nat) ns ->
   varint_collect e v = Ret (map read32 ns)).
Proof. exact collect_bytes. Qed.
Print Assumptions C63_varint.

(** Without overflow checks a number of any length is read, with the shift amounts modulo 32. *)
Theorem C63_unchecked : forall e pre n post, overflow_checks e = false -> is_number n ->
  Forall (fun b => b < 256) n ->
  varint_decode e (pre ++ n ++ post) (N.of_nat (length pre))
  = Ret (unchecked 0 n, N.of_nat (length pre) + N.of_nat (length n)).
Proof. exact decode_unchecked. Qed.
Print Assumptions C63_unchecked.

(** The iterator over differences adds them up: it panics exactly when the bytes cannot be read
    or, with overflow checks, the sum leaves 32 bits; else it yields the running sums. *)
Theorem C63_differences : forall e d, Forall (fun b => b < 256) (d_buf d) ->
  let items := dif_for e d (fun acc c => Ret (acc ++ [c])) [] in
  (items = Panic <-> unreadable (overflow_checks e) (d_buf d)) /\
  (items = Panic \/ exists L, items = Ret L) /\
  (forall ns, d_buf d = concat ns -> Forall is_number ns ->
     Forall (fun n => (length n <= 5)%nat) ns ->
     overflow_checks e = false \/ total (map read32 ns) < 2 ^ 32 ->
     items = Ret (map (fun x => x mod 2 ^ 32) (sums 0 (map read32 ns)))).
Proof. exact dif_items_bytes. Qed.
Print Assumptions C63_differences.

(** 300, then 2^32 - 1, which does not fit the sum; in a release build it wraps.  And a six-byte
    number, whose last byte is shifted by 35 - 32. *)
Example C63_example :
  let v := [172; 2; 255; 255; 255; 255; 15] in
  let d := {| d_count := 7; d_last := 0; d_buf := v |} in
  let items e := dif_for e d (fun acc c => Ret (acc ++ [c])) [] in
  varint_collect test_env v = Ret [300; 2 ^ 32 - 1] /\
  items test_env = Panic /\ items small_env = Ret [300; 299] /\
  varint_collect test_env [128] = Panic /\
  varint_collect test_env [129; 128; 128; 128; 128; 1] = Panic /\
  varint_collect small_env [129; 128; 128; 128; 128; 1] = Ret [9] /\
  unchecked 0 [129; 128; 128; 128; 128; 1] = 9.
Proof. repeat split; vm_compute; reflexivity. Qed.

(** ** C31: counting deserialized values

    [C31_plus_refuted] and [C31_pf_refuted] (PropertiesRefuted.v) show that the property does not
    hold as stated; [C31_pf_partial] is exact for HyperLogLogPF.  Here: when the count of a
    deserialized HyperLogLogPlus panics. *)

(** With registers: exactly when the precision is used but illegal, or the square of the register
    count does not fit. *)
Theorem C31_normal_exact_partial : forall (V : Type) e ord (s : plus V) r lc, build_std e ->
  hp_registers s = Some r -> linear_count e (hp_counts0 s) (r_zeros r) = Ret lc ->
  let big := overflow_checks e = true /\ 2 ^ usize_bits e <= hp_counts0 s * hp_counts0 s in
  (hp_count e ord s = Panic <->
   r_zeros r <> 0 /\
     (~ 4 <= hp_precision s <= 18 \/
      big /\ exists t, threshold (hp_precision s) = Ret t /\ fle lc t = false) \/
   r_zeros r = 0 /\
     (big \/ ~ 4 <= hp_precision s <= 18 /\
      exists raw, estimate_raw_plus e (reg_iter SIZE_PLUS r) (hp_counts0 s) = Ret raw /\
                  fle raw (fmul (of_Z 5) (of_N (hp_counts0 s))) = true)) /\
  (hp_count e ord s = Panic \/ exists c, hp_count e ord s = Ret (s, c)).
Proof. exact plus_normal_exact. Qed.
Print Assumptions C31_normal_exact_partial.

(** Without registers, bytes that cannot be read: always a panic. *)
Theorem C31_unreadable_partial : forall (V : Type) e ord de_b v (s : plus V), is_order ord ->
  de_plus e de_b v = Some s -> hp_registers s = None ->
  unreadable (overflow_checks e) (d_buf (hp_sparse s)) -> hp_count e ord s = Panic.
Proof. exact de_bad. Qed.
Print Assumptions C31_unreadable_partial.

(** Bytes that can be read and a flushed list [K] that stays sparse: exactly when [K] is longer
    than the number of sparse registers; in a release build the difference wraps. *)
Theorem C31_stays_sparse_partial : forall (V : Type) e ord de_b v (s : plus V) ns K, is_order ord ->
  de_plus e de_b v = Some s -> hp_registers s = None ->
  d_buf (hp_sparse s) = concat ns -> Forall is_number ns ->
  Forall (fun n => (length n <= 5)%nat) ns -> total (map read32 ns) < 2 ^ 32 ->
  flushes_to (hp_tmpset s) (sums 0 (map read32 ns)) K -> gap_len 0 K <= hp_counts2 s ->
  (hp_count e ord s = Panic /\ overflow_checks e = true /\ hp_counts1 s < N.of_nat (length K)) \/
  (exists s' c zeros, hp_count e ord s = Ret (s', c) /\ linear_count e (hp_counts1 s) zeros = Ret c /\
   (zeros + N.of_nat (length K) = hp_counts1 s \/
    overflow_checks e = false /\ hp_counts1 s < N.of_nat (length K) /\
      zeros = hp_counts1 s + 2 ^ usize_bits e - N.of_nat (length K))).
Proof. exact de_sparse. Qed.
Print Assumptions C31_stays_sparse_partial.

(** A flushed list that is converted to registers: no panic for a legal precision with its
    register count, if the ranks stored in the codes fit a register ... *)
Theorem C31_converts_partial : forall (V : Type) e ord de_b v (s : plus V) ns K,
  build_std e -> is_order ord -> de_plus e de_b v = Some s ->
  4 <= hp_precision s <= 18 -> hp_counts0 s = 2 ^ hp_precision s -> 2 * hp_precision s < usize_bits e ->
  hp_registers s = None ->
  d_buf (hp_sparse s) = concat ns -> Forall is_number ns ->
  Forall (fun n => (length n <= 5)%nat) ns -> total (map read32 ns) < 2 ^ 32 ->
  flushes_to (hp_tmpset s) (sums 0 (map read32 ns)) K -> hp_counts2 s < gap_len 0 K ->
  Forall (tidy (hp_precision s)) K -> exists s' c, hp_count e ord s = Ret (s', c).
Proof. exact de_convert. Qed.
Print Assumptions C31_converts_partial.

(** ... and that condition is needed: everything else in order, but a rank of 64 stored many
    times. *)
Theorem C31_untidy_witness : exists v (s : plus N), de_plus test_env de_mix v = Some s /\
  hp_precision s = 4 /\ hp_counts0 s = 16 /\ hp_registers s = None /\
  (exists ns, d_buf (hp_sparse s) = concat ns /\ Forall is_number ns /\
     Forall (fun n => (length n <= 5)%nat) ns /\ total (map read32 ns) < 2 ^ 32) /\
  hp_count test_env keep s = Panic.
Proof. exact untidy_false. Qed.
Print Assumptions C31_untidy_witness.

(** Exactly: with overflow checks the conversion panics when more codes than there are registers
    find a zero in their register. *)
Theorem C31_converts_exact_partial : forall (V : Type) e ord de_b v (s : plus V) ns K,
  build_std e -> is_order ord -> overflow_checks e = true -> de_plus e de_b v = Some s ->
  4 <= hp_precision s <= 18 -> hp_counts0 s = 2 ^ hp_precision s -> 2 * hp_precision s < usize_bits e ->
  hp_registers s = None ->
  d_buf (hp_sparse s) = concat ns -> Forall is_number ns ->
  Forall (fun n => (length n <= 5)%nat) ns -> total (map read32 ns) < 2 ^ 32 ->
  flushes_to (hp_tmpset s) (sums 0 (map read32 ns)) K -> hp_counts2 s < gap_len 0 K ->
  (hp_count e ord s = Panic /\ 2 ^ hp_precision s < found_zero (hp_precision s) [] K) \/
  ((exists s' c, hp_count e ord s = Ret (s', c)) /\ found_zero (hp_precision s) [] K <= 2 ^ hp_precision s).
Proof. exact de_untidy. Qed.
Print Assumptions C31_converts_exact_partial.

(** Sixteen registers.  The code 87 (register 0, rank 64) written 16 times is counted, 17 times it
    panics; the code 2^28 + 9 (register 1, rank 25) no longer finds a zero after it, so that 16
    of the one and one of the other are counted. *)
Example C31_exact_example :
  let K n := repeat 87 n in
  let ok b := match de_plus test_env de_mix (sparse_value (2 ^ 24) 0 [] b) with
              | Some s => is_ok (hp_count test_env keep s) | None => false end in
  sums 0 (87 :: repeat 0 15) = K 16%nat /\ flushes_to [] (K 16%nat) (K 16%nat) /\
  found_zero 4 [] (K 16%nat) = 16 /\ found_zero 4 [] (K 17%nat) = 17 /\
  found_zero 4 [] (K 16%nat ++ [2 ^ 28 + 9]) = 16 /\
  sums 0 (map read32 (map (fun b => [b]) (87 :: repeat 0 15) ++ [[178; 255; 255; 127]])) = K 16%nat ++ [2 ^ 28 + 9] /\
  ok (87 :: repeat 0 15) = true /\ ok (87 :: repeat 0 16) = false /\
  ok ((87 :: repeat 0 15) ++ [178; 255; 255; 127]) = true.
Proof.
  cbv zeta. repeat split; try (lazy; reflexivity).
  all: simpl; intuition (subst; lia).
Qed.

(** Without overflow checks only a string that is cut off panics. *)
Theorem C31_release_partial : forall (V : Type) e ord de_b v (s : plus V),
  build_std e -> is_order ord -> overflow_checks e = false -> de_plus e de_b v = Some s ->
  4 <= hp_precision s <= 18 -> hp_counts0 s = 2 ^ hp_precision s -> hp_registers s = None ->
  (hp_count e ord s = Panic /\ ends_open (d_buf (hp_sparse s))) \/
  ((exists s' c, hp_count e ord s = Ret (s', c)) /\ ~ ends_open (d_buf (hp_sparse s))).
Proof. exact de_release. Qed.
Print Assumptions C31_release_partial.

(** A buffer no sketch writes (300 twice, once in an overlong form), which stays sparse, panics
    because there is only one sparse register, or is converted. *)
Example C31_bytes_example :
  let buf := [172; 2; 128; 128; 0] in
  let ok v := match de_plus test_env de_mix v with
              | Some s => is_ok (hp_count test_env keep s) | None => false end in
  let K := [7; 300; 300] in
  concat [[172; 2]; [128; 128; 0]] = buf /\ sums 0 (map read32 [[172; 2]; [128; 128; 0]]) = [300; 300] /\
  flushes_to [7; 300] [300; 300] K /\ gap_len 0 K = 4 /\ Forall (tidy 4) K /\
  ok (sparse_value (2 ^ 24) 12 [7; 300] buf) = true /\
  plus_panics test_env (sparse_value 1 12 [7; 300] buf) = true /\
  ok (sparse_value (2 ^ 24) 3 [7; 300] buf) = true /\
  plus_panics small_env (sparse_value 1 12 [7; 300] (buf ++ [128])) = true.
Proof.
  cbv zeta. repeat split; try (lazy; reflexivity).
  - simpl. intros y [<-|[<-|[]]]; lia.
  - simpl. intros y [<-|[]]; lia.
  - simpl. intros y [].
  - simpl. apply perm_trans with [300; 7; 300]; [constructor|]. do 2 constructor.
  - repeat constructor; unfold tidy; intros _; reflexivity.
Qed.
