(** * /repo/src/common.rs: packed registers

    The macro [registers_impls!] (common.rs:7-96) is instantiated twice:
    [Registers] with SIZE = 5 (common.rs:102) and [RegistersPlus] with SIZE = 6
    (common.rs:109).  Here SIZE is the argument [sz]. *)
From Coq Require Import NArith ZArith List Bool.
From Verif Require Import ModelRust ModelF64 ModelEnv.
Import ListNotations.
Local Open Scope N_scope.

(** common.rs:11-18: [struct Registers { buf, count, zeros }]. *)
Record registers := Registers {
  r_buf : list N;
  r_count : N;
  r_zeros : N
}.

(** common.rs:102 and 109. *)
Definition SIZE_PF : N := 5.
Definition SIZE_PLUS : N := 6.

(** common.rs:24: [COUNT_PER_WORD = 32 / SIZE]. *)
Definition count_per_word (sz : N) : N := 32 / sz.

(** common.rs:26: [MASK = (1 << SIZE) - 1]. *)
Definition mask (sz : N) : N := N.shiftl 1 sz - 1.

(** common.rs:212-215: [ceil(num, denom) = (num + denom - 1) / denom]. *)
Definition ceil (e : env) (num denom : N) : M N :=
  let* a := uadd (overflow_checks e) (usize_bits e) num denom in
  let* b := usub (overflow_checks e) (usize_bits e) a 1 in
  Ret (b / denom).

(** common.rs:29-35: [with_count]. *)
Definition with_count (e : env) (sz count : N) : M registers :=
  let* n := ceil e count (count_per_word sz) in
  Ret {| r_buf := repeat 0 (N.to_nat n); r_count := count; r_zeros := count |}.

(** common.rs:42-44: the registers of one word, [(val >> i * SIZE) & MASK] for i in
    [0..COUNT_PER_WORD]; the shift amounts are below 32. *)
Definition word_registers (sz val : N) : list N :=
  map (fun i => N.land (N.shiftr val (i * sz)) (mask sz)) (range (count_per_word sz)).

(** common.rs:38-48: [iter]. The lazy iterator is the list of its items. *)
Definition reg_iter (sz : N) (r : registers) : list N :=
  firstn (N.to_nat (r_count r)) (flat_map (word_registers sz) (r_buf r)).

(** common.rs:52-59: [get]. *)
Definition reg_get (sz : N) (r : registers) (i : N) : M N :=
  let qu := i / count_per_word sz in
  let rm := i mod count_per_word sz in
  let* w := index (r_buf r) qu in
  Ret (N.land (N.shiftr w (rm * sz)) (mask sz)).

(** common.rs:63-82: [set_greater].  The shift amounts [rm * SIZE] are below 32. *)
Definition set_greater (e : env) (sz : N) (r : registers) (i value : N) : M registers :=
  let qu := i / count_per_word sz in
  let rm := i mod count_per_word sz in
  let* w := index (r_buf r) qu in
  let cur := N.land (N.shiftr w (rm * sz)) (mask sz) in
  if cur <? value then
    if cur =? 0 then
      let* z := usub (overflow_checks e) (usize_bits e) (r_zeros r) 1 in
      let w' := N.lor w (cast 32 (N.shiftl value (rm * sz))) in
      Ret {| r_buf := update (r_buf r) qu w'; r_count := r_count r; r_zeros := z |}
    else
      let msk := cast 32 (N.shiftl (mask sz) (rm * sz)) in
      let w' := N.lor (N.land w (unot 32 msk)) (cast 32 (N.shiftl value (rm * sz))) in
      Ret {| r_buf := update (r_buf r) qu w'; r_count := r_count r; r_zeros := r_zeros r |}
  else Ret r.

(** common.rs:85-87: [zeros]. *)
Definition reg_zeros (r : registers) : N := r_zeros r.

(** common.rs:91-93: [size_in_bytes(count) = 4 * count / COUNT_PER_WORD]. *)
Definition size_in_bytes (e : env) (sz count : N) : M N :=
  let* a := umul (overflow_checks e) (usize_bits e) 4 count in
  Ret (a / count_per_word sz).
