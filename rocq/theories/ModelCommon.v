(** * /repo/src/common.rs: estimators shared by both sketches *)
From Coq Require Import NArith ZArith List Bool.
From Verif Require Import ModelRust ModelF64 ModelEnv ModelLog ModelRegisters.
Import ListNotations.
Local Open Scope N_scope.

(** common.rs:217-227: [ln], the platform's with std, the crate's own without. *)
Definition ln (e : env) (x : f64) : M f64 :=
  if feat_std e then Ret (std_ln e x) else log (overflow_checks e) x.

(** common.rs:207-209: [register_count(precision) = 1 << precision], in usize. *)
Definition register_count (e : env) (precision : N) : M N :=
  ushl (overflow_checks e) (usize_bits e) 1 precision.

(** common.rs:197-204: [alpha]. *)
Definition alpha (count : N) : f64 :=
  if count =? 16 then lit 673 3
  else if count =? 32 then lit 697 3
  else if count =? 64 then lit 709 3
  else fdiv (lit 7213 4) (fadd (of_Z 1) (fdiv (lit 1079 3) (of_N count))).

(** common.rs:192-194: [linear_count]. *)
Definition linear_count (e : env) (count zeros : N) : M f64 :=
  let* l := ln e (fdiv (of_N count) (of_N zeros)) in
  Ret (fmul (of_N count) l).

(** common.rs:157, 173: [1.0 / (1u64 << val) as f64]. *)
Definition inv_pow (e : env) (val : N) : M f64 :=
  let* d := ushl (overflow_checks e) 64 1 val in
  Ret (fdiv (of_Z 1) (of_N d)).

(** common.rs:118-141: the lookup table [RAW] of the const-loop feature; it is sized for
    [RegistersPlus] with std and for [Registers] without.  It is evaluated at compile time
    and the shift amounts are below 64. *)
Definition raw_lut (e : env) : list f64 :=
  map (fun i => fdiv (of_Z 1) (of_N (N.shiftl 1 i)))
      (range (N.shiftl 1 (if feat_std e then SIZE_PLUS else SIZE_PF))).

(** common.rs:150-164: [estimate_raw], the raw estimate and the number of zero registers. *)
Definition estimate_raw (e : env) (regs : list N) (count : N) : M (f64 * N) :=
  let* (raw, zeros) :=
    for_each regs
      (fun acc value =>
         let* x := inv_pow e value in
         let* z := uadd (overflow_checks e) (usize_bits e) (snd acc)
                        (if value =? 0 then 1 else 0) in
         Ret (fadd (fst acc) x, z))
      (pzero, 0) in
  let* c2 := umul (overflow_checks e) (usize_bits e) count count in
  Ret (fdiv (fmul (alpha count) (of_N c2)) raw, zeros).

(** common.rs:169-188: [estimate_raw_plus], with and without const-loop. *)
Definition estimate_raw_plus (e : env) (regs : list N) (count : N) : M f64 :=
  let lut := raw_lut e in
  let* raw :=
    for_each regs
      (fun acc value =>
         let* x := if feat_const_loop e then index lut value else inv_pow e value in
         Ret (fadd acc x))
      (sum_init e) in
  let* c2 := umul (overflow_checks e) (usize_bits e) count count in
  Ret (fdiv (fmul (alpha count) (of_N c2)) raw).

(** common.rs:235-247: [extract(num, hi, lo) = (num << (W - hi)) >> (W - (hi - lo))] at
    width W = 64 or 32; the amounts are computed in u8. *)
Definition extract (e : env) (w num hi lo : N) : M N :=
  let* a := usub (overflow_checks e) 8 w hi in
  let* x := ushl (overflow_checks e) w num a in
  let* d := usub (overflow_checks e) 8 hi lo in
  let* b := usub (overflow_checks e) 8 w d in
  ushr (overflow_checks e) w x b.

(** lib.rs:62-65: [enum HyperLogLogError]. *)
Inductive error := InvalidPrecision | IncompatiblePrecision.

(** [Result<T, HyperLogLogError>]. *)
Inductive result (A : Type) := ROk (a : A) | RErr (err : error).
Arguments ROk {A} a.
Arguments RErr {A} err.
