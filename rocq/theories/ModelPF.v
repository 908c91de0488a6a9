(** * /repo/src/hyperloglog.rs: HyperLogLogPF *)
From Coq Require Import NArith ZArith List Bool.
From Verif Require Import ModelRust ModelF64 ModelEnv ModelRegisters ModelCommon.
Import ListNotations.
Local Open Scope N_scope.

(** hyperloglog.rs:45-55: [struct HyperLogLogPF].  The builder is the hash function it
    induces: [builder v] is what [finish()] returns after hashing [v] (taken modulo 2^64 where
    it is used, since [finish] returns u64).  [phantom] carries no data. *)
Record pf (V : Type) := PF {
  pf_builder : V -> N;
  pf_count : N;
  pf_precision : N;
  pf_registers : registers
}.
Arguments PF {V}.
Arguments pf_builder {V}.
Arguments pf_count {V}.
Arguments pf_precision {V}.
Arguments pf_registers {V}.

(** hyperloglog.rs:63, 65. *)
Definition PF_MIN_PRECISION : N := 4.
Definition PF_MAX_PRECISION : N := 16.

(** hyperloglog.rs:68-84: [new]. *)
Definition pf_new {V : Type} (e : env) (precision : N) (builder : V -> N)
  : M (result (pf V)) :=
  if (precision <? PF_MIN_PRECISION) || (PF_MAX_PRECISION <? precision)
  then Ret (RErr InvalidPrecision)
  else
    let* count := register_count e precision in
    let* regs := with_count e SIZE_PF count in
    Ret (ROk {| pf_builder := builder; pf_count := count; pf_precision := precision;
                pf_registers := regs |}).

Definition pf_set_registers {V : Type} (s : pf V) (r : registers) : pf V :=
  {| pf_builder := pf_builder s; pf_count := pf_count s; pf_precision := pf_precision s;
     pf_registers := r |}.

(** hyperloglog.rs:89-106: [merge]; the other sketch may have another item type. *)
Definition pf_merge {V W : Type} (e : env) (self : pf V) (other : pf W)
  : M (pf V * result unit) :=
  if negb (pf_precision self =? pf_precision other)
  then Ret (self, RErr IncompatiblePrecision)
  else
    let* r := for_each_enum 0 (reg_iter SIZE_PF (pf_registers other))
                (fun r i val => set_greater e SIZE_PF r i val)
                (pf_registers self) in
    Ret (pf_set_registers self r, ROk tt).

(** hyperloglog.rs:117-139: [insert_impl], after line 126: [hash] is the u32. *)
Definition pf_insert_hash {V : Type} (e : env) (s : pf V) (hash : N) : M (pf V) :=
  let ck := overflow_checks e in
  let p := pf_precision s in
  (* line 129 *)
  let* sh := usub ck 8 32 p in
  let* i := ushr ck 32 hash sh in
  let i := cast (usize_bits e) i in
  (* line 132 *)
  let* h1 := ushl ck 32 hash p in
  let* pm1 := usub ck 8 p 1 in
  let* one := ushl ck 32 1 pm1 in
  let hash' := N.lor h1 one in
  (* line 135 *)
  let* zeros := uadd ck 32 1 (leading_zeros 32 hash') in
  (* line 138 *)
  let* r := set_greater e SIZE_PF (pf_registers s) i zeros in
  Ret (pf_set_registers s r).

(** hyperloglog.rs:117-126: hash the value, drop the higher 32 bits. *)
Definition pf_insert_impl {V : Type} (e : env) (s : pf V) (v : V) : M (pf V) :=
  pf_insert_hash e s (cast 32 (cast 64 (pf_builder s v))).

(** hyperloglog.rs:109-114, 165-176: [insert_any], [add], [insert]. *)
Definition pf_insert_any {V : Type} (e : env) (s : pf V) (v : V) : M (pf V) := pf_insert_impl e s v.
Definition pf_add {V : Type} (e : env) (s : pf V) (v : V) : M (pf V) := pf_insert_impl e s v.
Definition pf_insert {V : Type} (e : env) (s : pf V) (v : V) : M (pf V) := pf_insert_impl e s v.

(** hyperloglog.rs:179-197: [count].  [&mut self] is not modified. *)
Definition pf_count_est {V : Type} (e : env) (s : pf V) : M f64 :=
  let* raw := estimate_raw_plus e (reg_iter SIZE_PF (pf_registers s)) (pf_count s) in
  let zeros := reg_zeros (pf_registers s) in
  let two32 := of_N (N.shiftl 1 32) in
  if fle raw (fmul (lit 25 1) (of_N (pf_count s))) && negb (zeros =? 0) then
    linear_count e (pf_count s) zeros
  else if flt (fdiv two32 (of_Z 30)) raw then
    let* l := ln e (fsub (of_Z 1) (fdiv raw two32)) in
    Ret (fmul (fmul (of_Z (-1)) two32) l)
  else Ret raw.
