(** * /repo/src/encoding.rs: variable-length and difference encoding *)
From Coq Require Import NArith ZArith List Bool.
From Verif Require Import ModelRust ModelF64 ModelEnv.
Import ListNotations.
Local Open Scope N_scope.

(** encoding.rs:5: [struct VarIntVec(Vec<u8>)]: the bytes. *)
Definition varintvec := list N.

(** encoding.rs:34, 36, 38. *)
Definition SEVEN_LSB_MASK : N := N.shiftl 1 7 - 1.
Definition VAR_INT_MASK : N := unot 32 SEVEN_LSB_MASK.
Definition MSB_MASK : N := N.shiftl 1 7.

(** encoding.rs:50-55: the [while] loop of [push], and line 57. *)
Fixpoint varint_push_loop (fuel : nat) (v : varintvec) (val : N) : M varintvec :=
  match fuel with
  | O => OutOfFuel
  | S fuel' =>
      if negb (N.land val VAR_INT_MASK =? 0) then
        varint_push_loop fuel'
          (v ++ [N.lor (cast 8 (N.land val SEVEN_LSB_MASK)) MSB_MASK])
          (N.shiftr val 7)
      else Ret (v ++ [cast 8 (N.land val SEVEN_LSB_MASK)])
  end.

(** encoding.rs:49-58: [VarIntVec::push].  The fuel exceeds the number of bits of [val]. *)
Definition varint_push (v : varintvec) (val : N) : M varintvec :=
  varint_push_loop (S (N.size_nat val)) v val.

(** encoding.rs:65-76: the loop of [decode].  [index + i] never exceeds the length of the
    vector, hence fits usize. *)
Fixpoint varint_decode_loop (fuel : nat) (e : env) (v : varintvec) (idx i val : N)
  : M (N * N) :=
  match fuel with
  | O => OutOfFuel
  | S fuel' =>
      let* b := index v (idx + i) in
      if negb (N.land b MSB_MASK =? 0) then
        let* x := ushl (overflow_checks e) 32 (N.land b SEVEN_LSB_MASK) (i * 7) in
        varint_decode_loop fuel' e v idx (i + 1) (N.lor val x)
      else
        let* x := ushl (overflow_checks e) 32 b (i * 7) in
        Ret (N.lor val x, idx + i + 1)
  end.

(** encoding.rs:64-77: [VarIntVec::decode]. *)
Definition varint_decode (e : env) (v : varintvec) (idx : N) : M (N * N) :=
  varint_decode_loop (S (length v)) e v idx 0 0.

(** encoding.rs:22-25, 150-160: the iterator over a [VarIntVec]; its state is the index. *)
Definition varint_next (e : env) (v : varintvec) (idx : N) : M (option N * N) :=
  if len v <=? idx then Ret (None, idx)
  else
    let* (val, idx') := varint_decode e v idx in
    Ret (Some val, idx').

(** Driving the iterator to the end, as [into_iter().collect()] does. *)
Fixpoint varint_collect_loop (fuel : nat) (e : env) (v : varintvec) (idx : N) : M (list N) :=
  match fuel with
  | O => OutOfFuel
  | S fuel' =>
      let* (x, idx') := varint_next e v idx in
      match x with
      | None => Ret []
      | Some val =>
          let* l := varint_collect_loop fuel' e v idx' in
          Ret (val :: l)
      end
  end.
Definition varint_collect (e : env) (v : varintvec) : M (list N) :=
  varint_collect_loop (S (length v)) e v 0.

(** encoding.rs:13-20: [struct DifIntVec { count, last, buf }]. *)
Record difintvec := DifIntVec {
  d_count : N;
  d_last : N;
  d_buf : varintvec
}.

(** encoding.rs:81-95: [new] and [with_capacity] (capacity has no observable effect). *)
Definition dif_new : difintvec := {| d_count := 0; d_last := 0; d_buf := [] |}.

(** encoding.rs:98-102: [DifIntVec::push].  [count] is at most the number of bytes in the
    vector, so [count += 1] cannot overflow. *)
Definition dif_push (e : env) (d : difintvec) (val : N) : M difintvec :=
  let* dif := usub (overflow_checks e) 32 val (d_last d) in
  let* b := varint_push (d_buf d) dif in
  Ret {| d_count := d_count d + 1; d_last := val; d_buf := b |}.

(** encoding.rs:105-107: [count]. *)
Definition dif_count (d : difintvec) : N := d_count d.

(** encoding.rs:110-112: [len], the number of bytes. *)
Definition dif_len (d : difintvec) : N := len (d_buf d).

(** encoding.rs:115-119: [clear]. *)
Definition dif_clear (d : difintvec) : difintvec := dif_new.

(** encoding.rs:27-31: the iterator state (index, last); [inner] is the vector. *)
Record difiter := DifIter { di_index : N; di_last : N; di_inner : difintvec }.

(** encoding.rs:138-144: [into_iter]. *)
Definition dif_into_iter (d : difintvec) : difiter :=
  {| di_index := 0; di_last := 0; di_inner := d |}.

(** encoding.rs:166-178: [next]. *)
Definition dif_next (e : env) (it : difiter) : M (option N * difiter) :=
  if len (d_buf (di_inner it)) <=? di_index it then Ret (None, it)
  else
    let* (dif, idx) := varint_decode e (d_buf (di_inner it)) (di_index it) in
    let* last := uadd (overflow_checks e) 32 (di_last it) dif in
    Ret (Some last, {| di_index := idx; di_last := last; di_inner := di_inner it |}).

(** [for x in d.into_iter() { body }]. *)
Fixpoint dif_for_loop {S : Type} (fuel : nat) (e : env) (it : difiter)
    (body : S -> N -> M S) (s : S) : M S :=
  match fuel with
  | O => OutOfFuel
  | Datatypes.S fuel' =>
      let* (x, it') := dif_next e it in
      match x with
      | None => Ret s
      | Some c =>
          let* s' := body s c in
          dif_for_loop fuel' e it' body s'
      end
  end.
Definition dif_for {S : Type} (e : env) (d : difintvec) (body : S -> N -> M S) (s : S) : M S :=
  dif_for_loop (Datatypes.S (length (d_buf d))) e (dif_into_iter d) body s.
