(** * Spec: machine arithmetic, after the Rust reference *)
From Coq Require Import NArith ZArith List Bool.
From Verif Require Import ModelRust.
Import ListNotations.

(** What an operation whose mathematical result is [z] does when results lie between [lo] and
    [lo + 2^w - 1]: it gives [z] if it can; otherwise it panics if overflow is checked, and
    gives the one result that differs from [z] by a multiple of [2^w] if not. *)
Definition outcome {A : Type} (val : A -> Z) (ck : bool) (lo : Z) (w : N) (z : Z) (m : M A) : Prop :=
  let fits x := (lo <= x < lo + 2 ^ Z.of_N w)%Z in
  (fits z -> exists c, m = Ret c /\ val c = z) /\
  (~ fits z -> ck = true -> m = Panic) /\
  (~ fits z -> ck = false -> exists c k, m = Ret c /\ fits (val c) /\ (z - val c = k * 2 ^ Z.of_N w)%Z).

(** A shift of [a] by [k]: an amount of [w] or more is an overflow, otherwise [r] is the result;
    without checks only the low bits of the amount count. *)
Definition shifted (ck : bool) (w k : N) (r : N -> N) (m : M N) : Prop :=
  (k < w -> m = Ret (r k))%N /\
  (w <= k -> ck = true -> m = Panic)%N /\
  (w <= k -> ck = false -> m = Ret (r (k mod w)))%N.

Definition same_bits (w : N) (a : N) (bit : N -> bool) : Prop :=
  forall i, N.testbit a i = if (i <? w)%N then bit i else false.

Inductive ascending : list N -> Prop :=
| asc_nil : ascending []
| asc_cons x l : Forall (fun y => (x <= y)%N) l -> ascending l -> ascending (x :: l).

From Coq Require Import Reals.
From Flocq Require Import Core BinarySingleNaN.

(** IEEE 754: [f] is the binary64 result of an operation whose exact result is [z], with sign [s]
    if that is zero: [z] rounded to nearest, ties to even, and an infinity from
    [2^1024 - 2^970] on. *)
Definition rounded (z : R) : R := round radix2 (FLT_exp (-1074) 53) ZnearestE z.
Definition ieee (z : R) (s : bool) (f : binary_float 53 1024) : Prop :=
  ((Rabs (rounded z) < bpow radix2 1024)%R ->
     is_finite f = true /\ B2R f = rounded z /\
     Bsign f = if Req_bool z 0 then s else Rlt_bool z 0) /\
  ((bpow radix2 1024 <= Rabs (rounded z))%R -> f = B754_infinity (Rlt_bool z 0)).
