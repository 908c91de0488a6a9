(** * Spec: stored registers and codes

    What a stored sketch holds, whoever wrote it.  Nothing here refers to the model. *)
From Coq Require Import NArith List Bool.
From Verif Require Import Spec SpecBytes.
Import ListNotations.
Local Open Scope N_scope.

(** Words of 32 bits hold [32 / sz] registers of [sz] bits each, the first in the low bits. *)
Definition slots (sz : N) (buf : list N) : N := 32 / sz * N.of_nat (length buf).
Definition reg_at (sz : N) (buf : list N) (i : N) : N :=
  nth (N.to_nat (i / (32 / sz))) buf 0 / 2 ^ (sz * (i mod (32 / sz))) mod 2 ^ sz.

(** How many registers a reader of [count] registers finds. *)
Definition listed (sz count : N) (buf : list N) : N := N.min count (slots sz buf).

(** How many of the first [n] registers are zero in [buf] and not in [other]. *)
Definition newly (sz : N) (buf other : list N) (n : N) : N :=
  N.of_nat (length (filter (fun i => (reg_at sz buf (N.of_nat i) =? 0) && (0 <? reg_at sz other (N.of_nat i)))
                      (seq 0 (N.to_nat n)))).

(** The register that a hash of [w] bits selects: its first [p] bits, or what an unchecked shift
    makes of a precision that is not below [w]. *)
Definition slot_of (w p h : N) : N := h / 2 ^ ((256 - p) mod w).

(** The same for a sparse code. *)
Definition code_slot (p c : N) : N :=
  (if N.odd c then c else c * 64 mod 2 ^ 32) / 2 ^ ((256 - p) mod 32).

(** Whether register [i] is zero after the codes [before], the latest first, [start] saying whether
    it was at the start.  A rank of 0 is not written; for the others see [zero_after]. *)
Fixpoint zero_now (start : N -> bool) (p i : N) (before : list N) : bool :=
  match before with
  | [] => start i
  | c :: b =>
      if stored_rank p c =? 0 then zero_now start p i b
      else if reg_of p c =? i then stored_rank p c =? 64
      else if (64 <=? stored_rank p c) && (reg_of p c + 1 =? i) && negb (i mod 5 =? 0) then false
      else zero_now start p i b
  end.

(** How many of the codes [K], written after [before], raise a register from zero. *)
Fixpoint zeros_taken (start : N -> bool) (p : N) (before K : list N) : N :=
  match K with
  | [] => 0
  | c :: K' =>
      (if negb (stored_rank p c =? 0) && zero_now start p (reg_of p c) before then 1 else 0)
      + zeros_taken start p (c :: before) K'
  end.

Definition all_zero (i : N) : bool := true.
Definition zero_in (buf : list N) (i : N) : bool := reg_at 6 buf i =? 0.

(** The bytes [v] can be read and hold the codes [L]. *)
Definition reads_as (v L : list N) : Prop :=
  exists ns, v = concat ns /\ Forall is_number ns /\ Forall (fun n => (length n <= 5)%nat) ns /\
    total (map read32 ns) < 2 ^ 32 /\ L = sums 0 (map read32 ns).

(** Codes that cannot be written, with checked arithmetic, into registers in [n] slots that are
    zero where [start] says so and have a zero counter of [z]. *)
Definition codes_fail (start : N -> bool) (p n z : N) (K : list N) : Prop :=
  K <> [] /\ (p = 0 \/ 25 < p) \/
  1 <= p <= 25 /\ ((exists c, In c K /\ n <= reg_of p c) \/ z < zeros_taken start p [] K).

(** The slots that are set up for [m] registers of six bits. *)
Definition slots_for (m : N) : N := 5 * ((m + 4) / 5).

(** Codes that cannot be converted into [m] registers; [w] is the width of a length. *)
Definition conversion_fails (w p m : N) (K : list N) : Prop :=
  2 ^ w <= m + 5 \/ codes_fail all_zero p (slots_for m) m K.

(** A pending set [T] that cannot be flushed into the bytes [v]; beyond [limit] bytes the result is
    converted. *)
Definition flush_fails (w p m limit : N) (T v : list N) : Prop :=
  unreadable true v \/
  exists L K, reads_as v L /\ flushes_to T L K /\ limit < gap_len 0 K /\ conversion_fails w p m K.

(** Two sets of codes with the same elements, one more code, and all codes of two sketches. *)
Definition with_code (T : list N) (c : N) : list N := if in_dec N.eq_dec c T then T else c :: T.
Definition union_of (A B C T : list N) : Prop :=
  NoDup T /\ forall c, In c T <-> In c A \/ In c B \/ In c C.

(** How many of the first [n] registers [start] says are zero that are not in [other]. *)
Definition fills (start : N -> bool) (other : list N) (n : N) : N :=
  N.of_nat (length (filter (fun i => start (N.of_nat i) && (0 <? reg_at 6 other (N.of_nat i))) (seq 0 (N.to_nat n)))).

(** Without checks only the bounds of the registers matter. *)
Definition codes_out (p n : N) (K : list N) : Prop := exists c, In c K /\ n <= code_slot p c.
