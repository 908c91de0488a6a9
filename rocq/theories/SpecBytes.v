(** * Spec: reading a byte string as a sequence of numbers

    Numbers are written seven bits to a byte, least significant first; the top bit of a byte
    says that another byte follows.  Nothing here refers to the model. *)
From Coq Require Import NArith List Bool Permutation.
Import ListNotations.
Local Open Scope N_scope.

(** The bytes of one number: continuation bytes, then a last byte. *)
Definition is_number (n : list N) : Prop :=
  exists c t, n = c ++ [t] /\ Forall (fun b => 128 <= b) c /\ t < 128.

(** The string is cut off inside a number. *)
Definition ends_open (v : list N) : Prop := exists w b, v = w ++ [b] /\ 128 <= b.

(** Five continuation bytes in a row: a number of more than five bytes. *)
Definition long_run (v : list N) : Prop :=
  exists u l w, v = u ++ l ++ w /\ List.length l = 5%nat /\ Forall (fun b => 128 <= b) l.

(** The number that the bytes stand for. *)
Fixpoint base128 (n : list N) : N :=
  match n with
  | [] => 0
  | b :: n' => b mod 128 + 128 * base128 n'
  end.

(** What is left of it in 32 bits. *)
Definition read32 (n : list N) : N := base128 n mod 2 ^ 32.

(** Running sums, starting from [b]. *)
Fixpoint sums (b : N) (l : list N) : list N :=
  match l with
  | [] => []
  | x :: l' => b + x :: sums (b + x) l'
  end.

Definition total (l : list N) : N := fold_right N.add 0 l.

(** The elements of [A] that do not occur in [B]. *)
Definition missing (B A : list N) : list N :=
  filter (fun a => if in_dec N.eq_dec a B then false else true) A.

(** Non-decreasing. *)
Fixpoint nondecreasing (L : list N) : Prop :=
  match L with
  | [] => True
  | x :: L' => (forall y, In y L' -> x <= y) /\ nondecreasing L'
  end.

(** What makes reading a string of differences panic; [ck] says whether arithmetic is
    checked. *)
Definition unreadable (ck : bool) (v : list N) : Prop :=
  ends_open v \/ ck = true /\
    (long_run v \/ exists ns, v = concat ns /\ Forall is_number ns /\
                    2 ^ 32 <= total (map read32 ns)).

(** [K] is what a flush of the pending set [T] into a vector holding [L] leaves. *)
Definition flushes_to (T L K : list N) : Prop :=
  nondecreasing K /\ Permutation K (L ++ missing L T).

(** The rank stored in an odd code is one that fits a six-bit register. *)
Definition tidy (p c : N) : Prop := N.odd c = true -> (c / 2) mod 64 + (25 - p) < 64.

(** What an unchecked 32-bit reader makes of the bytes of a number from position [i] on: the
    shift amount is taken modulo 32. *)
Fixpoint unchecked (i : N) (n : list N) : N :=
  match n with
  | [] => 0
  | b :: n' => N.lor ((b mod 128 * 2 ^ (7 * i mod 32)) mod 2 ^ 32) (unchecked (i + 1) n')
  end.

(** Sparse codes of precision [p]: the register, and the rank stored in an odd code (in an even
    one it is computed and fits). *)
Definition reg_of (p c : N) : N :=
  if N.odd c then c / 2 ^ (32 - p) else (c / 2 ^ (26 - p)) mod 2 ^ p.
Definition stored_rank (p c : N) : N := if N.odd c then (c / 2) mod 64 + (25 - p) else 1.

(** Whether register [i] is zero after the codes [before], the latest first.  A register holds six
    bits, so that a rank of 64 clears it; the seventh bit of a rank goes to the next of the five
    registers in a word. *)
Fixpoint zero_after (p i : N) (before : list N) : bool :=
  match before with
  | [] => true
  | c :: b =>
      if reg_of p c =? i then stored_rank p c =? 64
      else if (64 <=? stored_rank p c) && (reg_of p c + 1 =? i) && negb (i mod 5 =? 0) then false
      else zero_after p i b
  end.

(** How many of the codes [K], written after [before], find a zero in their register. *)
Fixpoint found_zero (p : N) (before K : list N) : N :=
  match K with
  | [] => 0
  | c :: K' => (if zero_after p (reg_of p c) before then 1 else 0) + found_zero p (c :: before) K'
  end.
