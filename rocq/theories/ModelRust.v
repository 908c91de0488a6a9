(** * Rust semantics used by the model: panics, machine arithmetic, slices.

    Nothing in this file is specific to /repo; it fixes how the Rust constructs that
    /repo/src uses are read.  Machine integers are natural numbers [N] kept below
    [2^width] by the operations. *)
From Coq Require Import NArith ZArith List Bool.
Import ListNotations.
Local Open Scope N_scope.

(** Outcome of running Rust code: a value, or a panic.  [OutOfFuel] marks a loop of the
    model that ran out of its explicit fuel; the theorems exclude it, i.e. they prove
    that the loop terminates. *)
Inductive M (A : Type) : Type :=
| Ret (a : A)
| Panic
| OutOfFuel.
Arguments Ret {A} a.
Arguments Panic {A}.
Arguments OutOfFuel {A}.

Definition bind {A B : Type} (m : M A) (k : A -> M B) : M B :=
  match m with
  | Ret a => k a
  | Panic => Panic
  | OutOfFuel => OutOfFuel
  end.

Notation "'let*' x := m 'in' k" := (bind m (fun x => k))
  (at level 200, x pattern, m at level 200, k at level 200, right associativity).

(** A [for x in l { body }] loop whose body may panic: left fold over the items. *)
Fixpoint for_each {A S : Type} (l : list A) (body : S -> A -> M S) (s : S) : M S :=
  match l with
  | [] => Ret s
  | x :: l' => let* s' := body s x in for_each l' body s'
  end.

(** The same with the position of the item, as in [for (i, x) in it.enumerate()]. *)
Fixpoint for_each_enum {A S : Type} (i : N) (l : list A) (body : S -> N -> A -> M S) (s : S)
  : M S :=
  match l with
  | [] => Ret s
  | x :: l' => let* s' := body s i x in for_each_enum (i + 1) l' body s'
  end.

(** ** Machine arithmetic

    [ck] says whether the build has overflow checks (debug profile): an overflow then
    panics; without checks (release profile) it wraps around. *)

(** [a + b] at width [w]. *)
Definition uadd (ck : bool) (w a b : N) : M N :=
  if a + b <? 2 ^ w then Ret (a + b)
  else if ck then Panic else Ret ((a + b) mod 2 ^ w).

(** [a - b] at width [w]. *)
Definition usub (ck : bool) (w a b : N) : M N :=
  if b <=? a then Ret (a - b)
  else if ck then Panic else Ret (a + 2 ^ w - b).

(** [a * b] at width [w]. *)
Definition umul (ck : bool) (w a b : N) : M N :=
  if a * b <? 2 ^ w then Ret (a * b)
  else if ck then Panic else Ret ((a * b) mod 2 ^ w).

(** [a << k] at width [w]: bits shifted out are lost silently; a shift amount of [w] or
    more is an overflow (panic, or the amount is taken modulo [w], a power of two). *)
Definition ushl (ck : bool) (w a k : N) : M N :=
  if k <? w then Ret (N.shiftl a k mod 2 ^ w)
  else if ck then Panic else Ret (N.shiftl a (k mod w) mod 2 ^ w).

(** [a >> k] at width [w]. *)
Definition ushr (ck : bool) (w a k : N) : M N :=
  if k <? w then Ret (N.shiftr a k)
  else if ck then Panic else Ret (N.shiftr a (k mod w)).

(** [x.leading_zeros()] for an unsigned integer of width [w]; [N.size] is the number of
    significant bits, 0 for 0. *)
Definition leading_zeros (w x : N) : N := w - N.size x.

(** [x as uW]: truncation to the low [w] bits. *)
Definition cast (w x : N) : N := x mod 2 ^ w.

(** [!x] at width [w]. *)
Definition unot (w x : N) : N := N.lnot x w.

(** ** Slices and vectors *)

(** [v[i]]: panics when out of bounds. *)
Definition index {A : Type} (v : list A) (i : N) : M A :=
  match nth_error v (N.to_nat i) with
  | Some x => Ret x
  | None => Panic
  end.

(** [v[i] = x], only used after [v[i]] has been read, so [i] is in bounds. *)
Fixpoint update_nat {A : Type} (v : list A) (i : nat) (x : A) : list A :=
  match v, i with
  | [], _ => []
  | _ :: v', O => x :: v'
  | y :: v', S i' => y :: update_nat v' i' x
  end.
Definition update {A : Type} (v : list A) (i : N) (x : A) : list A :=
  update_nat v (N.to_nat i) x.

(** [v.len()]. *)
Definition len {A : Type} (v : list A) : N := N.of_nat (length v).

(** The range [0..n]. *)
Definition range (n : N) : list N := map N.of_nat (seq 0 (N.to_nat n)).

(** ** [HashSet<u32>]

    Contents as a duplicate-free list.  The order of the list is meaningless; whenever
    the code iterates over the set, the order is chosen by a function [ord] given to the
    operation, about which theorems assume only that it permutes its argument. *)
Definition hset := list N.

Definition hset_insert (s : hset) (c : N) : hset :=
  if existsb (N.eqb c) s then s else c :: s.

Definition hset_len (s : hset) : N := len s.

(** [slice::sort] on [u32]: insertion sort stands for std's stable merge sort (any sort
    gives the same result on integers). *)
Fixpoint insert_sorted (x : N) (l : list N) : list N :=
  match l with
  | [] => [x]
  | y :: l' => if x <=? y then x :: l else y :: insert_sorted x l'
  end.
Fixpoint sort (l : list N) : list N :=
  match l with
  | [] => []
  | x :: l' => insert_sorted x (sort l')
  end.
