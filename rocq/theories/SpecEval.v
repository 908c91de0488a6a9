(** * What the evaluation experiments should save *)
From Coq Require Import NArith ZArith Reals List.
From Flocq Require Import Core BinarySingleNaN.
From Verif Require Import ModelF64.
Import ListNotations.
Local Open Scope N_scope.

(** [k] is [c] without its fraction, in a u64: 0 for NaN and below 0, the largest u64 above the
    range. *)
Definition shown (c : f64) (k : N) : Prop :=
  (is_nan c = true -> k = 0) /\
  (is_finite c = true -> Z.of_N k = Z.max 0 (Z.min (Ztrunc (B2R c)) (2 ^ 64 - 1))) /\
  (c = B754_infinity false -> k = 2 ^ 64 - 1) /\ (c = B754_infinity true -> k = 0).

(** The first [n] numbers of a sequence. *)
Definition first_draws (draws : N -> N) (n : N) : list N := map (fun i => draws (N.of_nat i)) (seq 0 (N.to_nat n)).

(** The largest of a list. *)
Definition largest (l : list N) : N := fold_right N.max 0 l.
