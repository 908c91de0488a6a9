(** * Specification vocabulary for statements about most hash assignments *)
From Coq Require Import NArith ZArith Reals List.
From Flocq Require Import Core BinarySingleNaN.
From Verif Require Import ModelRust ModelF64 ModelEnv ModelHistory Spec SpecDist.
Import ListNotations.
Local Open Scope R_scope.

(** Sum of [f] over a list. *)
Definition rsum {A : Type} (f : A -> R) (l : list A) : R := fold_right (fun x s => f x + s) 0 l.

(** At most a fraction [delta] of the [(2^W)^n] lists of [n] hashes is bad: every list of
    distinct bad ones is short. *)
Definition rare (W : N) (n : nat) (delta : R) (bad : list N -> Prop) : Prop :=
  forall l, NoDup l -> (forall hs, In hs l -> hash_list W n hs /\ bad hs) ->
  INR (length l) <= delta * IZR (2 ^ (Z.of_N W * Z.of_nat n)).

(** The probability that a register is at most [k] after [n] values, at precision [p]. *)
Definition below (p : N) (n : nat) (k : N) : R := (1 - / IZR (2 ^ Z.of_N (p + k))) ^ n.

(** Every HyperLogLogPlus of precision [p] whose absorbed hashes are those of [hs], however it was
    built, counts between [lo] and [hi]. *)
Definition plus_counts (e : env) (p : N) (lo hi : R) (hs : list N) : Prop :=
  forall (V : Type) ord (h : hist V), valid MAX_PLUS h -> narrow (usize_bits e) h -> is_order ord ->
  hist_precision h = p -> same_set (hist_hashes h) hs ->
  exists c, count_plus e ord h = Ret c /\ is_finite c = true /\ lo <= B2R c <= hi.

(** Every HyperLogLogPF of precision [p] whose absorbed hashes, taken modulo 2^32, are those of
    [hs] counts between [lo] and [hi]. *)
Definition pf_counts (e : env) (p : N) (lo hi : R) (hs : list N) : Prop :=
  forall (V : Type) (h : hist V), valid MAX_PF h -> narrow (usize_bits e) h ->
  hist_precision h = p -> same_set (map (fun x => x mod 2 ^ 32)%N (hist_hashes h)) hs ->
  exists c, count_pf e h = Ret c /\ is_finite c = true /\ lo <= B2R c <= hi.

(** Every HyperLogLogPlus of precision [p] whose absorbed hashes are those of [hs] counts [k] when
    the fraction is dropped. *)
Definition plus_counts_int (e : env) (p : N) (k : Z) (hs : list N) : Prop :=
  forall (V : Type) ord (h : hist V), valid MAX_PLUS h -> narrow (usize_bits e) h -> is_order ord ->
  hist_precision h = p -> same_set (hist_hashes h) hs ->
  exists c, count_plus e ord h = Ret c /\ is_finite c = true /\ Ztrunc (B2R c) = k.
