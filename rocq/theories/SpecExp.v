(** * The cardinalities and statistics of exp.py: what they should be *)
From Coq Require Import NArith ZArith Reals List.
From Flocq Require Import Core BinarySingleNaN.
From Verif Require Import ModelF64 SpecRust.
Import ListNotations.

(** The powers of 1.007, each rounded to binary64, as is 1.007. *)
Fixpoint series (k : nat) : R :=
  match k with
  | O => 1
  | S k' => rounded (series k' * rounded 1.007)
  end%R.

(** Strictly increasing. *)
Inductive increasing : list Z -> Prop :=
| Inc_nil : increasing []
| Inc_cons : forall x l, Forall (fun y => x < y)%Z l -> increasing l -> increasing (x :: l).

(** [K] is where the series first reaches [max], or 2^1024. *)
Definition first_reach (max : Z) (K : nat) : Prop :=
  (forall k, (k < K)%nat -> series k < IZR max /\ series k < bpow radix2 1024)%R /\
  (IZR max <= series K \/ bpow radix2 1024 <= series K)%R.

(** [l] are the integer parts of the series up to [K], each once, in increasing order. *)
Definition series_floors (K : nat) (l : list Z) : Prop :=
  increasing l /\ forall z, In z l <-> exists k, (k <= K)%nat /\ z = Zfloor (series k).

(** [x] is the relative error of the estimate [k] of [c] in binary64: three roundings, of which only the last does
    anything when [k] is at most 2^53. *)
Definition relative_error_of (c k : N) (x : f64) : Prop :=
  is_finite x = true /\
  B2R x = rounded (Rabs (rounded (rounded (IZR (Z.of_N k)) - IZR (Z.of_N c))) / IZR (Z.of_N c)).

(** Row [j] of the statistics of some files of estimates: those with a line [j], in order. *)
Definition row {A : Type} (files : list (list A)) (j : nat) : list A :=
  flat_map (fun ests => match nth_error ests j with Some est => [est] | None => [] end) files.
