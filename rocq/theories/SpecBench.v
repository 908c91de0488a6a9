(** * Vocabulary of C76 *)
From Coq Require Import NArith ZArith Reals List.
From Flocq Require Import Core BinarySingleNaN.
From Verif Require Import ModelRust ModelF64 ModelRegisters ModelConstants SpecReal.
Import ListNotations.

(** Of the 65536 registers the last is 1, all others are 0. *)
Definition one_register (sz : N) (r : registers) : Prop :=
  forall i, (i < 2 ^ 16)%N -> reg_get sz r i = Ret (if (i =? 65535)%N then 1%N else 0%N).

Local Open Scope R_scope.

(** [c] is [m ln (m / z)], up to a relative error of 2^-28. *)
Definition near_linear (m z : N) (c : f64) : Prop := is_finite c = true /\ Rabs (B2R c - linear_R m z) <= / IZR (2 ^ 28) * linear_R m z.

(** [f] is the bias for the raw estimate [raw] at precision 18, interpolated in the tables. *)
Definition bias_at_18 (raw : R) (f : f64) : Prop := is_finite f = true /\
  exists y, interpolated (map B2R (nth 14 RAW_ESTIMATE_DATA [])) (map B2R (nth 14 BIAS_DATA [])) raw y /\
    Rabs (B2R f - y) <= / IZR (2 ^ 48) * m_R 18.
