(** * Averages of the count over all hash assignments *)
From Coq Require Import NArith Reals List.
From Flocq Require Import Core BinarySingleNaN.
From Verif Require Import ModelRust ModelEnv ModelPlus ModelHistory Spec SpecDist SpecProb SpecBuild.
Local Open Scope R_scope.

(** For every list of [n] hashes some program builds a HyperLogLogPlus of precision [p] that has
    absorbed them, in whatever way, and counts [C]. *)
Definition plus_program (e : env) (p : N) (n : nat) (C : list N -> R) : Prop :=
  forall hs, hash_list 64 n hs ->
  exists (V : Type) ord (h : hist V) c, valid MAX_PLUS h /\ narrow (usize_bits e) h /\ is_order ord /\
  hist_precision h = p /\ same_set (hist_hashes h) hs /\ count_plus e ord h = Ret c /\ C hs = B2R c.

(** The same of a HyperLogLogPF, which hashes to 32 bits. [B2R] takes a count that is not a number
    as 0. *)
Definition pf_program (e : env) (p : N) (n : nat) (C : list N -> R) : Prop :=
  forall hs, hash_list 32 n hs ->
  exists (V : Type) (h : hist V) c, valid MAX_PF h /\ narrow (usize_bits e) h /\ hist_precision h = p /\
  same_set (map (fun x => x mod 2 ^ 32)%N (hist_hashes h)) hs /\ count_pf e h = Ret c /\ C hs = B2R c.
