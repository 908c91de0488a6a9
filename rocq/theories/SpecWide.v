(** * Targets of any width: where [count] overflows a usize *)
From Coq Require Import NArith ZArith Reals List Bool.
From Verif Require Import ModelHistory Spec SpecReal SpecCount.
Local Open Scope N_scope.

(** [count] of HyperLogLogPlus squares the number of registers, in a usize of [w] bits, only when
    it leaves linear counting: the square 2^(2p) overflows. *)
Definition overflows (w p : N) (H : list N) : Prop := w <= 2 * p /\ past_linear p H.

(** No call of [count] in the history overflows. *)
Fixpoint never_overflows {V : Type} (w : N) (h : hist V) : Prop :=
  match h with
  | HNew _ _ => True
  | HInsert _ _ h _ => never_overflows w h
  | HMerge _ h1 h2 => never_overflows w h1 /\ never_overflows w h2
  | HCount _ h => ~ overflows w (hist_precision h) (hist_hashes h) /\ never_overflows w h
  | HSerde _ _ _ h => never_overflows w h
  end.
