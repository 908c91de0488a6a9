(** * What a program may cost

    A step is one call, one iteration of a loop, one element collected, allocated, written or
    read, or one comparison of a sort (ModelCost.v).  These bounds do not mention the states
    that a program goes through, only its calls. *)
From Coq Require Import NArith List.
From Verif Require Import ModelHistory Spec.
Import ListNotations.
Local Open Scope N_scope.

(** HyperLogLogPlus: a constant for each insertion; a multiple of the number of registers for
    each of the other calls. *)
Fixpoint budget {V : Type} (h : hist V) : N :=
  match h with
  | HNew p _ => 10 * 2 ^ p
  | HInsert _ _ h _ => budget h + 726
  | HMerge _ h1 h2 => budget h1 + budget h2 + 26 * 2 ^ hist_precision h1
  | HCount _ h => budget h + 6 * 2 ^ hist_precision h
  | HSerde _ _ _ h => budget h + 2 * 2 ^ hist_precision h
  end.

(** HyperLogLogPF, exactly: six registers in a word; a merge of sketches of different
    precisions returns at once. *)
Fixpoint pf_steps {V : Type} (h : hist V) : N :=
  match h with
  | HNew p _ => 1 + (2 ^ p + 5) / 6
  | HInsert _ _ h _ => pf_steps h + 1
  | HMerge _ h1 h2 => pf_steps h1 + pf_steps h2 + 1 + if hist_precision h1 =? hist_precision h2 then 2 ^ hist_precision h1 else 0
  | HCount _ h => pf_steps h + 1 + 2 ^ hist_precision h
  | HSerde _ _ _ h => pf_steps h + 1 + 2 * ((2 ^ hist_precision h + 5) / 6)
  end.

(** Values inserted one after the other; a sketch counted again and again. *)
Definition insertions {V : Type} (k : entry) (ord : list N -> list N) (h : hist V) (l : list V) : hist V :=
  fold_left (fun h v => HInsert k ord h v) l h.
Definition counted {V : Type} (ord : list N -> list N) (h : hist V) (m : nat) : hist V :=
  Nat.iter m (HCount ord) h.
