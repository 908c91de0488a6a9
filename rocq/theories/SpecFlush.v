(** * Counting the insertions that rewrite the sparse list *)
From Coq Require Import NArith List.
From Verif Require Import ModelRust ModelEnv ModelPlus ModelHistory.
Import ListNotations.
Local Open Scope N_scope.

(** After [h], inserting [vs] one after the other ends without a panic, and all but [n] of the
    insertions leave the list of codes as it was. *)
Inductive rewritten {V : Type} (e : env) (k : entry) (ord : list N -> list N) : hist V -> list V -> N -> Prop :=
| rewritten_nil : forall h s, run_plus e h = Ret s -> rewritten e k ord h [] 0
| rewritten_not : forall h v vs n s s', run_plus e h = Ret s -> run_plus e (HInsert k ord h v) = Ret s' ->
    hp_sparse s' = hp_sparse s -> rewritten e k ord (HInsert k ord h v) vs n ->
    rewritten e k ord h (v :: vs) n
| rewritten_once : forall h v vs n, rewritten e k ord (HInsert k ord h v) vs n ->
    rewritten e k ord h (v :: vs) (n + 1).
