(** * Specification of C83: counts of two sketches and of their union *)
From Coq Require Import NArith List.
From Verif Require Import Spec.
Local Open Scope N_scope.

(** All hashes of [H] fall into one half of the buckets. *)
Definition one_half (W p : N) (H : list N) : Prop :=
  (forall h, In h H -> bucket W p h < 2 ^ (p - 1)) \/ (forall h, In h H -> 2 ^ (p - 1) <= bucket W p h).

(** [I] lists the common elements of [A] and [B], each once. *)
Definition common (A B I : list N) : Prop := NoDup I /\ forall x, In x I <-> In x A /\ In x B.
