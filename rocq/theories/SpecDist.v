(** * Specification vocabulary for counting over all hash assignments

    The analysis of HyperLogLog takes the hashes of [n] distinct values to be independent and
    uniform: each of the [(2^W)^n] lists of [n] hashes equally likely.  Probabilities and
    expectations are then numbers of lists, and sums over all lists, divided by [(2^W)^n]. *)
From Coq Require Import NArith List.
From Verif Require Import Spec.
Import ListNotations.
Local Open Scope N_scope.

(** A list of [n] hashes of [W] bits. *)
Definition hash_list (W : N) (n : nat) (hs : list N) : Prop :=
  length hs = n /\ Forall (fun h => h < 2 ^ W) hs.

(** [l] lists the elements with [P], each once. *)
Definition enumerates {A : Type} (P : A -> Prop) (l : list A) : Prop :=
  NoDup l /\ forall x, In x l <-> P x.

(** Exactly [n] elements have [P]. *)
Definition size_of {A : Type} (P : A -> Prop) (n : N) : Prop :=
  exists l, enumerates P l /\ N.of_nat (length l) = n.

Definition sum (l : list N) : N := fold_right N.add 0 l.

(** [file] gives the registers of every list of [n] hashes. *)
Definition register_files (W p : N) (n : nat) (file : list N -> list N) : Prop :=
  forall hs, hash_list W n hs -> is_register_file W p hs (file hs).
