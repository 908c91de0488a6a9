(** * The arguments of a command *)
From Coq Require Import NArith List.
Import ListNotations.
Local Open Scope N_scope.

(** An argument that is taken for an option: a hyphen, and more. *)
Definition hyphen (s : list N) : Prop := exists c t, s = 45 :: c :: t.
