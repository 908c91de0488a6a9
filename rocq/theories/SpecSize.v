(** * Specification of C85: how long and how deeply nested the texts of sketches are *)
From Coq Require Import NArith List.
From Verif Require Import ModelJson.
Import ListNotations.

Definition bytes_of (s : list N) : N := N.of_nat (length s).

(** How many arrays and objects are open at once. *)
Fixpoint depth (v : json) : nat :=
  match v with
  | JArr l => S (list_max (map depth l))
  | JObj l => S (list_max (map (fun f => depth (snd f)) l))
  | _ => O
  end.
