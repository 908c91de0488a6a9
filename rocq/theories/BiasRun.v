(** * The table check at precisions 9 to 18 *)
From Coq Require Import NArith List.
From Verif Require Import BiasCheck.
Import ListNotations.

Lemma tables_run : forallb table_check [9; 10; 11; 12; 13; 14; 15; 16; 17; 18]%N = true.
Proof. vm_cast_no_check (eq_refl true). Qed.
