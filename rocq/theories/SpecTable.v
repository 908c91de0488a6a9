(** * Specification vocabulary for the bias tables *)
From Coq Require Import NArith ZArith Reals.
Local Open Scope R_scope.

(** How far an entry of the tables may be from the raw estimate it stands for, relatively. *)
Definition tolerance (p : N) : R :=
  match p with
  | 4%N => 0.08
  | 5%N => 0.048
  | 6%N => 0.028
  | 7%N => 0.018
  | 8%N => 0.008
  | 9%N => 0.005
  | _ => 0.003
  end.
