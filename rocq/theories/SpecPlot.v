(** * The y axis of the plots, in real numbers *)
From Coq Require Import Reals Bool.
Local Open Scope R_scope.

(** The lowest and the highest value shown, and the distance of the marks. *)
Definition axis_low (hll hashes : bool) : R := if hashes then 0 else if hll then - 0.01 else - 0.00025.
Definition axis_high (hll hashes : bool) : R :=
  match hll, hashes with true, true => 0.035 | true, false => 0.135 | false, true => 0.005 | false, false => 0.006 end.
Definition axis_step (hll hashes : bool) : R := match hll, hashes with true, true => 0.0025 | true, false => 0.01 | false, _ => 0.0005 end.
