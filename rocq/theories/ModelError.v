(** * /repo/src/lib.rs: the error type *)
From Coq Require Import String.
From Verif Require Import ModelCommon.

(** lib.rs:67-78: [impl Display for HyperLogLogError]; the text it writes when no width or
    precision is requested. *)
Definition error_display (err : error) : string :=
  match err with
  | InvalidPrecision => "precision is out of bounds"
  | IncompatiblePrecision => "precisions must be equal"
  end.
