(** * The build and platform a program runs on.

    Everything the behaviour of the crate may depend on besides its own source. *)
From Coq Require Import NArith ZArith List Bool.
From Verif Require Import ModelRust ModelF64.
Import ListNotations.
Local Open Scope N_scope.

(** Result of [slice::binary_search_by]: [BsOk i] for [Ok(i)], [BsErr i] for [Err(i)]. *)
Inductive bsres := BsOk (i : N) | BsErr (i : N).

Record env := Env {
  (** Width of usize in bits. *)
  usize_bits : N;
  (** Overflow checks on (debug) or off (release). *)
  overflow_checks : bool;
  (** Cargo feature [std] (/repo/Cargo.toml:17-19). *)
  feat_std : bool;
  (** Cargo feature [const-loop] (/repo/Cargo.toml:22-26). *)
  feat_const_loop : bool;
  (** Start value of [Iterator::sum::<f64>]: +0.0 before Rust 1.83, -0.0 since. *)
  sum_init : f64;
  (** [f64::ln] of the standard library (the platform's libm). *)
  std_ln : f64 -> f64;
  (** [<[T]>::binary_search_by]: given the length and the comparator applied to the
      element at an index. *)
  std_bsearch : N -> (N -> M comparison) -> M bsres
}.

(** ** The two algorithms std has shipped for [binary_search_by]

    Not part of /repo: transcribed from core::slice. *)

(** Rust 1.52 to 1.81: [left]/[right] with early exit on [Equal]. *)
Fixpoint bsearch_early_loop (fuel : nat) (f : N -> M comparison) (left right : N) : M bsres :=
  match fuel with
  | O => OutOfFuel
  | S fuel' =>
      if left <? right then
        let mid := left + (right - left) / 2 in
        let* c := f mid in
        match c with
        | Lt => bsearch_early_loop fuel' f (mid + 1) right
        | Gt => bsearch_early_loop fuel' f left mid
        | Eq => Ret (BsOk mid)
        end
      else Ret (BsErr left)
  end.
Definition bsearch_early (n : N) (f : N -> M comparison) : M bsres :=
  bsearch_early_loop (S (N.to_nat n)) f 0 n.

(** Rust up to 1.51, and since 1.82: branch-free halving, one final comparison. *)
Fixpoint bsearch_halving_loop (fuel : nat) (f : N -> M comparison) (base size : N) : M N :=
  match fuel with
  | O => OutOfFuel
  | S fuel' =>
      if 1 <? size then
        let half := size / 2 in
        let mid := base + half in
        let* c := f mid in
        let base' := match c with Gt => base | _ => mid end in
        bsearch_halving_loop fuel' f base' (size - half)
      else Ret base
  end.
Definition bsearch_halving (n : N) (f : N -> M comparison) : M bsres :=
  if n =? 0 then Ret (BsErr 0)
  else
    let* base := bsearch_halving_loop (S (N.to_nat n)) f 0 n in
    let* c := f base in
    Ret match c with
        | Eq => BsOk base
        | Lt => BsErr (base + 1)
        | Gt => BsErr base
        end.
