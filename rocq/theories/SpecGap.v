(** * Specification of C86: how many values a sparse sketch holds *)
From Coq Require Import NArith List.
From Verif Require Import ModelRust ModelEnv ModelEncoding ModelPlus ModelHistory Spec.
Import ListNotations.
Local Open Scope N_scope.

(** The codes that carry a rank, and those that do not. *)
Definition flagged (L : list N) : N := N.of_nat (length (filter N.odd L)).
Definition plain (L : list N) : N := N.of_nat (length (filter N.even L)).

(** Every HyperLogLogPlus of precision [p] whose absorbed hashes are those of [hs], however it was
    built, is sparse after it was counted. *)
Definition plus_sparse (e : env) (p : N) (hs : list N) : Prop :=
  forall (V : Type) ord (h : hist V), valid MAX_PLUS h -> narrow (usize_bits e) h -> is_order ord ->
  hist_precision h = p -> same_set (hist_hashes h) hs ->
  exists s, run_plus e (HCount ord h) = Ret s /\ is_sparse s = true.

(** The length in bytes of the sparse list. *)
Definition stored {V : Type} (s : plus V) : N := N.of_nat (length (d_buf (hp_sparse s))).
