(** * What is assumed of the build and platform a program runs on *)
From Coq Require Import NArith ZArith Reals.
From Flocq Require Import Core BinarySingleNaN.
From Verif Require Import ModelRust ModelF64 ModelEnv.
Local Open Scope N_scope.

(** What the crate needs of [slice::binary_search_by]: it compares elements of the slice only,
    and the answer is an equal element, or a position whose left neighbour is smaller and
    whose right neighbour is greater.  Std documents this for sorted slices; both algorithms
    std has shipped meet it for every slice ([BsFacts]). *)
Definition bsearch_spec (bs : N -> (N -> M comparison) -> M bsres) : Prop :=
  forall n f, (forall i, i < n -> exists c, f i = Ret c) ->
  exists r, bs n f = Ret r /\
    match r with
    | BsOk i => i < n /\ f i = Ret Eq
    | BsErr i => i <= n /\ (0 < i -> f (i - 1) = Ret Lt) /\ (i < n -> f i = Ret Gt)
    end.

(** A build of the crate: usize of at least 32 bits, a float sum that starts from a zero, a
    conforming binary search; everything else is arbitrary. *)
Definition build (e : env) : Prop :=
  32 <= usize_bits e /\ (sum_init e = pzero \/ sum_init e = nzero) /\
  bsearch_spec (std_bsearch e).

(** HyperLogLogPlus exists only with the [std] feature. *)
Definition build_std (e : env) : Prop := build e /\ feat_std e = true.

(** Builds of one crate version on one platform: they may differ in the width of usize, in
    overflow checks and in the const-loop feature. *)
Definition same_platform (e e' : env) : Prop :=
  feat_std e = feat_std e' /\ sum_init e = sum_init e' /\
  (forall x, std_ln e x = std_ln e' x) /\ std_bsearch e = std_bsearch e'.

(** The platform's [f64::ln] is accurate: finite, and within a relative error of 2^-50, for
    every finite argument from 2^-100 to 2^100 (the crate needs no others). *)
Definition ln_accurate (f : f64 -> f64) : Prop :=
  forall x, is_finite x = true ->
    (/ IZR (2 ^ 100) <= B2R x <= IZR (2 ^ 100))%R ->
    is_finite (f x) = true /\
    (Rabs (B2R (f x) - Rpower.ln (B2R x)) <= / IZR (2 ^ 50) * Rabs (Rpower.ln (B2R x)))%R.

(** The logarithm the build uses is accurate.  Without [std] it is the crate's own, for which
    nothing needs to be assumed. *)
Definition accurate (e : env) : Prop := feat_std e = true -> ln_accurate (std_ln e).

(** The logarithm the build uses gives NaN for negative numbers (the documentation of [f64::ln]
    says so; the crate's own is shown to). *)
Definition ln_rejects (f : f64 -> f64) : Prop :=
  forall x, is_finite x = true -> (B2R x < 0)%R -> is_nan (f x) = true.
Definition rejects (e : env) : Prop := feat_std e = true -> ln_rejects (std_ln e).
