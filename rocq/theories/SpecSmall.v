(** * Specification vocabulary for counts of a few values *)
From Coq Require Import NArith ZArith Reals List.
From Flocq Require Import Core BinarySingleNaN.
From Verif Require Import ModelRust ModelF64 ModelEnv ModelHistory Spec SpecDist.
Import ListNotations.
Local Open Scope N_scope.

(** Some hash of [H] falls into bucket [b]. *)
Definition hit (W p : N) (H : list N) (b : N) : Prop := exists h, In h H /\ bucket W p h = b.

(** The largest [d] with [m * ln (m / (m - d)) < d + 1], for the precisions from 4 to 18. *)
Definition exact_limit (p : N) : N :=
  nth (N.to_nat (p - 4)) [5; 7; 10; 15; 21; 31; 44; 63; 89; 127; 180; 255; 361; 511; 723] 0.

(** Every HyperLogLogPF of precision [p] whose absorbed hashes, taken modulo 2^32, are those of
    [hs] counts [k] when the fraction is dropped. *)
Definition pf_counts_int (e : env) (p : N) (k : Z) (hs : list N) : Prop :=
  forall (V : Type) (h : hist V), valid MAX_PF h -> narrow (usize_bits e) h ->
  hist_precision h = p -> same_set (map (fun x => x mod 2 ^ 32) (hist_hashes h)) hs ->
  exists c, count_pf e h = Ret c /\ is_finite c = true /\ Ztrunc (B2R c) = k.

(** The example of the documentation (README.md:41-48, hyperloglogplus.rs:35-41, hyperloglog.rs:29-35):
    precision 16, two values inserted with [insert]; [trunc() as u32] is 2. *)
Definition doc_program {V : Type} (ord : list N -> list N) (b : V -> N) (x y : V) : hist V :=
  HInsert Insert ord (HInsert Insert ord (HNew 16 b) x) y.

Definition doc_plus {V : Type} (e : env) (ord : list N -> list N) (b : V -> N) (x y : V) : Prop :=
  exists c, count_plus e ord (doc_program ord b x y) = Ret c /\ is_finite c = true /\ Ztrunc (B2R c) = 2%Z.

Definition doc_pf {V : Type} (e : env) (b : V -> N) (x y : V) : Prop :=
  exists c, count_pf e (doc_program (fun l => l) b x y) = Ret c /\ is_finite c = true /\ Ztrunc (B2R c) = 2%Z.
