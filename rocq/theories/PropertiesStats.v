(** * The mean, the median and the standard deviation that exp.py plots *)
From Coq Require Import NArith ZArith Reals List.
From Flocq Require Import Core BinarySingleNaN.
From Verif Require Import ModelRust ModelF64 ModelFiles ModelExp ModelStats SpecRust SpecFiles SpecExp SpecStats StatsFacts MedianFacts.
Import ListNotations.
Local Open Scope R_scope.

(** ** C87: the statistics, whatever the order of the additions *)
(** The mean: a relative error of 2^-52 for every element, and half of the smallest positive float. *)
Theorem C87_mean : forall xs m, sample xs -> np_mean xs m ->
  is_finite m = true /\ 0 <= B2R m /\
  Rabs (B2R m - mean (map B2R xs)) <= INR (length xs) * / 2 ^ 52 * mean (map B2R xs) + bpow radix2 (-1075).
Proof. exact mean_close. Qed.
Print Assumptions C87_mean.

(** The median: between the middle elements, that is to say the middle element if there is only one. *)
Theorem C87_median : forall xs m, sample xs -> np_median xs m ->
  is_finite m = true /\ exists a b, middle (map B2R xs) a b /\ B2R m = rounded (rounded (a + b) / 2) /\ a <= B2R m <= b.
Proof. exact median_middle. Qed.
Print Assumptions C87_median.

Theorem C87_middle : forall l a b a' b', middle l a b -> middle l a' b' -> a = a' /\ b = b'.
Proof. exact middle_unique. Qed.
Print Assumptions C87_middle.

(** The standard deviation: the error of the mean comes in, so that it is relative to the mean as well. *)
Theorem C87_std : forall xs s, sample xs -> np_std xs s ->
  is_finite s = true /\ 0 <= B2R s /\
  Rabs (B2R s - deviation (map B2R xs)) <=
    (INR (length xs) + 4) * / 2 ^ 52 * (deviation (map B2R xs) + 2 * mean (map B2R xs)) + bpow radix2 (-534).
Proof. exact std_close. Qed.
Print Assumptions C87_std.

(** Every row of every set of files of estimates is such a sample, and there are results. *)
Theorem C87_rows : forall files contents rows j r, Forall2 estimate_file files contents ->
  List.Forall (List.Forall (fun est => (1 <= fst est <= 2 ^ 53)%N /\ (snd est < 2 ^ 64)%N)) files -> INR (length files) <= 2 ^ 50 ->
  calculate_statistics contents = Ret rows -> nth_error rows j = Some r -> sample (snd r).
Proof. exact rows_sample. Qed.
Print Assumptions C87_rows.

Theorem C87_exist : forall xs, sample xs -> exists m md s, np_mean xs m /\ np_median xs md /\ np_std xs s.
Proof. exact stats_exist. Qed.
Print Assumptions C87_exist.

(** Computed: eight numbers with the mean 5, the median 4.5 and the standard deviation 2; and three numbers the sum of
    which depends on the order. *)
Example C87_example : sample eight /\ np_mean eight (of_N 5) /\ np_median eight (lit 45 1) /\ np_std eight (of_N 2) /\
  exists x, added [of_Z (2 ^ 53); of_N 1; of_N 1] x /\ exists y, added [of_Z (2 ^ 53); of_N 1; of_N 1] y /\ x <> y.
Proof. exact stats_example. Qed.
