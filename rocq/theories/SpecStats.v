(** * The mean, the median and the standard deviation of real numbers *)
From Coq Require Import NArith ZArith Reals List Permutation.
From Flocq Require Import Core BinarySingleNaN.
From Verif Require Import ModelF64.
Import ListNotations.
Local Open Scope R_scope.

Definition total (l : list R) : R := fold_right Rplus 0 l.
Definition mean (l : list R) : R := total l / INR (length l).
Definition deviation (l : list R) : R := sqrt (mean (map (fun x => (x - mean l) ^ 2) l)).

(** [a] and [b] are the middle of [l]: the same element if the number of elements is odd, and otherwise the largest of the
    lower half and the smallest of the upper half. *)
Definition middle (l : list R) (a b : R) : Prop :=
  exists low high, Forall (fun x => x <= a) low /\ Forall (fun x => b <= x) high /\ a <= b /\ length low = length high /\
  (a = b /\ Permutation l (low ++ a :: high) \/ Permutation l ((a :: low) ++ b :: high)).

(** Values as those of the relative errors, and many more. *)
Definition sample (xs : list f64) : Prop :=
  xs <> [] /\ INR (length xs) <= 2 ^ 50 /\ Forall (fun x => is_finite x = true /\ 0 <= B2R x <= 2 ^ 400) xs.
