(** * /repo/evaluation/exp.py:159-161: the mean, the median and the standard deviation of the relative errors

    numpy is not in /repo.  Its sums are taken in blocks and by several additions at once, in ways that depend on its
    version and the processor: here a sum may take the elements in any order and with any parentheses, and may start from a
    zero of either sign as often as it likes.  [np.partition], which [np.median] uses, may leave the other elements in any
    order.  All is binary64; the functions are relations, as there may be several results.  Not modelled: what numpy does
    with no elements (the loop of lines 140-161 stops before that), and with NaN (there is none: C74_statistics). *)
From Coq Require Import NArith ZArith List Permutation.
From Flocq Require Import Core BinarySingleNaN.
From Verif Require Import ModelF64.
Import ListNotations.

(** A sum: [umr_sum] of numpy's [_methods.py]. *)
Inductive added : list f64 -> f64 -> Prop :=
| Added_zero : forall sign, added [] (B754_zero sign)
| Added_one : forall x, added [x] x
| Added_two : forall l1 l2 l x y, added l1 x -> added l2 y -> Permutation (l1 ++ l2) l -> added l (fadd x y).

(** line 159: [np.mean], the sum divided by the number of elements, which is converted to a float. *)
Definition np_mean (xs : list f64) (m : f64) : Prop :=
  exists s, added xs s /\ m = fdiv s (of_N (N.of_nat (length xs))).

(** Element [k] of [part] is where sorting would put it. *)
Definition in_place (part : list f64) (k : nat) : Prop :=
  forall i x y, nth_error part i = Some x -> nth_error part k = Some y ->
    ((i < k)%nat -> fle x y = true) /\ ((k < i)%nat -> fle y x = true).

(** line 160: [np.median], the mean of the one or two middle elements after [np.partition]. *)
Definition np_median (xs : list f64) (m : f64) : Prop :=
  exists part, Permutation xs part /\
  let k := Nat.div2 (length xs) in
  if Nat.odd (length xs) then in_place part k /\ np_mean (firstn 1 (skipn k part)) m
  else in_place part (k - 1) /\ in_place part k /\ np_mean (firstn 2 (skipn (k - 1) part)) m.

(** line 161: [np.std]: the differences to the mean, their squares, the mean of those, the square root. *)
Definition np_std (xs : list f64) (s : f64) : Prop :=
  exists m v, np_mean xs m /\ np_mean (map (fun x => fmul (fsub x m) (fsub x m)) xs) v /\ s = Bsqrt mode_NE v.
