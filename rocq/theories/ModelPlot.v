(** * /repo/evaluation/exp.py:65-128: what [plot] draws

    The curves, the band, the marks of the y axis and its limits.  Not modelled: matplotlib, the x axis, and the texts.
    numpy and Python as far as they are used here; a [ValueError] is [Panic]. *)
From Coq Require Import NArith ZArith List Bool.
From Flocq Require Import Core BinarySingleNaN.
From Verif Require Import ModelRust ModelF64 ModelFiles ModelExp ModelStats.
Import ListNotations.

(** lines 72-86: the limits of the y axis and the distance of its marks. *)
Definition limits (hll hashes : bool) : f64 * f64 * f64 :=
  if hll then if hashes then (pzero, lit 35 3, lit 25 4) else (lit (-1) 2, lit 135 3, lit 10 3)
  else if hashes then (pzero, lit 5 3, lit 5 4) else (lit (-25) 5, lit 6 3, lit 5 4).

(** Python's [max] of a sequence: the first element that no later one exceeds; a ValueError if it is empty. *)
Definition py_max (l : list f64) : M f64 :=
  match l with
  | [] => Panic
  | x :: l' => Ret (fold_left (fun best y => if flt best y then y else best) l' x)
  end.

(** The C function [ceil], and its result as an integer. *)
Definition ceiling (x : f64) : Z := Btrunc (Bnearbyint mode_UP x).

(** [np.arange(0, stop, step)]: as many elements as [stop / step] rounded up, element [i] is [i * step]; a ValueError when
    the number is not one of 64 bits with a sign.  (Not modelled: that there is not enough memory.) *)
Definition arange (stop step : f64) : M (list f64) :=
  let n := ceiling (fdiv stop step) in
  if (2 ^ 63 <=? n)%Z then Panic else Ret (map (fun i => fmul (of_Z (Z.of_nat i)) step) (seq 0 (Z.to_nat n))).

Record drawing := Drawing { g_x : list Z; g_median : list f64; g_low : list f64; g_high : list f64; g_mean : list f64;
  g_marks : list f64; g_limits : f64 * f64 }.

(** [a - b] and [a + b] of arrays. *)
Definition pointwise (f : f64 -> f64 -> f64) (a b : list f64) : list f64 := map (fun p => f (fst p) (snd p)) (combine a b).

(** lines 88-110. *)
Definition draw (hll hashes : bool) (cards : list Z) (means medians stdevs : list f64) : M drawing :=
  let '(low, high, step) := limits hll hashes in
  let* m := py_max means in
  let* s := py_max stdevs in
  let* marks := arange (fadd m s) step in
  Ret (Drawing cards medians (pointwise fsub means stdevs) (pointwise fadd means stdevs) means marks (low, high)).

(** lines 65-128, on the contents of the files found, in the order in which they are found. *)
Definition plot (hll hashes : bool) (contents : list (list N)) (r : M drawing) : Prop :=
  match calculate_statistics contents with
  | Ret rows => exists means medians stdevs,
      Forall2 (fun row m => np_mean (snd row) m) rows means /\ Forall2 (fun row m => np_median (snd row) m) rows medians /\
      Forall2 (fun row s => np_std (snd row) s) rows stdevs /\ r = draw hll hashes (map fst rows) means medians stdevs
  | _ => r = Panic
  end.
