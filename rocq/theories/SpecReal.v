(** * Specification vocabulary over the real numbers *)
From Coq Require Import NArith ZArith Reals List.
Import ListNotations.
Local Open Scope R_scope.

(** The number of registers at precision [p]. *)
Definition m_R (p : N) : R := IZR (2 ^ Z.of_N p).

(** Sum of [2^-v] over the registers. *)
Definition inv_sum (l : list N) : R :=
  fold_right (fun v s => / IZR (2 ^ Z.of_N v) + s) 0 l.

(** The constant of Flajolet et al. *)
Definition alpha_R (p : N) : R :=
  if (p =? 4)%N then 0.673
  else if (p =? 5)%N then 0.697
  else if (p =? 6)%N then 0.709
  else 0.7213 / (1 + 1.079 / m_R p).

(** The raw estimate. *)
Definition raw_R (p : N) (l : list N) : R := alpha_R p * (m_R p * m_R p) / inv_sum l.

(** Linear counting: [m] buckets, [v] of them empty. *)
Definition linear_R (m v : N) : R := IZR (Z.of_N m) * ln (IZR (Z.of_N m) / IZR (Z.of_N v)).

(** [x] approximates [y] with relative error at most [eps]. *)
Definition approx (eps x y : R) : Prop := Rabs (x - y) <= eps * Rabs y.

(** Piecewise linear interpolation.  [(xs, ys)] are the coordinates of the points.  [y] is the
    value at [x]: the first ordinate to the left of the first point, the last one from the last
    point on, and on the segment between two consecutive points otherwise.  When the abscissas
    are not increasing several segments may lie above [x]; the relation then allows each. *)
Definition on_segment (x0 y0 x1 y1 x y : R) : Prop :=
  x0 <> x1 /\ Rmin x0 x1 <= x <= Rmax x0 x1 /\ y = y0 + (x - x0) / (x1 - x0) * (y1 - y0).

Definition interpolated (xs ys : list R) (x y : R) : Prop :=
  (exists x0 y0, nth_error xs 0 = Some x0 /\ nth_error ys 0 = Some y0 /\ x <= x0 /\ y = y0) \/
  (exists xl yl, nth_error xs (length xs - 1) = Some xl /\
     nth_error ys (length ys - 1) = Some yl /\ xl <= x /\ y = yl) \/
  (exists i x0 y0 x1 y1, nth_error xs i = Some x0 /\ nth_error ys i = Some y0 /\
     nth_error xs (S i) = Some x1 /\ nth_error ys (S i) = Some y1 /\
     on_segment x0 y0 x1 y1 x y).

(** The precision's threshold for linear counting, as documented in the source
    (hyperloglogplus.rs:421-440).  The table of Heule, Nunkesser and Hall (2013) has 20 for
    precision 5; see [published_threshold_R]. *)
Definition threshold_R (p : N) : R :=
  IZR (nth (N.to_nat (p - 4))
    [10; 10; 40; 80; 220; 400; 900; 1800; 3100; 6500; 11500; 20000; 50000; 120000; 350000]%Z 0%Z).

(** The thresholds of the HyperLogLog++ paper. *)
Definition published_threshold_R (p : N) : R :=
  IZR (nth (N.to_nat (p - 4))
    [10; 20; 40; 80; 220; 400; 900; 1800; 3100; 6500; 11500; 20000; 50000; 120000; 350000]%Z 0%Z).

(** The raw estimate, corrected by the bias interpolated at it when it is at most five times
    the number of registers; [(xs, ys)] are the bias points. *)
Definition corrected_R (xs ys : list R) (p : N) (l : list N) (c : R) : Prop :=
  exists raw, approx (/ IZR (2 ^ 33)) raw (raw_R p l) /\
    (5 * m_R p < raw /\ c = raw \/
     raw <= 5 * m_R p /\ exists y, interpolated xs ys raw y /\
       Rabs (c - (raw - y)) <= / IZR (2 ^ 28)).

(** The large-range correction for a 32-bit hash. *)
Definition large_R (raw : R) : R := - IZR (2 ^ 32) * ln (1 - raw / IZR (2 ^ 32)).
