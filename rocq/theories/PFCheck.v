(** * The raw estimate of HyperLogLogPF between m and 4m, by computation *)
From Coq Require Import NArith ZArith Reals List Bool Lia Lra.
From Flocq Require Import Core BinarySingleNaN.
From Verif Require Import HarmonicNum MeanTable BiasCheck.
Import ListNotations.

Local Open Scope Z_scope.
(** ** The mean of the harmonic sum on a cell [g/256 <= n/m <= h/256], and what it makes of the estimate *)
Definition c_i (g : Z) : Z := g * 1024.
Definition c_j (h : Z) : Z := h * 1024 + (h + 1).
(** [2^56 alpha] over the mean; [a] bounds the mean, [alpha] grows with the precision. *)
Definition c_an (p : N) : Z := 7213 * 2 ^ Z.of_N p * 2 ^ 133.
Definition c_ad (p : N) : Z := 10000 * 2 ^ Z.of_N p + 10790.
Definition c_hi (a : Z) : Z := c_an 16 / (c_ad 16 * a) + 1.
Definition c_lo (a : Z) : Z := c_an 10 / (c_ad 10 * a).
(** [a2]: upper bound of the mean of the squares; [a0]: lower bound of the mean. *)
Definition cell_mean (q a0 a2 : Z) : bool :=
  (0 <? a0) && (a2 * 2 ^ 60 * 25600 ^ 2 <=? (25600 ^ 2 + q ^ 2) * a0 ^ 2).
Fixpoint strip (n : nat) (d g : Z) : list (Z * Z) :=
  match n with O => [] | S n => (g, g + d) :: strip n d (g + d) end.

(** ** The check *)
(** Above 2.5m the estimate, at most [hi / (1 - 1.06 t)], is at most [n (1.035 + 1.4 t)]: convexity
    leaves the two ends to be checked.  With [w = hi / (1 - d)], [t = (1 - hi / w) / 1.06]. *)
Definition pf_end (g hi w : Z) : bool :=
  256 * 106 * 200 * w * w <=? g * U * (106 * 207 * w + 200 * 140 * (w - hi)).
Definition pf_hi (g hi : Z) : bool :=
  let w1 := hi * 1000 / 894 + 1 in
  if 2 * w1 <? 5 * U then true else pf_end g hi (Z.max hi (5 * (U / 2))) && pf_end g hi w1.
Definition pf_lo (h lo : Z) : bool := 985 * h * U <=? 1000 * 256 * lo.
(** From 2.75m on the estimate is above 2.5m. *)
Definition pf_over (g lo : Z) : bool := (g <? 704) || (5 * U * 1106 <? 2 * 1000 * lo).
Definition pf_test (g h a0 x0 a1 a2 : Z) : bool :=
  let hi := c_hi a0 in let lo := c_lo a1 in
  (0 <? lo) && (0 <? hi) && (0 <=? x0) && cell_mean 27136 a0 a2 && pf_hi g hi && pf_lo h lo && pf_over g lo.
Definition pf_cell (g h : Z) : bool := pf_test g h (a_lo (c_j h)) (x_lo (c_j h)) (a_up (c_i g)) (a2_up (c_i g)).
Definition pf_cells : list (Z * Z) := strip 224 2 256 ++ strip 160 2 704.
Lemma pf_run : forallb (fun gh => pf_cell (fst gh) (snd gh)) pf_cells = true.
Proof. vm_cast_no_check (eq_refl true). Qed.
