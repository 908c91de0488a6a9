(** * f64: IEEE-754 binary64 with round-to-nearest-even, as Flocq's computable floats.

    All NaNs are identified (Rust leaves NaN payloads unspecified). *)
From Coq Require Import NArith ZArith Bool.
From Flocq Require Import Core BinarySingleNaN.
Local Open Scope Z_scope.

Definition f64 : Type := binary_float 53 1024.

#[global] Instance prec53 : Prec_gt_0 53 := eq_refl.
#[global] Instance emax1024 : Prec_lt_emax 53 1024 := eq_refl.

(** [+], [-], [*], [/] on f64. *)
Definition fadd : f64 -> f64 -> f64 := Bplus mode_NE.
Definition fsub : f64 -> f64 -> f64 := Bminus mode_NE.
Definition fmul : f64 -> f64 -> f64 := Bmult mode_NE.
Definition fdiv : f64 -> f64 -> f64 := Bdiv mode_NE.

(** [<=], [<] and [partial_cmp] on f64. *)
Definition fle (x y : f64) : bool := Bleb x y.
Definition flt (x y : f64) : bool := Bltb x y.
Definition fcmp (x y : f64) : option comparison := Bcompare x y.

(** Integer to f64, rounded to nearest even: [n as f64]. *)
Definition of_Z (z : Z) : f64 := binary_normalize 53 1024 _ _ mode_NE z 0 false.
Definition of_N (n : N) : f64 := of_Z (Z.of_N n).

(** Decimal literal [n * 10^-k].  rustc rounds decimal literals to nearest even.  Every
    literal used with [lit] has |n| < 2^53 and k <= 22, so both operands of the division
    are exact and the IEEE division is the correctly rounded value of the literal
    ([F64Facts.lit_correct]). *)
Definition lit (n : Z) (k : N) : f64 := fdiv (of_Z n) (of_Z (10 ^ Z.of_N k)).

(** [+0.0] and [-0.0]. *)
Definition pzero : f64 := B754_zero false.
Definition nzero : f64 := B754_zero true.
