(** * C70: the machine operations of the model are Rust's

    The other properties are stated about results of the crate; these pin down, over all
    operands, what the model takes [+], [-], [*], [<<], [>>], [!], [as], [leading_zeros],
    indexing, sorting and set insertion to mean, so that an error there is not hidden by the
    operands the crate happens to use. *)
From Coq Require Import NArith ZArith List Bool Lia Permutation.
From Verif Require Import ModelRust ModelF64 ModelLog SpecRust RustFacts.
Import ListNotations.

Theorem C70_add : forall ck w a b, outcome Z.of_N ck 0 w (Z.of_N a + Z.of_N b) (uadd ck w a b).
Proof. exact uadd_outcome. Qed.
Print Assumptions C70_add.

Theorem C70_sub : forall ck w a b, (a < 2 ^ w -> b < 2 ^ w -> outcome Z.of_N ck 0 w (Z.of_N a - Z.of_N b) (usub ck w a b))%N.
Proof. exact usub_outcome. Qed.
Print Assumptions C70_sub.

Theorem C70_mul : forall ck w a b, outcome Z.of_N ck 0 w (Z.of_N a * Z.of_N b) (umul ck w a b).
Proof. exact umul_outcome. Qed.
Print Assumptions C70_mul.

(** The signed arithmetic of log.rs. *)
Theorem C70_i32 : forall ck z, outcome (fun z => z) ck (- 2 ^ 31) 32 z (i32 ck z).
Proof. exact i32_outcome. Qed.
Print Assumptions C70_i32.

Example C70_arithmetic_example :
  uadd true 8 200 55 = Ret 255%N /\ uadd true 8 200 56 = Panic /\ uadd false 8 200 58 = Ret 2%N /\
  usub true 8 3 4 = Panic /\ usub false 8 3 4 = Ret 255%N /\ usub true 8 4 4 = Ret 0%N /\
  umul true 8 16 16 = Panic /\ umul false 8 17 16 = Ret 16%N /\
  i32 true (2 ^ 31) = Panic /\ i32 false (2 ^ 31) = Ret (- 2 ^ 31)%Z /\ i32 true (- 2 ^ 31) = Ret (- 2 ^ 31)%Z /\
  i32 false (- 2 ^ 31 - 1) = Ret (2 ^ 31 - 1)%Z.
Proof. repeat split; vm_compute; reflexivity. Qed.

(** Shifts move bits; those that leave the width are lost. *)
Theorem C70_shl : forall ck w a k, exists r, shifted ck w k r (ushl ck w a k) /\
  forall j, same_bits w (r j) (fun i => (j <=? i)%N && N.testbit a (i - j)).
Proof. exact shl_shifted. Qed.
Print Assumptions C70_shl.

Theorem C70_shr : forall ck w a k, (a < 2 ^ w)%N -> exists r, shifted ck w k r (ushr ck w a k) /\
  forall j, same_bits w (r j) (fun i => N.testbit a (i + j)).
Proof. exact shr_shifted. Qed.
Print Assumptions C70_shr.

Theorem C70_cast : forall w x, same_bits w (cast w x) (N.testbit x).
Proof. exact cast_bits. Qed.
Print Assumptions C70_cast.

Theorem C70_not : forall w x, (x < 2 ^ w)%N -> same_bits w (unot w x) (fun i => negb (N.testbit x i)).
Proof. exact not_bits. Qed.
Print Assumptions C70_not.

Theorem C70_leading_zeros : forall w x, (x < 2 ^ w)%N -> let n := leading_zeros w x in
  (n <= w)%N /\ (forall i, w - n <= i -> N.testbit x i = false)%N /\ (n < w -> N.testbit x (w - n - 1) = true)%N /\
  (n = w <-> x = 0%N).
Proof. exact leading. Qed.
Print Assumptions C70_leading_zeros.

Example C70_bits_example :
  ushl true 8 255 4 = Ret 240%N /\ ushl true 8 255 8 = Panic /\ ushl false 8 255 9 = Ret 254%N /\
  ushr true 8 255 4 = Ret 15%N /\ ushr true 8 255 8 = Panic /\ ushr false 8 255 9 = Ret 127%N /\
  cast 8 511 = 255%N /\ unot 8 15 = 240%N /\ leading_zeros 8 15 = 4%N /\ leading_zeros 8 0 = 8%N.
Proof. repeat split; vm_compute; reflexivity. Qed.

(** Indexing, assignment, sorting, sets. *)
Theorem C70_index : forall (A : Type) (v : list A) i,
  (forall l x r, v = l ++ x :: r -> N.of_nat (length l) = i -> index v i = Ret x) /\
  (N.of_nat (length v) <= i -> index v i = Panic)%N.
Proof. exact index_spec. Qed.
Print Assumptions C70_index.

Theorem C70_update : forall (A : Type) l (x y : A) r, update (l ++ x :: r) (N.of_nat (length l)) y = l ++ y :: r.
Proof. exact update_spec. Qed.
Print Assumptions C70_update.

Theorem C70_sort : forall l, Permutation (sort l) l /\ ascending (sort l).
Proof. exact sort_spec. Qed.
Print Assumptions C70_sort.

(** So any other sorting algorithm gives the same list. *)
Theorem C70_sort_unique : forall l l', Permutation l l' -> sort l = sort l'.
Proof. exact sort_unique. Qed.
Print Assumptions C70_sort_unique.

Theorem C70_set_insert : forall s c, NoDup s -> NoDup (hset_insert s c) /\
  (forall x, In x (hset_insert s c) <-> x = c \/ In x s) /\
  hset_len (hset_insert s c) = (hset_len s + if in_dec N.eq_dec c s then 0 else 1)%N.
Proof. exact hset_spec. Qed.
Print Assumptions C70_set_insert.

Example C70_lists_example :
  index [5; 7]%N 1 = Ret 7%N /\ index [5; 7]%N 2 = Panic /\ update [5; 7; 9]%N 1 8%N = [5; 8; 9]%N /\
  sort [3; 1; 2; 1]%N = [1; 1; 2; 3]%N /\ hset_insert [1; 2]%N 2 = [1; 2]%N /\ hset_len (hset_insert [1; 2]%N 3) = 3%N.
Proof. repeat split. Qed.

(** ** Floating point *)
From Coq Require Import Reals.
From Flocq Require Import Core BinarySingleNaN.
From Verif Require Import ModelConstants RustFloat LiteralFacts.
Local Open Scope R_scope.

Theorem C70_fadd : forall x y, is_finite x = true -> is_finite y = true ->
  ieee (B2R x + B2R y) (Bsign x && Bsign y) (fadd x y).
Proof. exact add_ieee. Qed.
Print Assumptions C70_fadd.

Theorem C70_fsub : forall x y, is_finite x = true -> is_finite y = true ->
  ieee (B2R x - B2R y) (Bsign x && negb (Bsign y)) (fsub x y).
Proof. exact sub_ieee. Qed.
Print Assumptions C70_fsub.

Theorem C70_fmul : forall x y, is_finite x = true -> is_finite y = true ->
  ieee (B2R x * B2R y) (xorb (Bsign x) (Bsign y)) (fmul x y).
Proof. exact mul_ieee. Qed.
Print Assumptions C70_fmul.

Theorem C70_fdiv : forall x y, is_finite x = true -> is_finite y = true -> B2R y <> 0 ->
  ieee (B2R x / B2R y) (xorb (Bsign x) (Bsign y)) (fdiv x y).
Proof. exact div_ieee. Qed.
Print Assumptions C70_fdiv.

(** [n as f64]. *)
Theorem C70_convert : forall z, ieee (IZR z) false (of_Z z).
Proof. exact of_Z_ieee. Qed.
Print Assumptions C70_convert.

Theorem C70_compare : forall x y, is_finite x = true -> is_finite y = true ->
  fcmp x y = Some (Rcompare (B2R x) (B2R y)) /\
  (fle x y = true <-> B2R x <= B2R y) /\ (flt x y = true <-> B2R x < B2R y).
Proof. exact cmp_reals. Qed.
Print Assumptions C70_compare.

Theorem C70_compare_nan : forall x, fcmp x B754_nan = None /\ fle x B754_nan = false /\ flt x B754_nan = false /\
  fcmp B754_nan x = None /\ fle B754_nan x = false /\ flt B754_nan x = false.
Proof. exact cmp_nan. Qed.
Print Assumptions C70_compare_nan.

(** 0.1 + 0.2 is 0.30000000000000004; 1 - 1 is +0, -0 + -0 is -0; the largest number doubled is
    infinite. *)
Example C70_float_example :
  let bits := to_bits in
  bits (fadd (lit 1 1) (lit 2 1)) = 0x3FD3333333333334%N /\ bits (lit 3 1) = 0x3FD3333333333333%N /\
  bits (fsub (of_Z 1) (of_Z 1)) = 0%N /\ bits (fadd nzero nzero) = (2 ^ 63)%N /\ bits (fadd nzero pzero) = 0%N /\
  bits (fmul (of_Z (-3)) pzero) = (2 ^ 63)%N /\ bits (fdiv (of_Z 1) (of_Z 3)) = 0x3FD5555555555555%N /\
  fmul (from_bits 0x7FEFFFFFFFFFFFFF) (of_Z 2) = B754_infinity false /\
  bits (of_Z (2 ^ 53 + 1)) = bits (of_Z (2 ^ 53)) /\ flt nzero pzero = false /\ fle pzero nzero = true.
Proof. cbv zeta. repeat split; vm_compute; reflexivity. Qed.

(** A decimal literal of at most 53 bits and 22 decimals is the number it spells, rounded once. *)
Theorem C70_literal : forall n k, (Z.abs n <= 2 ^ 53)%Z -> (k <= 22)%N ->
  ieee (IZR n / IZR (10 ^ Z.of_N k)) false (lit n k).
Proof. exact lit_ieee. Qed.
Print Assumptions C70_literal.

(** So is every entry of the two tables of constants.rs. *)
Theorem C70_tables :
  Forall2 (Forall2 (fun nk x => ieee (IZR (fst nk) / IZR (10 ^ Z.of_N (snd nk))) false x)) raw_dec RAW_ESTIMATE_DATA /\
  Forall2 (Forall2 (fun nk x => ieee (IZR (fst nk) / IZR (10 ^ Z.of_N (snd nk))) false x)) bias_dec BIAS_DATA.
Proof. exact table_literals. Qed.
Print Assumptions C70_tables.

(** The constants of log.rs, which the model gives as bit patterns, are the decimals of log.rs:66-74
    rounded. *)
Theorem C70_log_constants :
  Forall (fun '(n, k, x) => is_finite x = true /\ B2R x = rounded (IZR n / IZR (10 ^ Z.of_N k)))
  [(693147180369123816490, 21%N, LN2_HI); (190821492927058770002, 30%N, LN2_LO); (6666666666666735130, 19%N, LG1);
   (3999999999940941908, 19%N, LG2); (2857142874366239149, 19%N, LG3); (2222219843214978396, 19%N, LG4);
   (1818357216161805012, 19%N, LG5); (1531383769920937332, 19%N, LG6); (1479819860511658591, 19%N, LG7)]%Z.
Proof. exact log_literals. Qed.
Print Assumptions C70_log_constants.

(** The 0.7213 of alpha; the first entries of the tables are 11 and 10. *)
Example C70_literal_example :
  to_bits (lit 7213 4) = 0x3FE714E3BCD35A86%N /\
  map to_bits (firstn 1 (hd [] RAW_ESTIMATE_DATA)) = [to_bits (of_Z 11)] /\
  map to_bits (firstn 1 (hd [] BIAS_DATA)) = [to_bits (of_Z 10)].
Proof. repeat split; vm_compute; reflexivity. Qed.
