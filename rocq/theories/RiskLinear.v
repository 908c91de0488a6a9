(** * The mean and the mean square error of linear counting and of sparse sketches *)
From Coq Require Import NArith ZArith Reals List Bool Permutation Lia Lra.
From Flocq Require Import Core BinarySingleNaN.
From Verif Require Import ModelRust ModelF64 ModelEnv ModelConstants ModelHistory Spec SpecReal SpecCount SpecDist
  SpecProb SpecBuild SpecMean BitFacts EncFacts CodeFacts AbsorbFacts PFInv DistFacts ProbFacts MomentFacts HarmonicNum
  RawFacts FloatFacts LinearFacts ClaimFloat ClaimFacts ClaimDist HarmonicMean AccFacts AccSmall PlusInv RiskCore RiskFacts.
Import ListNotations.
Local Notation ln := Rpower.ln.
Local Open Scope R_scope.

Lemma exp_065 : forall y, 0 <= y <= 0.54 -> exp y <= 1 + y + 0.65 * y ^ 2.
Proof.
  intros y Hy. pose proof (exp_neg_lo y (proj1 Hy)) as L. rewrite exp_Ropp in L.
  pose proof (exp_pos y) as P. set (q := 1 - y + y ^ 2 / 2 - y ^ 3 / 6) in *.
  assert (Q : 0 < q) by (unfold q; nra).
  apply Rle_trans with (/ q).
  - rewrite <- (Rinv_inv (exp y)). now apply Rinv_le_contravar.
  - apply Rmult_le_reg_r with q; [exact Q|]. rewrite Rinv_l by lra. unfold q.
    replace ((1 + y + 0.65 * y ^ 2) * (1 - y + y ^ 2 / 2 - y ^ 3 / 6))
      with (1 + y ^ 2 * (0.15 - (0.65 - 0.5 + 1 / 6) * y + (0.325 - 1 / 6) * y ^ 2 - 0.65 / 6 * y ^ 3)) by lra.
    enough (0 <= 0.15 - (0.65 - 0.5 + 1 / 6) * y + (0.325 - 1 / 6) * y ^ 2 - 0.65 / 6 * y ^ 3) by (pose proof (pow2_ge_0 y); nra).
    assert (0 <= y ^ 2 * ((0.325 - 1 / 6) - 0.65 / 6 * 0.54 - (0.65 / 6) * (y - 0.54) - 0.0998)) by (apply Rmult_le_pos; [apply pow2_ge_0|lra]).
    nra.
Qed.

(** The logarithm of [1 - t] to second order. *)
Lemma ln_second : forall t, 0 <= t <= 0.2 -> - ln (1 - t) <= t + 0.65 * t ^ 2.
Proof.
  intros t Ht. set (y := t + 0.65 * t ^ 2). assert (Y : 0 <= y) by (unfold y; nra).
  enough (- y <= ln (1 - t)) by lra. rewrite <- (ln_exp (- y)). apply ln_le; [apply exp_pos|].
  eapply Rle_trans; [now apply exp_neg_up|]. unfold y.
  enough (0 <= t ^ 2 * (1.3 - (1 + 0.65 * t) ^ 2)) by lra.
  apply Rmult_le_pos; [apply pow2_ge_0|]. nra.
Qed.

Lemma ln_second_up : forall s, 0 <= s <= 1 -> s - s ^ 2 <= ln (1 + s).
Proof.
  intros s Hs. rewrite <- (ln_exp (s - s ^ 2)). apply ln_le; [apply exp_pos|].
  eapply Rle_trans; [apply exp_quad; nra|].
  enough (0 <= s ^ 2 * (1 - (1 - s) ^ 2)) by lra. apply Rmult_le_pos; [apply pow2_ge_0|nra].
Qed.

Lemma ln_below : forall x, 0 < x -> ln x <= x - 1.
Proof.
  intros x Hx. pose proof (exp_ineq1_le (ln x)) as E. rewrite exp_ln in E by exact Hx. lra.
Qed.

Lemma m_ge : forall p, (4 <= p)%N -> 16 <= m_R p.
Proof.
  intros p Hp. change 16 with (IZR (2 ^ 4)). unfold m_R. apply IZR_le, Z.pow_le_mono_r; lia.
Qed.

(** The variance of the number of empty registers while at most half of them can be occupied. *)
Lemma zero_variance_half : forall p n, (4 <= p)%N -> INR n <= m_R p / 2 ->
  below p n 0 + (m_R p - 1) * (1 - 2 / m_R p) ^ n - m_R p * (below p n 0 * below p n 0)
  <= 0.78 * (INR n / m_R p) ^ 2 * (below p n 0 * below p n 0).
Proof.
  intros p n Hp Hn. pose proof (m_ge p Hp) as M.
  pose proof (below_pos p n Hp) as B. pose proof (below_exp p n Hp) as [BL _].
  assert (EB : below p n 0 = (1 - / m_R p) ^ n) by (unfold below; rewrite N.add_0_r; reflexivity).
  set (m := m_R p) in *. set (b := below p n 0) in *. set (x := INR n / m) in *.
  assert (Hx : 0 <= x <= 0.5).
  { unfold x. split; [apply Rmult_le_pos; [apply pos_INR|left; apply Rinv_0_lt_compat; lra]|].
    apply div_le; lra. }
  assert (En : INR n = x * m) by (unfold x; field; lra).
  set (i := / (m - 1)). assert (I : 0 < i <= / 15).
  { unfold i. split; [apply Rinv_0_lt_compat; lra|]. apply Rinv_le_contravar; lra. }
  assert (Ei : i * (m - 1) = 1) by (unfold i; apply Rinv_l; lra).
  set (u := INR n * (i * i)).
  assert (C : (1 - 2 / m) ^ n <= b * b * (1 - u + u ^ 2 / 2)).
  { replace (1 - 2 / m) with ((1 - / m) * (1 - / m) * (1 - i * i)).
    2:{ unfold i. field. lra. }
    rewrite !Rpow_mult_distr, <- EB. apply Rmult_le_compat_l; [nra|].
    apply Rle_trans with (exp (- (i * i)) ^ n).
    - apply pow_incr. split; [nra|]. pose proof (exp_ineq1_le (- (i * i))). lra.
    - rewrite exp_pow. replace (INR n * - (i * i)) with (- u) by (unfold u; ring). apply exp_neg_up.
      unfold u. apply Rmult_le_pos; [apply pos_INR|nra]. }
  assert (J : 0 < / m <= / 16) by (split; [apply Rinv_0_lt_compat|apply Rinv_le_contravar]; lra).
  set (y := x * (1 + / m)) in *.
  assert (Hy : 0 <= y <= 0.54) by (unfold y; nra).
  assert (IB : / b <= 1 + y + 0.65 * y ^ 2).
  { eapply Rle_trans; [|now apply exp_065]. rewrite exp_Ropp in BL. pose proof (exp_pos y).
    rewrite <- (Rinv_inv (exp y)). apply Rinv_le_contravar; [now apply Rinv_0_lt_compat|exact BL]. }
  assert (Eb : b = / b * (b * b)) by (field; lra).
  apply Rle_trans with ((/ b - 1 - (m - 1) * u + (m - 1) * (u ^ 2 / 2)) * (b * b)).
  { rewrite Eb at 1. apply (Rmult_le_compat_l (m - 1)) in C; [|lra]. nra. }
  apply Rmult_le_compat_r; [nra|].
  assert (U1 : y <= (m - 1) * u).
  { unfold u, y. rewrite En. replace ((m - 1) * (x * m * (i * i))) with (x * (m * i * (i * (m - 1)))) by ring.
    rewrite Ei, Rmult_1_r. apply Rmult_le_compat_l; [lra|].
    apply Rmult_le_reg_r with (m * (m - 1)); [nra|].
    replace ((1 + / m) * (m * (m - 1))) with ((m + 1) * (m - 1)) by (field; lra).
    replace (m * i * (m * (m - 1))) with (m * m * (i * (m - 1))) by ring. rewrite Ei. nra. }
  assert (U2 : (m - 1) * (u ^ 2 / 2) <= 0.04 * x ^ 2).
  { unfold u. rewrite En. replace ((m - 1) * ((x * m * (i * i)) ^ 2 / 2)) with (x ^ 2 * ((m * i) ^ 2 * i * (i * (m - 1)) / 2)) by field.
    rewrite Ei. assert (MI : 0 <= m * i <= 16 / 15).
    { split; [nra|]. replace (m * i) with (i * (m - 1) + i) by ring. lra. }
    assert (K : 0 <= (m * i) ^ 2 <= 1.1378) by (split; [apply pow2_ge_0|nra]).
    set (k := (m * i) ^ 2) in *. clearbody k. pose proof (pow2_ge_0 x).
    rewrite (Rmult_comm 0.04). apply Rmult_le_compat_l; [lra|]. nra. }
  assert (Y2 : y ^ 2 <= 1.129 * x ^ 2).
  { unfold y. assert (0 <= (1 + / m) ^ 2 <= 1.129) by nra. rewrite Rpow_mult_distr. pose proof (pow2_ge_0 x). nra. }
  pose proof (pow2_ge_0 x). lra.
Qed.

(** ** Linear counting with at most half the registers occupied *)
Section Linear.
Variables (W p : N) (n : nat).
Hypothesis Hp : (4 <= p)%N.
Hypothesis HW : (p < W)%N.
Hypothesis Hn : INR n <= m_R p / 2.
Variable all : list (list N).
Hypothesis HE : enumerates (hash_list W n) all.

Let m := m_R p.
Let mu := m * below p n 0.
Definition empty (hs : list N) : R := IZR (Z.of_N (zero_count (file_of W p hs))).
Definition counted (hs : list N) : R := linear_R (2 ^ p) (zero_count (file_of W p hs)).
Let r hs := empty hs / mu.
Let x := INR n / m.

Lemma x_half : 0 <= x <= / 2.
Proof.
  pose proof (m_ge p Hp). unfold x, m. split.
  - apply Rmult_le_pos; [apply pos_INR|left; apply Rinv_0_lt_compat; lra].
  - apply div_le; lra.
Qed.

Lemma empty_bounds : forall hs, hash_list W n hs -> m - INR n <= empty hs <= m.
Proof.
  intros hs HH. pose proof (file_of_ok W p hs ltac:(lia) (proj2 HH)) as RF. unfold empty.
  pose proof (nonzero_le W p hs hs _ RF (fun x => iff_refl _)) as N1. destruct HH as [Hl _]. rewrite Hl in N1.
  apply N2Z.inj_le, IZR_le in N1. rewrite N2Z.inj_add, plus_IZR, nat_N_Z, <- INR_IZR_INZ, N2Z.inj_pow in N1.
  change (IZR (Z.of_N 2 ^ Z.of_N p)) with m in N1. split; [lra|].
  destruct RF as [LL _]. pose proof (zero_split _ _ LL) as ZS.
  replace m with (IZR (Z.of_N (2 ^ p))) by (rewrite N2Z.inj_pow; reflexivity). apply IZR_le. lia.
Qed.

Lemma mean_bounds : (1 - x) * m <= mu <= exp (- x) * m /\ 0 < mu /\ - (x * (1 + / m)) <= ln (mu / m) <= - x.
Proof.
  pose proof (m_ge p Hp) as M. fold m in M. pose proof (below_exp p n Hp) as [BL BU]. fold m x in BL, BU.
  pose proof (below_pos p n Hp) as B. unfold mu. rewrite (Rmult_comm m).
  replace (below p n 0 * m / m) with (below p n 0) by (field; lra). repeat split.
  - apply Rmult_le_compat_r; [lra|]. unfold below. rewrite N.add_0_r. fold (m_R p). fold m.
    assert (Q : 1 + INR n * - / m <= (1 + - / m) ^ n).
    { destruct (Nat.eq_dec n 0) as [->|Nz]; [cbn; lra|].
      clear - M. induction n as [|k IH]; [cbn; lra|]. rewrite S_INR. cbn [pow].
      assert (0 < / m <= / 16) by (split; [apply Rinv_0_lt_compat|apply Rinv_le_contravar]; lra).
      pose proof (pos_INR k). assert (0 <= INR k * (/ m * / m)) by (apply Rmult_le_pos; nra). nra. }
    unfold x, Rdiv. replace (1 - / m) with (1 + - / m) by lra. lra.
  - apply Rmult_le_compat_r; lra.
  - nra.
  - rewrite <- (ln_exp (- (x * (1 + / m)))). apply ln_le; [apply exp_pos|exact BL].
  - rewrite <- (ln_exp (- x)). apply ln_le; [lra|exact BU].
Qed.

(** The empty registers relative to their mean. *)
Lemma r_bounds : forall hs, hash_list W n hs -> 0.8 <= r hs <= 2.
Proof.
  intros hs HH. pose proof (m_ge p Hp) as M. fold m in M. pose proof x_half as X.
  destruct mean_bounds as ((M1 & M2) & M3 & _). pose proof (empty_bounds hs HH) as [E1 E2].
  assert (En : INR n = x * m) by (unfold x; field; lra).
  pose proof (exp_neg_up x (proj1 X)) as EX. unfold r. split.
  - apply div_ge; [exact M3|]. apply Rle_trans with (0.8 * ((1 - x + x ^ 2 / 2) * m)).
    + apply Rmult_le_compat_l; [lra|]. eapply Rle_trans; [exact M2|]. apply Rmult_le_compat_r; lra.
    + assert (0.8 * (1 - x + x ^ 2 / 2) <= 1 - x) by nra. nra.
  - apply div_le; [exact M3|]. nra.
Qed.

Lemma counted_r : forall hs, hash_list W n hs -> counted hs = m * - ln (mu / m) - m * ln (r hs).
Proof.
  intros hs HH. pose proof (m_ge p Hp) as M. fold m in M. destruct mean_bounds as (_ & M3 & _).
  pose proof (r_bounds hs HH) as R. unfold counted, linear_R. fold (empty hs).
  rewrite N2Z.inj_pow. change (IZR (Z.of_N 2 ^ Z.of_N p)) with m.
  replace (m / empty hs) with (/ (mu / m * r hs)).
  - rewrite ln_Rinv, ln_mult; [lra| | |]; [apply Rdiv_lt_0_compat; lra|lra|].
    apply Rmult_lt_0_compat; [apply Rdiv_lt_0_compat; lra|lra].
  - assert (0 < empty hs).
    { replace (empty hs) with (r hs * mu) by (unfold r; field; lra). apply Rmult_lt_0_compat; lra. }
    unfold r. field. repeat split; lra.
Qed.

Lemma ln_r : forall hs, hash_list W n hs ->
  1 - r hs <= - ln (r hs) <= (1 - r hs) + (1 - r hs) ^ 2 /\ (ln (r hs)) ^ 2 <= 1.28 * (1 - r hs) ^ 2.
Proof.
  intros hs HH. pose proof (r_bounds hs HH) as R. set (y := r hs) in *. clearbody y.
  pose proof (ln_below y ltac:(lra)) as B. destruct (Rle_or_lt y 1) as [S|S].
  - pose proof (ln_second (1 - y) ltac:(lra)) as L. replace (1 - (1 - y)) with y in L by lra.
    pose proof (pow2_ge_0 (1 - y)). split; [lra|].
    assert (- ln y <= 1.13 * (1 - y)) by nra. nra.
  - pose proof (ln_second_up (y - 1) ltac:(lra)) as L. replace (1 + (y - 1)) with y in L by lra.
    pose proof (ln_second_up (y - 1) ltac:(lra)). assert (0 <= ln y) by (rewrite <- ln_1; apply ln_le; lra).
    split; [|nra]. split; [lra|]. replace ((1 - y) ^ 2) with ((y - 1) ^ 2) by ring. lra.
Qed.

Let F : register_files W p n (file_of W p).
Proof. apply file_of_files; lia. Qed.

Lemma r_mean : rsum (fun hs => 1 - r hs) all = 0.
Proof.
  destruct mean_bounds as (_ & M3 & _).
  rewrite (rsum_ext _ (fun hs => 1 + - / mu * total (file_of W p) (ind 0) hs)).
  2:{ intros hs _. unfold r, empty, total. rewrite rsum_zero. unfold Rdiv. ring. }
  rewrite rsum_plus, rsum_const, rsum_scal, (total_mean W p n (file_of W p) all HW F HE), mean_zero.
  fold (m_R p). fold m. fold mu. replace (IZR (2 ^ Z.of_N p) * below p n 0) with mu by reflexivity.
  field. lra.
Qed.

Lemma r_spread : rsum (fun hs => (1 - r hs) ^ 2) all <= 0.78 * x ^ 2 / m * INR (length all).
Proof.
  destruct mean_bounds as (_ & M3 & _). pose proof (m_ge p Hp) as M. fold m in M.
  pose proof (zeros_spread W p n (file_of W p) all HW F HE) as S. fold m in S. fold mu in S.
  rewrite (rsum_ext _ (fun hs => / (mu * mu) * (empty hs - mu) ^ 2)).
  2:{ intros hs _. unfold r. field. lra. }
  rewrite rsum_scal. pose proof (zero_variance_half p n Hp Hn) as V. fold m x in V.
  set (v := below p n 0 + (m - 1) * (1 - 2 / m) ^ n - m * (below p n 0 * below p n 0)) in *.
  apply Rle_trans with (/ (mu * mu) * (m * v * INR (length all))).
  - apply Rmult_le_compat_l; [left; apply Rinv_0_lt_compat; nra|exact S].
  - rewrite <- Rmult_assoc. apply Rmult_le_compat_r; [apply pos_INR|].
    apply Rmult_le_reg_l with (mu * mu); [nra|]. rewrite <- Rmult_assoc, Rinv_r, Rmult_1_l by nra.
    apply Rle_trans with (m * (0.78 * x ^ 2 * (below p n 0 * below p n 0))); [apply Rmult_le_compat_l; lra|].
    apply Req_le. unfold mu. field. lra.
Qed.

Lemma centre : INR n <= m * - ln (mu / m) <= INR n * (1 + / m).
Proof.
  pose proof (m_ge p Hp) as M. fold m in M. destruct mean_bounds as (_ & _ & [L1 L2]).
  assert (En : INR n = m * x) by (unfold x; field; lra). rewrite En, Rmult_assoc. split; apply Rmult_le_compat_l; lra.
Qed.

Theorem linear_mean : INR n * INR (length all) <= rsum counted all <= INR n * (1 + 1.4 / m) * INR (length all).
Proof.
  pose proof (m_ge p Hp) as M. fold m in M. pose proof centre as [C1 C2]. pose proof x_half as X.
  pose proof (pos_INR (length all)) as P. pose proof r_mean as RM. pose proof r_spread as RS.
  assert (L : rsum (fun hs => m * - ln (mu / m) + m * (1 - r hs)) all <= rsum counted all).
  { apply rsum_le. intros hs Hh. apply HE in Hh. rewrite (counted_r hs Hh). destruct (ln_r hs Hh) as [[A _] _].
    apply (Rmult_le_compat_l m) in A; lra. }
  assert (U : rsum counted all <= rsum (fun hs => (m * - ln (mu / m) + m * (1 - r hs)) + m * (1 - r hs) ^ 2) all).
  { apply rsum_le. intros hs Hh. apply HE in Hh. rewrite (counted_r hs Hh). destruct (ln_r hs Hh) as [[_ A] _].
    apply (Rmult_le_compat_l m) in A; lra. }
  rewrite rsum_plus, rsum_scal in U. rewrite rsum_plus, rsum_const, rsum_scal, RM in L, U.
  set (T := INR (length all)) in *. set (c := m * - ln (mu / m)) in *. split.
  - apply (Rmult_le_compat_r T) in C1; lra.
  - apply (Rmult_le_compat_r T) in C2; [|exact P]. apply (Rmult_le_compat_l m) in RS; [|lra].
    replace (m * (0.78 * x ^ 2 / m * T)) with (0.78 * x ^ 2 * T) in RS by (field; lra).
    assert (E : 0.78 * x ^ 2 <= INR n * (0.4 * / m)).
    { replace (INR n * (0.4 * / m)) with (0.4 * x) by (unfold x, Rdiv; ring). nra. }
    apply (Rmult_le_compat_r T) in E; [|exact P]. unfold Rdiv. nra.
Qed.

Theorem linear_square : rsum (fun hs => (counted hs - INR n) ^ 2) all <= INR n ^ 2 * (1.12 / m) * INR (length all).
Proof.
  pose proof (m_ge p Hp) as M. fold m in M. pose proof centre as [C1 C2]. pose proof x_half as X.
  pose proof (pos_INR (length all)) as P. pose proof r_mean as RM. pose proof r_spread as RS.
  set (c := m * - ln (mu / m)) in *. set (b := c - INR n).
  assert (B : 0 <= b <= INR n * / m) by (unfold b; lra).
  apply Rle_trans with (rsum (fun hs => b ^ 2 + 2 * b * m * (1 - r hs) + (2 * b * m + m ^ 2 * 1.28) * (1 - r hs) ^ 2) all).
  - apply rsum_le. intros hs Hh. apply HE in Hh. rewrite (counted_r hs Hh). fold c.
    destruct (ln_r hs Hh) as [[A1 A2] A3]. set (q := 1 - r hs) in *. set (l := ln (r hs)) in *.
    replace (c - m * l - INR n) with (b + m * - l) by (unfold b; ring).
    apply Rle_trans with (b ^ 2 + 2 * b * m * (q + q ^ 2) + m ^ 2 * (1.28 * q ^ 2)); [|apply Req_le; ring].
    replace ((b + m * - l) ^ 2) with (b ^ 2 + 2 * b * m * - l + m ^ 2 * l ^ 2) by ring.
    assert (0 <= 2 * b * m) by (apply Rmult_le_pos; lra). pose proof (pow2_ge_0 m).
    apply Rplus_le_compat; [apply Rplus_le_compat_l|]; apply Rmult_le_compat_l; assumption.
  - rewrite rsum_plus, rsum_plus, rsum_const, !rsum_scal, RM. set (T := INR (length all)) in *.
    assert (0 <= 2 * b * m + m ^ 2 * 1.28) by (pose proof (pow2_ge_0 m); assert (0 <= b * m) by (apply Rmult_le_pos; lra); lra).
    apply (Rmult_le_compat_l (2 * b * m + m ^ 2 * 1.28)) in RS; [|assumption].
    apply Rle_trans with ((b ^ 2 + (2 * b * m + m ^ 2 * 1.28) * (0.78 * x ^ 2 / m)) * T); [lra|].
    apply Rmult_le_compat_r; [exact P|].
    assert (J : 0 < / m <= / 16) by (split; [apply Rinv_0_lt_compat|apply Rinv_le_contravar]; lra).
    assert (En : INR n = m * x) by (unfold x; field; lra). rewrite En in *.
    assert (Bx : 0 <= b <= x) by (replace (m * x * / m) with x in B by (field; lra); lra).
    replace ((m * x) ^ 2 * (1.12 / m)) with (1.12 * m * x ^ 2) by (field; lra).
    replace ((2 * b * m + m ^ 2 * 1.28) * (0.78 * x ^ 2 / m)) with (1.56 * (b * x ^ 2) + 0.9984 * m * x ^ 2).
    2:{ transitivity (1.56 * (b * x ^ 2) * (m * / m) + 0.9984 * m * x ^ 2 * (m * / m)); [rewrite Rinv_r by lra; lra|unfold Rdiv; lra]. }
    assert (b ^ 2 <= x ^ 2) by nra. assert (b * x ^ 2 <= x * x ^ 2) by (apply Rmult_le_compat_r; [apply pow2_ge_0|lra]).
    pose proof (pow2_ge_0 x) as X2. set (s := x ^ 2) in *. clearbody s. nra.
Qed.
End Linear.

(** Rounding to a relative error of 2^-28. *)
Lemma rounded : forall c y N, 0 < N -> 0 <= y <= 2 * N -> approx (/ IZR (2 ^ 28)) c y ->
  y * (1 - / IZR (2 ^ 28)) <= c <= y * (1 + / IZR (2 ^ 28)) /\
  (c / N - 1) ^ 2 <= 1.001 * (y / N - 1) ^ 2 + / 10000000000000.
Proof.
  intros c y N HN Hy A. unfold approx in A. rewrite (Rabs_pos_eq y) in A by lra. apply Rabs_le_inv in A.
  change (IZR (2 ^ 28)) with 268435456 in *. split; [lra|].
  set (a := y / N - 1). set (d := (c - y) / N).
  replace (c / N - 1) with (a + d) by (unfold a, d; field; lra).
  assert (D : - / 134217728 <= d <= / 134217728).
  { unfold d. split; [apply div_ge|apply div_le]; lra. }
  assert (D2 : d ^ 2 <= (/ 134217728) ^ 2) by nra.
  assert (0 <= (a - 1000 * d) ^ 2) by apply pow2_ge_0. nra.
Qed.

(** ** HyperLogLogPF *)
Section PF.
Variables (e : env) (p : N) (n : nat) (C : list N -> R).
Hypothesis Hb : build e.
Hypothesis Ha : accurate e.
Hypothesis Hp : (4 <= p <= 16)%N.
Hypothesis Hn : INR n <= m_R p / 2.
Hypothesis HC : pf_program e p n C.

Lemma pf_linear : forall hs, hash_list 32 n hs -> approx (/ IZR (2 ^ 28)) (C hs) (counted 32 p hs).
Proof.
  intros hs HH. pose proof (m_R_bounds p ltac:(lia) ltac:(lia)) as M.
  destruct (HC hs HH) as (V & h & c & Hv & Hnr & Ep & SS & Ec & EC).
  pose proof (file_of_ok 32 p hs ltac:(lia) (proj2 HH)) as RF0.
  pose proof (register_file_same 32 p hs (map (fun x => x mod 2 ^ 32)%N (hist_hashes h)) _ (fun x => iff_sym (SS x)) RF0) as RF.
  pose proof (empty_bounds 32 p n ltac:(lia) ltac:(lia) hs HH) as [E1 _]. unfold empty in E1.
  assert (RU : raw_R p (file_of 32 p hs) <= 2.5 * m_R p).
  { pose proof (zero_inv_sum (file_of 32 p hs)) as Z. pose proof (alpha_upper p ltac:(lia) ltac:(lia)) as A.
    unfold raw_R. apply div_le; [lra|]. nra. }
  assert (B32 : below_2_32 (hist_precision h) (hist_hashes h)).
  { intros l RFl. rewrite Ep in *. rewrite (is_register_file_unique 32 p _ l _ ltac:(lia) RFl RF).
    change (IZR (2 ^ 32)) with 4294967296. lra. }
  destruct (pf_value_R V e h Hb Ha Hv Hnr B32) as (c2 & E2 & _ & (l & RFl & P) & _). rewrite Ec in E2. injection E2 as <-.
  rewrite Ep in *. rewrite (is_register_file_unique 32 p _ l _ ltac:(lia) RFl RF) in P. rewrite EC.
  destruct P as [(_ & _ & P)|([P|P] & _)]; [exact P| |exfalso; lra].
  exfalso. rewrite P in E1. change (IZR (Z.of_N 0)) with 0 in E1. lra.
Qed.
End PF.

Lemma counted_cap : forall W p n hs, (4 <= p)%N -> (p < W)%N -> INR n <= m_R p / 2 -> hash_list W n hs ->
  0 <= counted W p hs <= m_R p * - ln (1 - INR n / m_R p).
Proof.
  intros W p n hs Hp HW Hn HH. pose proof (m_ge p Hp) as M. pose proof (empty_bounds W p n Hp HW hs HH) as [E1 E2].
  unfold counted, linear_R. fold (empty W p hs). rewrite N2Z.inj_pow. change (IZR (Z.of_N 2 ^ Z.of_N p)) with (m_R p).
  set (v := empty W p hs) in *. set (m := m_R p) in *. assert (V : 0 < v) by lra. split.
  - apply Rmult_le_pos; [lra|]. rewrite <- ln_1. apply ln_le; [lra|]. apply Rmult_le_reg_r with v; [exact V|].
    unfold Rdiv. rewrite Rmult_assoc, Rinv_l; lra.
  - apply Rmult_le_compat_l; [lra|]. rewrite <- ln_Rinv.
    2:{ replace (1 - INR n / m) with ((m - INR n) / m) by (field; lra). apply Rdiv_lt_0_compat; lra. }
    apply ln_le; [apply Rdiv_lt_0_compat; lra|].
    replace (/ (1 - INR n / m)) with (m * / (m - INR n)) by (field; lra).
    apply Rmult_le_compat_l; [lra|]. apply Rinv_le_contravar; lra.
Qed.

Lemma counted_2n : forall W p n hs, (4 <= p)%N -> (p < W)%N -> INR n <= m_R p / 2 -> hash_list W n hs ->
  0 <= counted W p hs <= 2 * INR n.
Proof.
  intros W p n hs Hp HW Hn HH. pose proof (m_ge p Hp) as M. destruct (counted_cap W p n hs Hp HW Hn HH) as [C0 C1].
  split; [exact C0|]. eapply Rle_trans; [exact C1|].
  set (m := m_R p) in *. set (x := INR n / m). assert (En : INR n = m * x) by (unfold x; field; lra).
  assert (X : 0 <= x <= / 2).
  { unfold x. split; [apply Rmult_le_pos; [apply pos_INR|left; apply Rinv_0_lt_compat; lra]|apply div_le; lra]. }
  rewrite En, <- ln_Rinv by lra. replace (2 * (m * x)) with (m * (2 * x)) by ring. apply Rmult_le_compat_l; [lra|].
  eapply Rle_trans; [apply ln_below; apply Rinv_0_lt_compat; lra|].
  assert (/ (1 - x) <= 1 + 2 * x); [|lra].
  apply Rmult_le_reg_r with (1 - x); [lra|]. rewrite Rinv_l by lra. nra.
Qed.

Theorem pf_linear_mean : forall e p n C, build e -> accurate e -> (4 <= p <= 16)%N -> INR n <= m_R p / 2 ->
  pf_program e p n C -> forall all, enumerates (hash_list 32 n) all ->
  INR n * (1 - / IZR (2 ^ 28)) * INR (length all) <= rsum C all /\
  rsum C all <= INR n * (1 + 1.4 / m_R p) * (1 + / IZR (2 ^ 28)) * INR (length all).
Proof.
  intros e p n C Hb Ha Hp Hn HC all HE.
  assert (A : forall hs, In hs all -> counted 32 p hs * (1 - / IZR (2 ^ 28)) <= C hs <= counted 32 p hs * (1 + / IZR (2 ^ 28))).
  { intros hs Hh. apply HE in Hh. pose proof (pf_linear e p n C Hb Ha Hp Hn HC hs Hh) as A.
    pose proof (counted_2n 32 p n hs ltac:(lia) ltac:(lia) Hn Hh) as [C0 _].
    unfold approx in A. rewrite (Rabs_pos_eq (counted _ _ _)) in A by exact C0. apply Rabs_le_inv in A. lra. }
  destruct (linear_mean 32 p n ltac:(lia) ltac:(lia) Hn all HE) as [L U].
  assert (S : forall k, rsum (fun hs => counted 32 p hs * k) all = rsum (counted 32 p) all * k).
  { intros k. rewrite (rsum_ext _ (fun hs => k * counted 32 p hs)) by (intros; ring). rewrite rsum_scal. ring. }
  change (IZR (2 ^ 28)) with 268435456 in *. split.
  - apply Rle_trans with (rsum (fun hs => counted 32 p hs * (1 - / 268435456)) all); [|apply rsum_le; apply A].
    rewrite S. apply (Rmult_le_compat_r (1 - / 268435456)) in L; lra.
  - apply Rle_trans with (rsum (fun hs => counted 32 p hs * (1 + / 268435456)) all); [apply rsum_le; apply A|].
    rewrite S. apply (Rmult_le_compat_r (1 + / 268435456)) in U; lra.
Qed.

Theorem pf_linear_square : forall e p n C, build e -> accurate e -> (4 <= p <= 16)%N -> (0 < n)%nat -> INR n <= m_R p / 2 ->
  pf_program e p n C -> forall all, enumerates (hash_list 32 n) all ->
  rsum (fun hs => (C hs / INR n - 1) ^ 2) all <= 1.13 / m_R p * INR (length all).
Proof.
  intros e p n C Hb Ha Hp H0 Hn HC all HE. pose proof (m_R_bounds p ltac:(lia) ltac:(lia)) as M.
  assert (N1 : 0 < INR n) by now apply lt_0_INR.
  pose proof (linear_square 32 p n ltac:(lia) ltac:(lia) Hn all HE) as S.
  apply Rle_trans with (rsum (fun hs => 1.001 * / INR n ^ 2 * (counted 32 p hs - INR n) ^ 2 + / 10000000000000) all).
  - apply rsum_le. intros hs Hh. apply HE in Hh.
    destruct (rounded (C hs) (counted 32 p hs) (INR n) N1 (counted_2n 32 p n hs ltac:(lia) ltac:(lia) Hn Hh)
      (pf_linear e p n C Hb Ha Hp Hn HC hs Hh)) as [_ R].
    eapply Rle_trans; [exact R|]. apply Req_le. f_equal. rewrite Rmult_assoc. f_equal. field. lra.
  - rewrite rsum_plus, rsum_const, rsum_scal. set (T := INR (length all)) in *. pose proof (pos_INR (length all)) as P. fold T in P.
    assert (I : 0 < 1.001 * / INR n ^ 2) by (assert (0 < / INR n ^ 2) by (apply Rinv_0_lt_compat, pow_lt; lra); lra).
    apply (Rmult_le_compat_l (1.001 * / INR n ^ 2)) in S; [|lra].
    replace (1.001 * / INR n ^ 2 * (INR n ^ 2 * (1.12 / m_R p) * T)) with (1.001 * (1.12 / m_R p) * T) in S.
    2:{ transitivity (1.001 * (1.12 / m_R p) * T * (/ INR n ^ 2 * INR n ^ 2)); [|ring].
        rewrite Rinv_l by (apply pow_nonzero; lra). ring. }
    assert (J : / 262144 <= / m_R p) by (apply Rinv_le_contravar; lra).
    assert (K : 1.001 * (1.12 / m_R p) + / 10000000000000 <= 1.13 / m_R p) by (unfold Rdiv; lra).
    apply (Rmult_le_compat_r T) in K; lra.
Qed.

(** ** Sparse sketches of HyperLogLogPlus *)
Lemma linear_24_up : forall k n, (k <= n)%nat -> INR n <= 300000 ->
  linear_R (2 ^ 24) (2 ^ 24 - N.of_nat k) <= INR n * (1 + 1.02 * (INR n / IZR (2 ^ 25))).
Proof.
  intros k n Hk Hn. unfold linear_R. apply le_INR in Hk. pose proof (pos_INR k) as P.
  assert (K : (N.of_nat k <= 2 ^ 24)%N).
  { change (2 ^ 24)%N with 16777216%N. assert (INR k <= 300000) by lra. rewrite INR_IZR_INZ in H. apply le_IZR in H. lia. }
  rewrite N2Z.inj_sub, minus_IZR, nat_N_Z, <- INR_IZR_INZ by exact K.
  change (IZR (Z.of_N (2 ^ 24))) with 16777216. change (IZR (2 ^ 25)) with 33554432.
  set (x := INR k) in *. set (y := INR n) in *. clearbody x y.
  set (q := y / 16777216). assert (Ex : y = 16777216 * q) by (unfold q; field).
  assert (Hq : 0 <= q <= 0.018) by (unfold q; lra).
  apply Rle_trans with (16777216 * (q + 0.51 * q ^ 2)); [|rewrite Ex; lra].
  apply Rmult_le_compat_l; [lra|]. set (t := q + 0.51 * q ^ 2). assert (T : 0 <= t) by (unfold t; nra).
  rewrite <- (ln_exp t). apply ln_le; [apply Rdiv_lt_0_compat; lra|].
  apply Rle_trans with (/ (1 - q)).
  - replace (16777216 / (16777216 - x)) with (/ (1 - x / 16777216)) by (field; lra).
    apply Rinv_le_contravar; unfold q; lra.
  - pose proof (exp_neg_up t T) as E. rewrite exp_Ropp in E. pose proof (exp_pos t) as EP.
    rewrite <- (Rinv_inv (exp t)). apply Rinv_le_contravar; [now apply Rinv_0_lt_compat|].
    eapply Rle_trans; [exact E|]. unfold t. enough (0 <= q ^ 2 * (1.02 - (1 + 0.51 * q) ^ 2)) by lra.
    apply Rmult_le_pos; [apply pow2_ge_0|nra].
Qed.

Section Lost.
Variables (n : nat) (all : list (list N)).
Hypothesis Hn : INR n <= 300000.
Hypothesis HE : enumerates (hash_list 64 n) all.

Let mu := m_R 25 * below 25 n 0.
Let l0 := INR n - m_R 25 + mu.

Lemma half_25 : INR n <= m_R 25 / 2.
Proof. change (m_R 25) with 33554432. lra. Qed.

Lemma lost_r : forall hs, lost n hs = l0 - mu * (1 - empty 64 25 hs / mu).
Proof.
  intros hs. destruct (mean_bounds 64 25 n ltac:(lia) half_25 all HE) as (_ & M3 & _). fold mu in M3.
  unfold lost, l0, empty. change (m_R 25) with 33554432. field. lra.
Qed.

Lemma l0_bounds : 0 <= l0 <= INR n ^ 2 / IZR (2 ^ 26).
Proof.
  destruct (mean_bounds 64 25 n ltac:(lia) half_25 all HE) as ((M1 & M2) & _ & _). fold mu in M1, M2.
  pose proof (x_half 25 n ltac:(lia) half_25) as X. unfold l0.
  change (m_R 25) with 33554432 in *. change (IZR (2 ^ 26)) with 67108864.
  pose proof (exp_neg_up (INR n / 33554432) (proj1 X)) as E. split; lra.
Qed.

Lemma lost_mean : rsum (lost n) all = l0 * INR (length all).
Proof.
  rewrite (rsum_ext _ (fun hs => l0 + - mu * (1 - empty 64 25 hs / mu))) by (intros; rewrite lost_r; ring).
  rewrite rsum_plus, rsum_const, rsum_scal. unfold mu.
  rewrite (r_mean 64 25 n ltac:(lia) ltac:(lia) half_25 all HE). ring.
Qed.

Lemma lost_square : rsum (fun hs => lost n hs ^ 2) all <= INR n ^ 2 * ((INR n / IZR (2 ^ 26)) ^ 2 + 0.78 / IZR (2 ^ 25)) * INR (length all).
Proof.
  rewrite (rsum_ext _ (fun hs => l0 ^ 2 + (- 2 * l0 * mu) * (1 - empty 64 25 hs / mu) + mu ^ 2 * (1 - empty 64 25 hs / mu) ^ 2))
    by (intros; rewrite lost_r; ring).
  pose proof (r_mean 64 25 n ltac:(lia) ltac:(lia) half_25 all HE) as RM. fold mu in RM.
  rewrite !rsum_plus, rsum_const, !rsum_scal, RM.
  pose proof (r_spread 64 25 n ltac:(lia) ltac:(lia) half_25 all HE) as S. fold mu in S.
  pose proof l0_bounds as L. destruct (mean_bounds 64 25 n ltac:(lia) half_25 all HE) as ((_ & M2) & M3 & _). fold mu in M2, M3.
  pose proof (x_half 25 n ltac:(lia) half_25) as X.
  assert (M4 : mu <= m_R 25).
  { eapply Rle_trans; [exact M2|]. change (m_R 25) with 33554432 in *.
    assert (exp (- (INR n / 33554432)) <= 1) by (rewrite <- exp_0; apply exp_le; lra). lra. }
  change (m_R 25) with 33554432 in *. change (IZR (2 ^ 26)) with 67108864 in *. change (IZR (2 ^ 25)) with 33554432.
  set (T := INR (length all)) in *. pose proof (pos_INR (length all)) as P. fold T in P.
  apply (Rmult_le_compat_l (mu ^ 2)) in S; [|apply pow2_ge_0].
  apply Rle_trans with ((l0 ^ 2 + mu ^ 2 * (0.78 * (INR n / 33554432) ^ 2 / 33554432)) * T); [lra|].
  apply Rmult_le_compat_r; [exact P|]. set (y := INR n) in *.
  assert (L2 : l0 ^ 2 <= (y ^ 2 / 67108864) ^ 2) by (apply pow_incr; exact L).
  assert (U2 : mu ^ 2 <= 33554432 ^ 2) by (apply pow_incr; lra).
  apply (Rmult_le_compat_r (0.78 * (y / 33554432) ^ 2 / 33554432)) in U2.
  2:{ pose proof (pow2_ge_0 (y / 33554432)). lra. }
  lra.
Qed.
End Lost.

Lemma lost_pos : forall n hs, hash_list 64 n hs -> 0 <= lost n hs.
Proof.
  intros n hs HH. pose proof (empty_bounds 64 25 n ltac:(lia) ltac:(lia) hs HH) as [E _].
  unfold empty in E. unfold lost. change (m_R 25) with 33554432 in E. lra.
Qed.

Lemma codes_between : forall p n H hs L, hash_list 64 n hs -> same_set H hs -> is_code_list p H L ->
  INR n - lost n hs <= INR (length L) <= INR n.
Proof.
  intros p n H hs L HH SS HL. split; [|apply (lost_codes p n H hs L (lost n hs + 1) HH SS HL); lra].
  apply Rnot_lt_le. intros B. set (u := (INR n - INR (length L) + lost n hs) / 2).
  destruct (lost_codes p n H hs L u HH SS HL ltac:(unfold u; lra)) as [B1 _]. unfold u in B1. lra.
Qed.

Lemma threshold_06 : forall p, (4 <= p <= 18)%N -> p <> 5%N -> 0.6056 * m_R p <= threshold_R p.
Proof.
  intros p Hp H5. assert (A : (p = 4 \/ p = 6 \/ p = 7 \/ p = 8 \/ p = 9 \/ 10 <= p <= 18)%N) by lia.
  destruct A as [->|[->|[->|[->|[->|A]]]]].
  - change (m_R 4) with 16. change (threshold_R 4) with 10. lra.
  - change (m_R 6) with 64. change (threshold_R 6) with 40. lra.
  - change (m_R 7) with 128. change (threshold_R 7) with 80. lra.
  - change (m_R 8) with 256. change (threshold_R 8) with 220. lra.
  - change (m_R 9) with 512. change (threshold_R 9) with 400. lra.
  - pose proof (AccRange.threshold_ge p A). pose proof (m_ge p (proj1 Hp)). lra.
Qed.

Section Plus.
Variables (e : env) (p : N) (n : nat) (C : list N -> R).
Hypothesis Hb : build_std e.
Hypothesis Ha : accurate e.
Hypothesis Hp : (4 <= p <= 18)%N.
Hypothesis H0 : (0 < n)%nat.
Hypothesis Hn : INR n <= 300000.
Hypothesis HC : plus_program e p n C.
Variable all : list (list N).
Hypothesis HE : enumerates (hash_list 64 n) all.

(** Counted as if sparse. *)
Definition as_sparse hs y : Prop := INR n - lost n hs <= y <= INR n * (1 + 1.02 * (INR n / IZR (2 ^ 25))).

Lemma as_sparse_square : forall hs y, hash_list 64 n hs -> as_sparse hs y -> 0 <= y <= 2 * INR n ->
  (y / INR n - 1) ^ 2 <= / INR n ^ 2 * lost n hs ^ 2 + (1.02 * (INR n / IZR (2 ^ 25))) ^ 2.
Proof.
  intros hs y HH [A1 A2] Y. assert (N1 : 0 < INR n) by now apply lt_0_INR. pose proof (lost_pos n hs HH) as LP.
  change (IZR (2 ^ 25)) with 33554432 in *. set (g := 1.02 * (INR n / 33554432)) in *.
  replace (/ INR n ^ 2 * lost n hs ^ 2) with ((lost n hs / INR n) ^ 2) by (field; lra).
  assert (G : 0 <= g) by (unfold g; lra).
  set (a := lost n hs / INR n). assert (A : 0 <= a) by (apply Rmult_le_pos; [lra|left; now apply Rinv_0_lt_compat]).
  assert (B : - a <= y / INR n - 1 <= g).
  { split.
    - replace (- a) with ((INR n - lost n hs) / INR n - 1) by (unfold a; field; lra).
      apply Rplus_le_compat_r. apply Rmult_le_compat_r; [left; now apply Rinv_0_lt_compat|exact A1].
    - enough (y / INR n <= 1 + g) by lra. apply div_le; lra. }
  set (z := y / INR n - 1) in *. clearbody a g z. clear - A G B. destruct (Rle_or_lt 0 z); nra.
Qed.

Lemma plus_two : forall hs, hash_list 64 n hs ->
  (exists y, as_sparse hs y /\ 0 <= y <= 2 * INR n /\ approx (/ IZR (2 ^ 28)) (C hs) y) \/
  (sparse_limit p < 4 * N.of_nat n + 16)%N /\
  (INR n <= 0.45 * m_R p -> p <> 5%N -> approx (/ IZR (2 ^ 28)) (C hs) (counted 64 p hs)).
Proof.
  intros hs HH. destruct (HC hs HH) as (V & ord & h & c & Hv & Hnr & Ho & Ep & SS & Ec & EC).
  destruct (plus_value V e ord h Hb Ha Hv Hnr Ho) as (c' & Ec' & _ & P). rewrite Ec in Ec'. injection Ec' as <-.
  rewrite Ep in P. destruct P as (L & HL & P). rewrite <- EC in P.
  pose proof (codes_between p n _ hs L HH SS HL) as [B1 B2].
  destruct P as [[_ P]|[G (l & RF & P)]].
  - left. eexists. split; [|split; [|exact P]].
    + split.
      * pose proof (linear_24 (length L) n (INR_le _ _ B2) ltac:(lra)) as [L1 _]. lra.
      * apply linear_24_up; [now apply INR_le|exact Hn].
    + pose proof (linear_24 (length L) n (INR_le _ _ B2) ltac:(lra)) as [L1 _].
      pose proof (linear_24_up (length L) n (INR_le _ _ B2) Hn) as L2. pose proof (pos_INR (length L)).
      pose proof (pos_INR n) as Pn. change (IZR (2 ^ 25)) with 33554432 in L2.
      assert (INR n * (1 + 1.02 * (INR n / 33554432)) <= INR n * 2) by (apply Rmult_le_compat_l; lra). lra.
  - right. split.
    + pose proof (codes_bytes p (hist_hashes h) L (hashes_lt V h) HL) as CB. apply INR_le in B2. lia.
    + intros Hx H5. pose proof (m_ge p ltac:(lia)) as M. assert (Hh : INR n <= m_R p / 2) by lra.
      destruct (counted_cap 64 p n hs ltac:(lia) ltac:(lia) Hh HH) as [_ CC].
      pose proof (file_of_ok 64 p hs ltac:(lia) (proj2 HH)) as RF0.
      rewrite (is_register_file_unique 64 p _ l _ ltac:(lia) RF
        (register_file_same 64 p hs (hist_hashes h) _ (fun x => iff_sym (SS x)) RF0)) in P.
      fold (counted 64 p hs) in P. destruct P as [(_ & _ & P)|([Z|Z] & _)]; [exact P| |].
      * exfalso. pose proof (empty_bounds 64 p n ltac:(lia) ltac:(lia) hs HH) as [E1 _]. unfold empty in E1.
        rewrite Z in E1. change (IZR (Z.of_N 0)) with 0 in E1. lra.
      * exfalso. assert (K : - ln (1 - INR n / m_R p) <= 0.6056).
        { apply Rle_trans with (- ln (0.8 * (0.8 * 0.859375))).
          - apply Ropp_le_contravar, ln_le; [lra|]. assert (INR n / m_R p <= 0.45) by (apply div_le; lra). lra.
          - rewrite !ln_mult by lra. pose proof (ln_second 0.2 ltac:(lra)) as Q1. pose proof (ln_second 0.140625 ltac:(lra)) as Q2.
            replace (1 - 0.2) with 0.8 in Q1 by lra. replace (1 - 0.140625) with 0.859375 in Q2 by lra. lra. }
        apply (Rmult_le_compat_l (m_R p)) in K; [|lra].
        pose proof (threshold_06 p Hp H5). lra.
Qed.

Let T := INR (length all).

Lemma sparse_sum : rsum (fun hs => 1.001 * (/ INR n ^ 2 * lost n hs ^ 2 + (1.02 * (INR n / IZR (2 ^ 25))) ^ 2) + / 10000000000000) all
  <= (0.8 / IZR (2 ^ 25) + (1.15 * INR n / IZR (2 ^ 25)) ^ 2) * T.
Proof.
  assert (N1 : 0 < INR n) by now apply lt_0_INR. pose proof (pos_INR (length all)) as P. fold T in P.
  rewrite (rsum_ext _ (fun hs => 1.001 * / INR n ^ 2 * lost n hs ^ 2 + (1.001 * (1.02 * (INR n / IZR (2 ^ 25))) ^ 2 + / 10000000000000)))
    by (intros; ring).
  rewrite rsum_plus, rsum_const, rsum_scal. fold T.
  pose proof (lost_square n all Hn HE) as S. fold T in S.
  assert (I : 0 < / INR n ^ 2) by (apply Rinv_0_lt_compat, pow_lt; lra).
  apply (Rmult_le_compat_l (1.001 * / INR n ^ 2)) in S; [|lra].
  set (k := (INR n / IZR (2 ^ 26)) ^ 2 + 0.78 / IZR (2 ^ 25)) in *.
  replace (1.001 * / INR n ^ 2 * (INR n ^ 2 * k * T)) with (1.001 * k * T) in S.
  2:{ transitivity (1.001 * k * T * (/ INR n ^ 2 * INR n ^ 2)); [|ring]. rewrite Rinv_l by (apply pow_nonzero; lra). ring. }
  unfold k in S. clear k I. change (IZR (2 ^ 26)) with 67108864 in *. change (IZR (2 ^ 25)) with 33554432 in *.
  assert (K : 1.001 * ((INR n / 67108864) ^ 2 + 0.78 / 33554432) + (1.001 * (1.02 * (INR n / 33554432)) ^ 2 + / 10000000000000)
    <= 0.8 / 33554432 + (1.15 * INR n / 33554432) ^ 2) by (pose proof (pow2_ge_0 (INR n)); lra).
  apply (Rmult_le_compat_r T) in K; lra.
Qed.

Theorem sparse_square : (4 * N.of_nat n + 16 <= sparse_limit p)%N ->
  rsum (fun hs => (C hs / INR n - 1) ^ 2) all <= (0.8 / IZR (2 ^ 25) + (1.15 * INR n / IZR (2 ^ 25)) ^ 2) * T.
Proof.
  intros Hl. assert (N1 : 0 < INR n) by now apply lt_0_INR. eapply Rle_trans; [|exact sparse_sum].
  apply rsum_le. intros hs Hh. apply HE in Hh. destruct (plus_two hs Hh) as [(y & A & Y & R)|[B _]]; [|lia].
  destruct (rounded _ _ _ N1 Y R) as [_ S]. eapply Rle_trans; [exact S|]. apply Rplus_le_compat_r, Rmult_le_compat_l; [lra|].
  now apply as_sparse_square.
Qed.

Theorem sparse_mean : (4 * N.of_nat n + 16 <= sparse_limit p)%N ->
  INR n * (1 - INR n / IZR (2 ^ 26)) * (1 - / IZR (2 ^ 28)) * T <= rsum C all /\
  rsum C all <= INR n * (1 + 1.02 * (INR n / IZR (2 ^ 25))) * (1 + / IZR (2 ^ 28)) * T.
Proof.
  intros Hl. assert (N1 : 0 < INR n) by now apply lt_0_INR. pose proof (pos_INR (length all)) as P. fold T in P.
  assert (A : forall hs, In hs all -> (INR n - lost n hs) * (1 - / IZR (2 ^ 28)) <= C hs <=
    INR n * (1 + 1.02 * (INR n / IZR (2 ^ 25))) * (1 + / IZR (2 ^ 28))).
  { intros hs Hh. apply HE in Hh. destruct (plus_two hs Hh) as [(y & [A1 A2] & Y & R)|[B _]]; [|lia].
    destruct (rounded _ _ _ N1 Y R) as [[S1 S2] _]. change (IZR (2 ^ 28)) with 268435456 in *. split.
    - eapply Rle_trans; [|exact S1]. apply Rmult_le_compat_r; lra.
    - eapply Rle_trans; [exact S2|]. apply Rmult_le_compat_r; lra. }
  split.
  - apply Rle_trans with (rsum (fun hs => INR n * (1 - / IZR (2 ^ 28)) + - (1 - / IZR (2 ^ 28)) * lost n hs) all).
    + rewrite rsum_plus, rsum_const, rsum_scal, (lost_mean n all Hn HE). fold T.
      pose proof (l0_bounds n all Hn HE) as [_ L]. set (l0 := INR n - m_R 25 + m_R 25 * below 25 n 0) in *.
      change (IZR (2 ^ 28)) with 268435456. change (IZR (2 ^ 26)) with 67108864 in *.
      assert (K : INR n * (1 - INR n / 67108864) * (1 - / 268435456) <= INR n * (1 - / 268435456) + - (1 - / 268435456) * l0) by lra.
      apply (Rmult_le_compat_r T) in K; lra.
    + apply rsum_le. intros hs Hh. destruct (A hs Hh) as [A1 _]. lra.
  - apply Rle_trans with (rsum (fun _ => INR n * (1 + 1.02 * (INR n / IZR (2 ^ 25))) * (1 + / IZR (2 ^ 28))) all).
    + apply rsum_le. intros hs Hh. apply (A hs Hh).
    + rewrite rsum_const. fold T. lra.
Qed.

(** Sparse or dense. *)
Theorem small_square : INR n <= 0.45 * m_R p -> p <> 5%N ->
  rsum (fun hs => (C hs / INR n - 1) ^ 2) all
  <= (1.13 / m_R p + 0.8 / IZR (2 ^ 25) + (1.15 * INR n / IZR (2 ^ 25)) ^ 2) * T.
Proof.
  intros Hx H5. assert (N1 : 0 < INR n) by now apply lt_0_INR. pose proof (pos_INR (length all)) as P. fold T in P.
  pose proof (m_R_bounds p ltac:(lia) ltac:(lia)) as M. assert (Hh : INR n <= m_R p / 2) by lra.
  pose proof sparse_sum as SS. pose proof (linear_square 64 p n ltac:(lia) ltac:(lia) Hh all HE) as S. fold T in S.
  apply Rle_trans with (rsum (fun hs => (1.001 * / INR n ^ 2 * (counted 64 p hs - INR n) ^ 2 + / 10000000000000) +
    (1.001 * (/ INR n ^ 2 * lost n hs ^ 2 + (1.02 * (INR n / IZR (2 ^ 25))) ^ 2) + / 10000000000000)) all).
  - assert (I : 0 < / INR n ^ 2) by (apply Rinv_0_lt_compat, pow_lt; lra).
    apply rsum_le. intros hs Hhs. apply HE in Hhs.
    pose proof (pow2_ge_0 (counted 64 p hs - INR n)) as Q1. pose proof (pow2_ge_0 (lost n hs)) as Q2.
    pose proof (pow2_ge_0 (1.02 * (INR n / IZR (2 ^ 25)))) as Q3.
    assert (Q4 : 0 <= / INR n ^ 2 * (counted 64 p hs - INR n) ^ 2) by (apply Rmult_le_pos; lra).
    assert (Q5 : 0 <= / INR n ^ 2 * lost n hs ^ 2) by (apply Rmult_le_pos; lra).
    destruct (plus_two hs Hhs) as [(y & A & Y & R)|[_ R]].
    + destruct (rounded _ _ _ N1 Y R) as [_ S1]. pose proof (as_sparse_square hs y Hhs A Y). lra.
    + specialize (R Hx H5). destruct (rounded _ _ _ N1 (counted_2n 64 p n hs ltac:(lia) ltac:(lia) Hh Hhs) R) as [_ S1].
      replace ((counted 64 p hs / INR n - 1) ^ 2) with (/ INR n ^ 2 * (counted 64 p hs - INR n) ^ 2) in S1 by (field; lra). lra.
  - rewrite rsum_plus. 
    apply Rle_trans with (1.13 / m_R p * T + (0.8 / IZR (2 ^ 25) + (1.15 * INR n / IZR (2 ^ 25)) ^ 2) * T); [|apply Req_le; ring].
    apply Rplus_le_compat; [|exact SS].
    rewrite rsum_plus, rsum_const, rsum_scal. fold T.
    assert (I : 0 < 1.001 * / INR n ^ 2) by (assert (0 < / INR n ^ 2) by (apply Rinv_0_lt_compat, pow_lt; lra); lra).
    apply (Rmult_le_compat_l (1.001 * / INR n ^ 2)) in S; [|lra].
    replace (1.001 * / INR n ^ 2 * (INR n ^ 2 * (1.12 / m_R p) * T)) with (1.001 * (1.12 / m_R p) * T) in S.
    2:{ transitivity (1.001 * (1.12 / m_R p) * T * (/ INR n ^ 2 * INR n ^ 2)); [|ring].
        rewrite Rinv_l by (apply pow_nonzero; lra). ring. }
    assert (J : / 262144 <= / m_R p) by (apply Rinv_le_contravar; lra).
    assert (K : 1.001 * (1.12 / m_R p) + / 10000000000000 <= 1.13 / m_R p) by (unfold Rdiv; lra).
    apply (Rmult_le_compat_r T) in K; lra.
Qed.
End Plus.

(** The bounds on [n] follow. *)
Lemma sparse_few : forall p n, (p <= 18)%N -> (4 * N.of_nat n + 16 <= sparse_limit p)%N -> INR n <= 300000.
Proof.
  intros p n Hp H. assert (S : (sparse_limit p <= 1200000)%N).
  { unfold sparse_limit. assert (2 ^ p <= 2 ^ 18)%N by (apply N.pow_le_mono_r; lia). change (2 ^ 18)%N with 262144%N in *.
    apply N.lt_le_incl. apply N.div_lt_upper_bound; lia. }
  rewrite INR_IZR_INZ. apply IZR_le. lia.
Qed.

Theorem sparse_mean_all : forall e p n C, build_std e -> accurate e -> (4 <= p <= 18)%N -> (0 < n)%nat ->
  (4 * N.of_nat n + 16 <= sparse_limit p)%N -> plus_program e p n C ->
  forall all, enumerates (hash_list 64 n) all ->
  INR n * (1 - INR n / IZR (2 ^ 26)) * (1 - / IZR (2 ^ 28)) * INR (length all) <= rsum C all /\
  rsum C all <= INR n * (1 + 1.02 * (INR n / IZR (2 ^ 25))) * (1 + / IZR (2 ^ 28)) * INR (length all).
Proof.
  intros e p n C Hb Ha Hp H0 Hl HC all HE. pose proof (sparse_few p n (proj2 Hp) Hl) as Hn.
  now apply (sparse_mean e p n C).
Qed.

Theorem sparse_square_all : forall e p n C, build_std e -> accurate e -> (4 <= p <= 18)%N -> (0 < n)%nat ->
  (4 * N.of_nat n + 16 <= sparse_limit p)%N -> plus_program e p n C ->
  forall all, enumerates (hash_list 64 n) all ->
  rsum (fun hs => (C hs / INR n - 1) ^ 2) all
  <= (0.8 / IZR (2 ^ 25) + (1.15 * INR n / IZR (2 ^ 25)) ^ 2) * INR (length all).
Proof.
  intros e p n C Hb Ha Hp H0 Hl HC all HE. pose proof (sparse_few p n (proj2 Hp) Hl) as Hn.
  now apply (sparse_square e p n C).
Qed.

Theorem small_square_all : forall e p n C, build_std e -> accurate e -> (4 <= p <= 18)%N -> p <> 5%N -> (0 < n)%nat ->
  INR n <= 0.45 * m_R p -> plus_program e p n C ->
  forall all, enumerates (hash_list 64 n) all ->
  rsum (fun hs => (C hs / INR n - 1) ^ 2) all
  <= (1.13 / m_R p + 0.8 / IZR (2 ^ 25) + (1.15 * INR n / IZR (2 ^ 25)) ^ 2) * INR (length all).
Proof.
  intros e p n C Hb Ha Hp H5 H0 Hx HC all HE. pose proof (m_R_bounds p (proj1 Hp) (proj2 Hp)) as M.
  apply (small_square e p n C); auto. lra.
Qed.
