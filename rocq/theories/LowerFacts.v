(** * Linear counting errs by at least about sqrt(1/4m); sparse sketches err less *)
From Coq Require Import NArith ZArith Reals List Bool Permutation Lia Lra.
From Flocq Require Import Core BinarySingleNaN.
From Verif Require Import ModelRust ModelF64 ModelEnv ModelConstants ModelHistory Spec SpecReal SpecCount SpecDist
  SpecProb SpecBuild SpecMean BitFacts EncFacts CodeFacts AbsorbFacts PFInv DistFacts ProbFacts MomentFacts HarmonicNum
  RawFacts FloatFacts LinearFacts ClaimFloat ClaimFacts ClaimDist HarmonicMean AccFacts AccSmall PlusInv RiskCore RiskFacts RiskLinear.
Import ListNotations.
Local Notation ln := Rpower.ln.
Local Open Scope R_scope.

(** ** The variance of the number of empty registers, exactly *)
Section Exact.
Variables (W p : N) (n : nat) (file : list N -> list N) (all : list (list N)).
Hypothesis Hp : (p < W)%N.
Hypothesis HF : register_files W p n file.
Hypothesis HE : enumerates (hash_list W n) all.

Notation T := (INR (length all)).
Notation reg i hs := (nth (N.to_nat i) (file hs) 0%N).

Theorem variance_exact : forall g c,
  (forall i j, (i < 2 ^ p)%N -> (j < 2 ^ p)%N -> i <> j ->
     rsum (fun hs => g (reg i hs) * g (reg j hs)) all = T * c) ->
  rsum (fun hs => (total file g hs - IZR (2 ^ Z.of_N p) * mean W p n g) ^ 2) all
  = T * (IZR (2 ^ Z.of_N p) * (mean W p n (fun v => g v * g v) + (IZR (2 ^ Z.of_N p) - 1) * c
                                - IZR (2 ^ Z.of_N p) * (mean W p n g * mean W p n g))).
Proof.
  intros g c Hc. set (m := IZR (2 ^ Z.of_N p)). set (mu := mean W p n g).
  rewrite (rsum_ext _ (fun hs => total file g hs * total file g hs + (- 2 * m * mu * total file g hs + m * mu * (m * mu))))
    by (intros hs _; ring).
  rewrite !rsum_plus, rsum_const, rsum_scal, (total_mean W p n file all Hp HF HE). fold m mu.
  enough (E : rsum (fun hs => total file g hs * total file g hs) all = T * (m * mean W p n (fun v => g v * g v) + m * (m - 1) * c)) by (rewrite E; ring).
  rewrite (rsum_ext _ (fun hs => rsum (fun i => rsum (fun j => g (reg i hs) * g (reg j hs)) (range (2 ^ p))) (range (2 ^ p)))).
  2:{ intros hs Hh. rewrite !(total_regs W p n file all HF HE) by exact Hh. apply rsum_prod. }
  rewrite rsum_swap.
  rewrite (rsum_ext _ (fun _ => T * mean W p n (fun v => g v * g v) + (m - 1) * (T * c))).
  { rewrite rsum_const, range_INR. fold m. ring. }
  intros i Hi. rewrite rsum_swap.
  destruct (in_split i (range (2 ^ p)) Hi) as (a & b & Eab).
  assert (D := range_NoDup (2 ^ p)). rewrite Eab in D |- *. apply NoDup_remove in D. destruct D as [_ D].
  assert (In' : forall j, In j a \/ In j b -> (j < 2 ^ p)%N /\ i <> j).
  { intros j Hj. split.
    - apply range_in. rewrite Eab. rewrite in_app_iff. cbn [In]. tauto.
    - intros <-. apply D. now rewrite in_app_iff. }
  assert (Hi' : (i < 2 ^ p)%N) by now apply range_in.
  assert (L : m - 1 = INR (length a) + INR (length b)).
  { assert (Hl : INR (length (range (2 ^ p))) = m) by apply range_INR. rewrite Eab, app_length in Hl.
    cbn [length] in Hl. rewrite plus_INR, S_INR in Hl. lra. }
  rewrite rsum_app, rsum_cons, L.
  assert (X : forall l, (forall j, In j l -> (j < 2 ^ p)%N /\ i <> j) ->
    rsum (fun j => rsum (fun hs => g (reg i hs) * g (reg j hs)) all) l = INR (length l) * (T * c)).
  { intros l Hl. rewrite <- rsum_const. apply rsum_ext. intros j Hj. destruct (Hl j Hj).
    apply Hc; auto. }
  rewrite (X a (fun j H => In' j (or_introl H))), (X b (fun j H => In' j (or_intror H))).
  rewrite (mean_one W p n file all Hp HF HE (fun v => g v * g v) i Hi'). ring.
Qed.

Theorem zeros_spread_exact :
  rsum (fun hs => (IZR (Z.of_N (zero_count (file hs))) - m_R p * below p n 0) ^ 2) all
  = m_R p * (below p n 0 + (m_R p - 1) * (1 - 2 / m_R p) ^ n - m_R p * (below p n 0 * below p n 0)) * T.
Proof.
  pose proof (variance_exact (ind 0) ((1 - 2 / m_R p) ^ n)) as VB.
  rewrite (mean_ext W p n (fun v => ind 0 v * ind 0 v) (ind 0) (ind_sq 0)), mean_zero in VB.
  fold (m_R p) in VB. unfold total in VB. rewrite (Rmult_comm _ T).
  rewrite (rsum_ext _ (fun hs => (rsum (ind 0) (file hs) - m_R p * below p n 0) ^ 2)) by (intros; now rewrite rsum_zero).
  apply VB. intros i j Hi Hj Hij. unfold m_R. now apply (two_zero W).
Qed.
End Exact.

(** Powers, to first and second order. *)
Lemma pow_second : forall i n, 0 <= i -> 1 + INR n * i + INR n * (INR n - 1) / 2 * i ^ 2 <= (1 + i) ^ n.
Proof.
  intros i n Hi. induction n as [|k IH]; [cbn; lra|]. rewrite S_INR. cbn [pow].
  set (y := INR k) in *. assert (Y : 0 <= y * (y - 1)).
  { unfold y. destruct k; [cbn; lra|]. rewrite S_INR. pose proof (pos_INR k). nra. }
  clearbody y. apply (Rmult_le_compat_l (1 + i)) in IH; [|lra]. eapply Rle_trans; [|exact IH].
  assert (0 <= y * (y - 1) * (i * i * i)) by (apply Rmult_le_pos; [exact Y|nra]). nra.
Qed.

Lemma pow_first : forall d n, 0 <= d <= 1 -> 1 - INR n * d <= (1 - d) ^ n.
Proof.
  intros d n Hd. induction n as [|k IH]; [cbn; lra|]. rewrite S_INR. cbn [pow].
  apply (Rmult_le_compat_l (1 - d)) in IH; [|lra]. pose proof (pos_INR k). nra.
Qed.

Lemma zero_variance_lower : forall p n, (4 <= p)%N ->
  INR n * (INR n - 1) / 2 / m_R p ^ 2 * (below p n 0 * below p n 0) <=
  below p n 0 + (m_R p - 1) * (1 - 2 / m_R p) ^ n - m_R p * (below p n 0 * below p n 0).
Proof.
  intros p n Hp. pose proof (m_ge p Hp) as M. pose proof (below_pos p n Hp) as B.
  assert (EB : below p n 0 = (1 - / m_R p) ^ n) by (unfold below; rewrite N.add_0_r; reflexivity).
  set (m := m_R p) in *. set (b := below p n 0) in *. set (i := / (m - 1)).
  assert (I : / m <= i <= / 15) by (unfold i; split; apply Rinv_le_contravar; lra).
  assert (J : 0 < / m) by (apply Rinv_0_lt_compat; lra).
  assert (Ei : i * (m - 1) = 1) by (unfold i; apply Rinv_l; lra).
  assert (C : (1 - 2 / m) ^ n = b * b * (1 - i * i) ^ n).
  { replace (1 - 2 / m) with ((1 - / m) * (1 - / m) * (1 - i * i)) by (unfold i; field; lra).
    rewrite !Rpow_mult_distr, <- EB. ring. }
  assert (D : b = (1 + i) ^ n * (b * b)).
  { assert (X : (1 + i) ^ n * b = 1); [|rewrite <- Rmult_assoc, X; ring].
    rewrite EB, <- Rpow_mult_distr. replace ((1 + i) * (1 - / m)) with 1 by (unfold i; field; lra). apply pow1. }
  rewrite C. rewrite D at 3.
  replace ((1 + i) ^ n * (b * b) + (m - 1) * (b * b * (1 - i * i) ^ n) - m * (b * b))
    with (((1 + i) ^ n + (m - 1) * (1 - i * i) ^ n - m) * (b * b)) by ring.
  apply Rmult_le_compat_r; [nra|].
  pose proof (pow_second i n ltac:(lra)) as P2. pose proof (pow_first (i * i) n ltac:(nra)) as P1.
  apply (Rmult_le_compat_l (m - 1)) in P1; [|lra].
  replace ((m - 1) * (1 - INR n * (i * i))) with (m - 1 - INR n * i * (i * (m - 1))) in P1 by ring. rewrite Ei in P1.
  assert (Y : 0 <= INR n * (INR n - 1)).
  { destruct n as [|k]; [cbn; lra|]. rewrite S_INR. pose proof (pos_INR k). nra. }
  assert (Q : (/ m) ^ 2 <= i ^ 2) by (apply pow_incr; lra).
  apply Rle_trans with (INR n * (INR n - 1) / 2 * i ^ 2); [|lra].
  unfold Rdiv at 1. rewrite <- pow_inv. apply Rmult_le_compat_l; lra.
Qed.

(** The logarithm, from below on [1, 2]. *)
Lemma ln_2_lower : 0.69 <= ln 2.
Proof.
  assert (E : / 2 <= exp (- (0.69))).
  { replace (- (0.69)) with (- (0.345) + - (0.345)) by lra. rewrite exp_plus. pose proof (exp_neg_lo 0.345 ltac:(lra)) as L. nra. }
  apply Ropp_le_cancel. rewrite <- ln_Rinv by lra. rewrite <- (ln_exp (- (0.69))). apply ln_le; [lra|exact E].
Qed.

Lemma ln_chord : forall s, 0 <= s <= 1 -> 0.69 * s <= ln (1 + s).
Proof.
  intros s Hs. pose proof ln_2_lower as L. apply Rle_trans with (s * ln 2); [nra|].
  rewrite <- (ln_exp (s * ln 2)). apply ln_le; [apply exp_pos|]. set (c := s * ln 2).
  pose proof (exp_ineq1_le (ln 2 - c)) as A. pose proof (exp_ineq1_le (0 - c)) as B. unfold Rminus in A, B. rewrite exp_plus in A, B.
  rewrite exp_ln in A by lra. rewrite exp_0, Rmult_1_l in B. pose proof (exp_pos c) as P.
  assert (E : exp (- c) * exp c = 1) by (rewrite <- exp_plus; replace (- c + c) with 0 by lra; apply exp_0).
  apply Rmult_le_reg_r with (exp (- c)); [apply exp_pos|]. rewrite (Rmult_comm (exp c)), E.
  assert (s * (1 + (ln 2 + - c)) <= s * (2 * exp (- c))) by (apply Rmult_le_compat_l; lra).
  assert ((1 - s) * (1 + (0 + - c)) <= (1 - s) * exp (- c)) by (apply Rmult_le_compat_l; lra).
  assert (s * (1 + (ln 2 + - c)) + (1 - s) * (1 + (0 + - c)) = 1) by (unfold c; ring). lra.
Qed.

Lemma ln_square_lower : forall r, 0 < r <= 2 -> 0.476 * (1 - r) ^ 2 <= ln r ^ 2.
Proof.
  intros r Hr. destruct (Rle_or_lt r 1) as [S|S].
  - pose proof (ln_below r ltac:(lra)). nra.
  - pose proof (ln_chord (r - 1) ltac:(lra)) as C. replace (1 + (r - 1)) with r in C by lra. nra.
Qed.

(** ** Linear counting *)
Section Linear.
Variables (W p : N) (n : nat).
Hypothesis Hp : (4 <= p)%N.
Hypothesis HW : (p < W)%N.
Hypothesis Hn : INR n <= m_R p / 2.
Variable all : list (list N).
Hypothesis HE : enumerates (hash_list W n) all.

Let m := m_R p.
Let mu := m * below p n 0.
Let r hs := empty W p hs / mu.

Lemma r_spread_lower : INR n * (INR n - 1) / 2 / m ^ 3 * INR (length all) <= rsum (fun hs => (1 - r hs) ^ 2) all.
Proof.
  assert (F : register_files W p n (file_of W p)) by (apply file_of_files; lia).
  destruct (mean_bounds W p n Hp Hn all HE) as (_ & M3 & _). pose proof (m_ge p Hp) as M. fold m in M, M3. fold mu in M3.
  pose proof (zeros_spread_exact W p n (file_of W p) all HW F HE) as S. fold m in S. fold mu in S.
  rewrite (rsum_ext _ (fun hs => / (mu * mu) * (empty W p hs - mu) ^ 2)).
  2:{ intros hs _. unfold r. field. lra. }
  rewrite rsum_scal. pose proof (zero_variance_lower p n Hp) as V. fold m in V. unfold empty. rewrite S.
  set (v := below p n 0 + (m - 1) * (1 - 2 / m) ^ n - m * (below p n 0 * below p n 0)) in *.
  rewrite <- Rmult_assoc. apply Rmult_le_compat_r; [apply pos_INR|].
  apply Rmult_le_reg_l with (mu * mu); [nra|]. rewrite <- Rmult_assoc, Rinv_r, Rmult_1_l by nra.
  apply Rle_trans with (m * (INR n * (INR n - 1) / 2 / m ^ 2 * (below p n 0 * below p n 0))).
  - apply Req_le. unfold mu. field. lra.
  - apply Rmult_le_compat_l; lra.
Qed.

Lemma linear_square_gen : ((m * - ln (mu / m) - INR n) ^ 2 + INR n * (INR n - 1) * (0.238 / m)) * INR (length all)
  <= rsum (fun hs => (counted W p hs - INR n) ^ 2) all.
Proof.
  pose proof (m_ge p Hp) as M. fold m in M. pose proof (centre W p n Hp Hn all HE) as [C1 C2]. fold m in C1, C2. fold mu in C1, C2.
  pose proof (pos_INR (length all)) as P. pose proof (r_mean W p n Hp HW Hn all HE) as RM. fold m in RM. fold mu in RM.
  pose proof r_spread_lower as RS. set (T := INR (length all)) in *.
  set (c := m * - ln (mu / m)) in *. set (b := c - INR n). assert (B : 0 <= b) by (unfold b; lra).
  apply Rle_trans with (rsum (fun hs => b ^ 2 + 2 * b * m * (1 - r hs) + (m ^ 2 * 0.476) * (1 - r hs) ^ 2) all).
  - rewrite rsum_plus, rsum_plus, rsum_const, !rsum_scal. fold T. change (rsum (fun hs => 1 - r hs) all) with (rsum (fun hs => 1 - empty W p hs / mu) all).
    rewrite RM. apply (Rmult_le_compat_l (m ^ 2 * 0.476)) in RS; [|pose proof (pow2_ge_0 m); lra].
    replace (m ^ 2 * 0.476 * (INR n * (INR n - 1) / 2 / m ^ 3 * T)) with (INR n * (INR n - 1) * (0.238 / m) * T) in RS.
    2:{ transitivity (0.238 * (INR n * (INR n - 1)) * T * (m ^ 2 * / m ^ 3)); [|unfold Rdiv; lra].
        replace (m ^ 2 * / m ^ 3) with (/ m) by (field; lra). unfold Rdiv. ring. }
    fold b. lra.
  - apply rsum_le. intros hs Hh. apply HE in Hh. rewrite (counted_r W p n Hp HW Hn all HE hs Hh). fold m. fold mu. fold c.
    destruct (ln_r W p n Hp HW Hn all HE hs Hh) as [[A1 _] _]. pose proof (r_bounds W p n Hp HW Hn all HE hs Hh) as RB.
    fold m in A1, RB. fold mu in A1, RB. cbv beta in A1, RB |- *. change (empty W p hs / mu) with (r hs) in *.
    pose proof (ln_square_lower (r hs) ltac:(lra)) as A3. set (q := 1 - r hs) in *. set (l := ln (r hs)) in *.
    replace (c - m * l - INR n) with (b + m * - l) by (unfold b; ring).
    replace ((b + m * - l) ^ 2) with (b ^ 2 + 2 * b * m * - l + m ^ 2 * l ^ 2) by ring.
    assert (0 <= 2 * b * m) by (apply Rmult_le_pos; lra). pose proof (pow2_ge_0 m).
    apply Rplus_le_compat; [apply Rplus_le_compat_l; apply Rmult_le_compat_l; assumption|].
    rewrite Rmult_assoc. apply Rmult_le_compat_l; assumption.
Qed.

Theorem linear_square_lower : INR n * (INR n - 1) * (0.238 / m) * INR (length all) <= rsum (fun hs => (counted W p hs - INR n) ^ 2) all.
Proof.
  eapply Rle_trans; [|exact linear_square_gen]. apply Rmult_le_compat_r; [apply pos_INR|].
  pose proof (pow2_ge_0 (m * - ln (mu / m) - INR n)). lra.
Qed.
End Linear.

(** Rounding, the other way round. *)
Lemma rounded_lower : forall c y N, 0 < N -> 0 <= y <= 2 * N -> approx (/ IZR (2 ^ 28)) c y ->
  0.999 * (y / N - 1) ^ 2 - / 10000000000000 <= (c / N - 1) ^ 2.
Proof.
  intros c y N HN Hy A. unfold approx in A. rewrite (Rabs_pos_eq y) in A by lra. apply Rabs_le_inv in A.
  change (IZR (2 ^ 28)) with 268435456 in *.
  set (a := y / N - 1). set (d := (c - y) / N).
  replace (c / N - 1) with (a + d) by (unfold a, d; field; lra).
  assert (D : - / 134217728 <= d <= / 134217728).
  { unfold d. split; [apply div_ge|apply div_le]; lra. }
  assert (D2 : d ^ 2 <= (/ 134217728) ^ 2) by nra.
  assert (0 <= (a + 1000 * d) ^ 2) by apply pow2_ge_0. nra.
Qed.

Theorem pf_square_lower : forall e p n C, build e -> accurate e -> (4 <= p <= 16)%N -> (0 < n)%nat -> INR n <= m_R p / 2 ->
  pf_program e p n C -> forall all, enumerates (hash_list 32 n) all ->
  0.237 * (1 - / INR n) / m_R p * INR (length all) <= rsum (fun hs => (C hs / INR n - 1) ^ 2) all.
Proof.
  intros e p n C Hb Ha Hp H0 Hn HC all HE. pose proof (m_R_bounds p ltac:(lia) ltac:(lia)) as M.
  pose proof (pos_INR (length all)) as P.
  destruct (Nat.eq_dec n 1) as [->|N1'].
  { change (INR 1) with 1. rewrite Rinv_1. replace (0.237 * (1 - 1) / m_R p * INR (length all)) with 0 by (unfold Rdiv; ring).
    rewrite <- (Rmult_0_r (INR (length all))), <- rsum_const. apply rsum_le. intros. apply pow2_ge_0. }
  assert (N2 : 2 <= INR n) by (change 2 with (INR 2); apply le_INR; lia).
  pose proof (linear_square_lower 32 p n ltac:(lia) ltac:(lia) Hn all HE) as S.
  apply Rle_trans with (rsum (fun hs => 0.999 * / INR n ^ 2 * (counted 32 p hs - INR n) ^ 2 + - / 10000000000000) all).
  - rewrite rsum_plus, rsum_const, rsum_scal. set (T := INR (length all)) in *.
    assert (I : 0 < 0.999 * / INR n ^ 2) by (assert (0 < / INR n ^ 2) by (apply Rinv_0_lt_compat, pow_lt; lra); lra).
    apply (Rmult_le_compat_l (0.999 * / INR n ^ 2)) in S; [|lra].
    replace (0.999 * / INR n ^ 2 * (INR n * (INR n - 1) * (0.238 / m_R p) * T)) with (0.999 * 0.238 * ((1 - / INR n) * / m_R p) * T) in S by (field; lra).
    assert (J : / 262144 <= / m_R p) by (apply Rinv_le_contravar; lra).
    assert (I2 : / 2 <= 1 - / INR n).
    { assert (/ INR n <= / 2) by (apply Rinv_le_contravar; lra). lra. }
    set (z := (1 - / INR n) * / m_R p) in *. assert (Z : / 524288 <= z) by (unfold z; nra).
    assert (K : 0.237 * z <= 0.999 * 0.238 * z + - / 10000000000000) by lra.
    apply (Rmult_le_compat_r T) in K; [|exact P]. unfold Rdiv. rewrite (Rmult_assoc 0.237). fold z. lra.
  - apply rsum_le. intros hs Hh. apply HE in Hh.
    pose proof (rounded_lower (C hs) (counted 32 p hs) (INR n) ltac:(lra) (counted_2n 32 p n hs ltac:(lia) ltac:(lia) Hn Hh)
      (pf_linear e p n C Hb Ha Hp Hn HC hs Hh)) as R.
    eapply Rle_trans; [|exact R]. apply Req_le. unfold Rminus at 2. f_equal. rewrite Rmult_assoc. f_equal. field. lra.
Qed.

(** ** A single value *)
Lemma ln_single : forall t, 0 <= t <= / 16 -> t + 0.4 * t ^ 2 <= - ln (1 - t).
Proof.
  intros t Ht. set (y := t + 0.4 * t ^ 2). assert (Y : 0 <= y) by (unfold y; nra).
  enough (ln (1 - t) <= - y) by lra. rewrite <- (ln_exp (- y)). apply ln_le; [lra|].
  eapply Rle_trans; [|apply (exp_neg_lo y Y)].
  assert (Y1 : t <= y <= 1.025 * t) by (unfold y; nra).
  assert (Y2 : t ^ 2 <= y ^ 2) by (apply pow_incr; lra).
  assert (Y3 : y ^ 3 <= (1.025 * t) ^ 3) by (apply pow_incr; lra).
  assert (0 <= t ^ 2 * (/ 16 - t)) by (apply Rmult_le_pos; [apply pow2_ge_0|lra]). unfold y at 1. nra.
Qed.

Lemma pf_single : forall e p C, build e -> accurate e -> (4 <= p <= 16)%N -> pf_program e p 1 C ->
  forall all, enumerates (hash_list 32 1) all -> / 40000000000 * INR (length all) <= rsum (fun hs => (C hs / INR 1 - 1) ^ 2) all.
Proof.
  intros e p C Hb Ha Hp HC all HE. assert (M : 16 <= m_R p <= 65536).
  { split; [apply m_ge; lia|]. change 65536 with (IZR (2 ^ 16)). unfold m_R. apply IZR_le, Z.pow_le_mono_r; lia. }
  pose proof (pos_INR (length all)) as P. assert (Hn : INR 1 <= m_R p / 2) by (cbn; lra).
  pose proof (linear_square_gen 32 p 1 ltac:(lia) ltac:(lia) Hn all HE) as S.
  assert (EB : below p 1 0 = 1 - / m_R p) by (unfold below; rewrite N.add_0_r, pow_1; reflexivity).
  rewrite EB in S. change (INR 1) with 1 in *. set (m := m_R p) in *. set (T := INR (length all)) in *.
  replace (m * (1 - / m) / m) with (1 - / m) in S by (field; lra).
  assert (J : / 65536 <= / m <= / 16) by (split; apply Rinv_le_contravar; lra).
  pose proof (ln_single (/ m) ltac:(lra)) as L. apply (Rmult_le_compat_l m) in L; [|lra].
  replace (m * (/ m + 0.4 * (/ m) ^ 2)) with (1 + 0.4 * / m) in L by (field; lra).
  assert (B : (0.4 / 65536) ^ 2 <= (m * - ln (1 - / m) - 1) ^ 2) by (apply pow_incr; lra).
  apply (Rmult_le_compat_r T) in B; [|exact P].
  apply Rle_trans with (rsum (fun hs => 0.999 * (counted 32 p hs - 1) ^ 2 + - / 10000000000000) all).
  - rewrite rsum_plus, rsum_const, rsum_scal. fold T. lra.
  - apply rsum_le. intros hs Hh. apply HE in Hh.
    pose proof (rounded_lower (C hs) (counted 32 p hs) 1 ltac:(lra) (counted_2n 32 p 1 hs ltac:(lia) ltac:(lia) Hn Hh)
      (pf_linear e p 1 C Hb Ha Hp Hn HC hs Hh)) as R. replace (counted 32 p hs / 1) with (counted 32 p hs) in R by lra. lra.
Qed.

Lemma plus_single : forall e p C, build_std e -> accurate e -> (4 <= p <= 16)%N -> plus_program e p 1 C ->
  (4 * N.of_nat 1 + 16 <= sparse_limit p)%N ->
  forall all, enumerates (hash_list 64 1) all -> rsum (fun hs => (C hs / INR 1 - 1) ^ 2) all <= / 500000000000 * INR (length all).
Proof.
  intros e p C Hb Ha Hp HC Hl all HE. pose proof (pos_INR (length all)) as P. set (T := INR (length all)) in *.
  assert (H3 : INR 1 <= 300000) by (cbn; lra).
  assert (L0 : rsum (lost 1) all = 0).
  { rewrite (lost_mean 1 all H3 HE). replace (INR 1 - m_R 25 + m_R 25 * below 25 1 0) with 0; [apply Rmult_0_l|].
    unfold below. rewrite N.add_0_r, pow_1. fold (m_R 25). change (INR 1) with 1. change (m_R 25) with 33554432. lra. }
  apply Rle_trans with (rsum (fun hs => 1.001 * lost 1 hs + / 600000000000) all).
  - apply rsum_le. intros hs Hh. apply HE in Hh.
    destruct (plus_two e p 1 C Hb Ha ltac:(lia) ltac:(lia) H3 HC hs Hh) as [(y & A & Y & R)|[B _]]; [|lia].
    destruct (rounded _ _ _ Rlt_0_1 Y R) as [_ S]. pose proof (as_sparse_square 1 ltac:(lia) hs y Hh A Y) as Q.
    pose proof (lost_pos 1 hs Hh) as LP. pose proof (empty_bounds 64 25 1 ltac:(lia) ltac:(lia) hs Hh) as [_ E].
    assert (LU : lost 1 hs <= 1).
    { unfold lost. unfold empty in E. change (m_R 25) with 33554432 in E. change (INR 1) with 1. lra. }
    change (INR 1) with 1 in *. change (IZR (2 ^ 25)) with 33554432 in *.
    assert (lost 1 hs ^ 2 <= lost 1 hs) by nra. replace (/ 1 ^ 2) with 1 in Q by field. lra.
  - rewrite rsum_plus, rsum_const, rsum_scal, L0. fold T. lra.
Qed.

(** ** Sparse sketches err less than linear counting at the same precision *)
Theorem sparse_better : forall e e' p n C D, build_std e -> accurate e -> build e' -> accurate e' -> (4 <= p <= 16)%N -> (0 < n)%nat ->
  (4 * N.of_nat n + 16 <= sparse_limit p)%N -> plus_program e p n C -> pf_program e' p n D ->
  forall all64 all32, enumerates (hash_list 64 n) all64 -> enumerates (hash_list 32 n) all32 ->
  10 * (rsum (fun hs => (C hs / INR n - 1) ^ 2) all64 / INR (length all64))
  <= rsum (fun hs => (D hs / INR n - 1) ^ 2) all32 / INR (length all32).
Proof.
  intros e e' p n C D Hb Ha Hb' Ha' Hp H0 Hl HC HD all64 all32 H64 H32.
  assert (M : 16 <= m_R p <= 65536).
  { split; [apply m_ge; lia|]. change 65536 with (IZR (2 ^ 16)). unfold m_R. apply IZR_le, Z.pow_le_mono_r; lia. }
  assert (T64 : 0 < INR (length all64)) by (rewrite (total_R 64 n) by assumption; apply pow2_pos; nia).
  assert (T32 : 0 < INR (length all32)) by (rewrite (total_R 32 n) by assumption; apply pow2_pos; nia).
  assert (Hn : INR n <= 0.2 * m_R p).
  { assert (Z : (5 * (4 * N.of_nat n + 16) <= 4 * 2 ^ p)%N).
    { unfold sparse_limit in Hl. pose proof (N.mul_div_le (4 * 2 ^ p) 5 ltac:(discriminate)). lia. }
    apply N2Z.inj_le, IZR_le in Z. rewrite !N2Z.inj_mul, N2Z.inj_add, N2Z.inj_mul, nat_N_Z, N2Z.inj_pow, !mult_IZR, plus_IZR, mult_IZR, <- INR_IZR_INZ in Z.
    change (IZR (Z.of_N 2 ^ Z.of_N p)) with (m_R p) in Z. cbn [Z.of_N] in Z. lra. }
  assert (Key : forall u v, rsum (fun hs => (C hs / INR n - 1) ^ 2) all64 <= u * INR (length all64) ->
    v * INR (length all32) <= rsum (fun hs => (D hs / INR n - 1) ^ 2) all32 -> 10 * u <= v ->
    10 * (rsum (fun hs => (C hs / INR n - 1) ^ 2) all64 / INR (length all64)) <= rsum (fun hs => (D hs / INR n - 1) ^ 2) all32 / INR (length all32)).
  { intros u v U V UV. apply Rle_trans with (10 * u); [apply Rmult_le_compat_l; [lra|]; apply div_le; lra|].
    apply Rle_trans with v; [exact UV|]. apply div_ge; lra. }
  destruct (Nat.eq_dec n 1) as [->|N1].
  { apply (Key (/ 500000000000) (/ 40000000000)); [now apply (plus_single e p)|now apply (pf_single e' p)|lra]. }
  assert (N2 : 2 <= INR n) by (change 2 with (INR 2); apply le_INR; lia).
  apply (Key (0.8 / IZR (2 ^ 25) + (1.15 * INR n / IZR (2 ^ 25)) ^ 2) (0.237 * (1 - / INR n) / m_R p)).
  - apply (sparse_square_all e p n C); auto. lia.
  - apply (pf_square_lower e' p n D); auto. lra.
  - change (IZR (2 ^ 25)) with 33554432. assert (J : / 65536 <= / m_R p) by (apply Rinv_le_contravar; lra).
    replace (0.237 * (1 - / INR n) / m_R p) with (0.237 * (1 - / INR n) * / m_R p) by reflexivity. destruct (Rle_or_lt (INR n) 100) as [S|S].
    + assert (/ INR n <= / 2) by (apply Rinv_le_contravar; lra). assert ((1.15 * INR n / 33554432) ^ 2 <= (115 / 33554432) ^ 2) by (apply pow_incr; lra).
      apply Rle_trans with (0.237 * (1 - / INR n) * / 65536); [lra|]. apply Rmult_le_compat_l; lra.
    + assert (/ INR n <= / 100) by (apply Rinv_le_contravar; lra). assert ((1.15 * INR n / 33554432) ^ 2 <= (1.15 * (0.2 * 65536) / 33554432) ^ 2) by (apply pow_incr; lra).
      apply Rle_trans with (0.237 * (1 - / INR n) * / 65536); [lra|]. apply Rmult_le_compat_l; lra.
Qed.

Lemma zeros_exact : forall W p n file all, (p < W)%N -> register_files W p n file ->
  enumerates (hash_list W n) all ->
  rsum (fun hs => (IZR (Z.of_N (zero_count (file hs))) - m_R p * (1 - / m_R p) ^ n) ^ 2) all
  = m_R p * ((1 - / m_R p) ^ n + (m_R p - 1) * (1 - 2 / m_R p) ^ n
             - m_R p * ((1 - / m_R p) ^ n * (1 - / m_R p) ^ n)) * INR (length all).
Proof.
  intros W p n file all Hp HF HE. pose proof (zeros_spread_exact W p n file all Hp HF HE) as H.
  assert (E : below p n 0 = (1 - / m_R p) ^ n) by (unfold below; rewrite N.add_0_r; reflexivity).
  rewrite E in H. exact H.
Qed.

Lemma compare_example : (4 * N.of_nat 1000 + 16 <= sparse_limit 16)%N /\ INR 1000 <= m_R 16 / 2 /\
  0.0019 ^ 2 <= 0.237 * (1 - / INR 1000) / m_R 16.
Proof.
  assert (E : INR 1000 = 1000) by (rewrite INR_IZR_INZ; reflexivity). rewrite E. change (m_R 16) with 65536.
  split; [vm_compute; discriminate|]. lra.
Qed.
