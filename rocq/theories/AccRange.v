(** * Accuracy of HyperLogLogPlus at every cardinality *)
From Coq Require Import NArith ZArith Reals List Bool Lia Lra.
From Flocq Require Import Core BinarySingleNaN.
From Verif Require Import ModelRust ModelF64 ModelEnv ModelConstants ModelHistory Spec SpecReal SpecCount SpecDist
  SpecProb SpecBuild BitFacts EncFacts CodeFacts AbsorbFacts DistFacts ProbFacts MomentFacts HarmonicNum
  PlusInv PFInv LinearFacts RawFacts FloatFacts SparseFacts MonoFacts ExtremeFacts ClaimFloat ClaimFacts ClaimDist
  BiasFacts HarmonicMean AccFacts AccSmall MeanTable BiasCheck BiasRun AccMid.
Import ListNotations.
Local Notation ln := Rpower.ln.
Local Open Scope R_scope.

Lemma m_10 : forall p, (10 <= p)%N -> 1024 <= m_R p.
Proof. intros p Hp. unfold m_R. rewrite two_pow. change 1024 with (bpow radix2 10). apply bpow_le. lia. Qed.

Lemma tables_checked : forall p, (9 <= p <= 18)%N -> table_check p = true.
Proof.
  intros p Hp. pose proof tables_run as R. rewrite forallb_forall in R. apply R.
  assert (C : (p = 9 \/ p = 10 \/ p = 11 \/ p = 12 \/ p = 13 \/ p = 14 \/ p = 15 \/ p = 16 \/ p = 17 \/ p = 18)%N) by lia.
  clear R. cbn [In]. intuition.
Qed.

(** ** The number of empty registers up to 2m *)
Lemma exp_eighth : forall y, 0 <= y -> 0 < 1 - y + y ^ 2 / 2 - y ^ 3 / 6 ->
  exp (8 * y) <= (/ (1 - y + y ^ 2 / 2 - y ^ 3 / 6)) ^ 8.
Proof.
  intros y Hy Q. pose proof (exp_neg_lo y Hy) as L. rewrite exp_Ropp in L. pose proof (exp_pos y) as P.
  replace (8 * y) with (INR 8 * y) by (simpl; lra). rewrite <- exp_pow. apply pow_incr. split; [lra|].
  rewrite <- (Rinv_inv (exp y)). apply Rinv_le_contravar; lra.
Qed.

Lemma exp_2 : exp 2.01 <= 7.5.
Proof.
  pose proof (exp_eighth 0.25125 ltac:(lra) ltac:(lra)) as E. replace (8 * 0.25125) with 2.01 in E by lra.
  eapply Rle_trans; [exact E|]. apply Rle_trans with ((/ 0.7776) ^ 8); [|lra].
  apply pow_incr. split; [left; apply Rinv_0_lt_compat; lra|]. apply Rinv_le_contravar; lra.
Qed.

Lemma exp_quad_2 : forall y, 0 <= y <= 2.01 -> exp y <= 1 + y + 1.15 * y ^ 2.
Proof.
  intros y Hy. destruct (Rle_or_lt y 1.43) as [L|L].
  - pose proof (exp_quad y ltac:(lra)). pose proof (pow2_ge_0 y). lra.
  - set (w := 2.01 - y). replace y with (2.01 + - w) at 1 by (unfold w; ring). rewrite exp_plus.
    assert (W : 0 <= w <= 0.58) by (unfold w; lra). pose proof (exp_neg_up w (proj1 W)) as E.
    pose proof exp_2 as E2. pose proof (exp_pos (- w)). pose proof (exp_pos 2.01).
    apply Rle_trans with (7.5 * (1 - w + w ^ 2 / 2)); [apply Rmult_le_compat; lra|].
    replace y with (2.01 - w) by (unfold w; ring). clearbody w. nra.
Qed.

Lemma zero_variance_2 : forall p n, (10 <= p)%N -> INR n <= 2 * m_R p ->
  below p n 0 + (m_R p - 1) * (1 - 2 / m_R p) ^ n - m_R p * (below p n 0 * below p n 0)
  <= 1.2 * (INR n / m_R p) ^ 2 * (below p n 0 * below p n 0).
Proof.
  intros p n Hp Hn. pose proof (m_10 p Hp) as M.
  pose proof (below_pos p n ltac:(lia)) as B. pose proof (below_exp p n ltac:(lia)) as [BL _].
  assert (EB : below p n 0 = (1 - / m_R p) ^ n) by (unfold below; rewrite N.add_0_r; reflexivity).
  set (m := m_R p) in *. set (b := below p n 0) in *. set (x := INR n / m) in *.
  assert (Hx : 0 <= x <= 2).
  { unfold x. split; [apply Rmult_le_pos; [apply pos_INR|left; apply Rinv_0_lt_compat; lra]|].
    apply div_le; lra. }
  assert (En : INR n = x * m) by (unfold x; field; lra).
  set (i := / (m - 1)). assert (I : 0 < i <= / 1023).
  { unfold i. split; [apply Rinv_0_lt_compat; lra|]. apply Rinv_le_contravar; lra. }
  assert (Ei : i * (m - 1) = 1) by (unfold i; apply Rinv_l; lra).
  set (u := INR n * (i * i)).
  assert (C : (1 - 2 / m) ^ n <= b * b * (1 - u + u ^ 2 / 2)).
  { replace (1 - 2 / m) with ((1 - / m) * (1 - / m) * (1 - i * i)).
    2:{ unfold i. field. lra. }
    rewrite !Rpow_mult_distr, <- EB. apply Rmult_le_compat_l; [nra|].
    apply Rle_trans with (exp (- (i * i)) ^ n).
    - apply pow_incr. split; [nra|]. pose proof (exp_ineq1_le (- (i * i))). lra.
    - rewrite exp_pow. replace (INR n * - (i * i)) with (- u) by (unfold u; ring). apply exp_neg_up.
      unfold u. apply Rmult_le_pos; [apply pos_INR|nra]. }
  assert (J : 0 < / m <= / 1024) by (split; [apply Rinv_0_lt_compat|apply Rinv_le_contravar]; lra).
  set (y := x * (1 + / m)) in *.
  assert (Hy : 0 <= y <= 2.01) by (unfold y; nra).
  assert (IB : / b <= 1 + y + 1.15 * y ^ 2).
  { eapply Rle_trans; [|now apply exp_quad_2]. rewrite exp_Ropp in BL. pose proof (exp_pos y).
    rewrite <- (Rinv_inv (exp y)). apply Rinv_le_contravar; [now apply Rinv_0_lt_compat|exact BL]. }
  assert (Eb : b = / b * (b * b)) by (field; lra).
  apply Rle_trans with ((/ b - 1 - (m - 1) * u + (m - 1) * (u ^ 2 / 2)) * (b * b)).
  { rewrite Eb at 1. apply (Rmult_le_compat_l (m - 1)) in C; [|lra]. nra. }
  apply Rmult_le_compat_r; [nra|].
  assert (U1 : y <= (m - 1) * u).
  { unfold u, y. rewrite En. replace ((m - 1) * (x * m * (i * i))) with (x * (m * i * (i * (m - 1)))) by ring.
    rewrite Ei, Rmult_1_r. apply Rmult_le_compat_l; [lra|].
    apply Rmult_le_reg_r with (m * (m - 1)); [nra|].
    replace ((1 + / m) * (m * (m - 1))) with ((m + 1) * (m - 1)) by (field; lra).
    replace (m * i * (m * (m - 1))) with (m * m * (i * (m - 1))) by ring. rewrite Ei. nra. }
  assert (U2 : (m - 1) * (u ^ 2 / 2) <= 0.04 * x ^ 2).
  { unfold u. rewrite En. replace ((m - 1) * ((x * m * (i * i)) ^ 2 / 2)) with (x ^ 2 * ((m * i) ^ 2 * i * (i * (m - 1)) / 2)) by field.
    rewrite Ei. assert (MI : 0 <= m * i <= 1.001).
    { split; [nra|]. replace (m * i) with (i * (m - 1) + i) by ring. lra. }
    assert (K : 0 <= (m * i) ^ 2 <= 1.01) by (split; [apply pow2_ge_0|nra]).
    set (k := (m * i) ^ 2) in *. clearbody k. pose proof (pow2_ge_0 x).
    rewrite (Rmult_comm 0.04). apply Rmult_le_compat_l; [lra|]. nra. }
  assert (Y2 : y ^ 2 <= 1.002 * x ^ 2).
  { unfold y. assert (0 <= (1 + / m) ^ 2 <= 1.002) by nra. rewrite Rpow_mult_distr. pose proof (pow2_ge_0 x). nra. }
  pose proof (pow2_ge_0 x). lra.
Qed.

Lemma zeros_are_rare_2 : forall W p n s, (10 <= p)%N -> (p < W)%N -> (0 < n)%nat -> INR n <= 2 * m_R p -> 0 < s ->
  rare W n (1.2 / (m_R p * s ^ 2)) (rare_zeros W p n (s * (INR n / m_R p))).
Proof.
  intros W p n s Hp HW H0 Hn Hs. pose proof (m_10 p Hp) as M.
  pose proof (below_pos p n ltac:(lia)) as B.
  assert (N1 : 0 < INR n) by now apply lt_0_INR.
  pose proof (zero_variance_2 p n Hp Hn) as V. set (m := m_R p) in *. set (x := INR n / m) in *.
  assert (Hx : 0 < x) by (apply Rdiv_lt_0_compat; lra).
  assert (T : 0 < s * x * (m * below p n 0)).
  { apply Rmult_lt_0_compat; [apply Rmult_lt_0_compat; [lra|exact Hx]|]. apply Rmult_lt_0_compat; lra. }
  eapply rare_weaken; [apply (zeros_rare W p n _ HW T)| |].
  - fold m. set (v := below p n 0 + (m - 1) * (1 - 2 / m) ^ n - m * (below p n 0 * below p n 0)) in *.
    set (b := below p n 0) in *. clearbody v b x.
    assert (T2 : 0 < (s * x * (m * b)) ^ 2) by now apply pow_lt.
    apply Rmult_le_reg_r with (1 := T2). unfold Rdiv. rewrite Rmult_assoc, Rinv_l, Rmult_1_r by lra.
    replace (1.2 * / (m * s ^ 2) * (s * x * (m * b)) ^ 2) with (m * (1.2 * x ^ 2 * (b * b))) by (field; lra).
    apply Rmult_le_compat_l; lra.
  - intros hs _ H. exact H.
Qed.

Lemma linear_bounds_2 : forall W p n s hs l, (10 <= p <= 18)%N -> (p < W)%N -> (0 < n)%nat -> INR n <= 2 * m_R p ->
  0 < s <= / 10 -> hash_list W n hs -> is_register_file W p hs l -> ~ rare_zeros W p n (s * (INR n / m_R p)) hs ->
  (zero_count l <> 0)%N /\
  INR n * (1 - s) <= linear_R (2 ^ p) (zero_count l) <= INR n * (1 + / m_R p + 1.25 * s).
Proof.
  intros W p n s hs l Hp HW H0 Hn Hs HH RF NR.
  pose proof (m_10 p (proj1 Hp)) as M. pose proof (below_pos p n ltac:(lia)) as B.
  pose proof (below_exp p n ltac:(lia)) as [BL BU].
  assert (N1 : 0 < INR n) by now apply lt_0_INR.
  unfold rare_zeros in NR.
  rewrite (is_register_file_unique W p hs _ l ltac:(lia) (file_of_ok W p hs ltac:(lia) (proj2 HH)) RF) in NR.
  apply Rnot_le_lt, Rabs_lt_inv in NR.
  set (v := IZR (Z.of_N (zero_count l))) in *.
  set (m := m_R p) in *. set (b := below p n 0) in *. set (x := INR n / m) in *.
  assert (Hx : 0 < x <= 2) by (split; [apply Rdiv_lt_0_compat|apply div_le]; lra).
  assert (En : INR n = m * x) by (unfold x; field; lra).
  set (t := s * x) in *. assert (Et : t = s * x) by reflexivity. assert (Ht : 0 < t <= 0.2) by (unfold t; nra).
  assert (MB : 0 < m * b) by nra.
  assert (Hv : m * b * (1 - t) < v < m * b * (1 + t)) by (split; lra).
  assert (V0 : 0 < v) by nra.
  split. { intros E. unfold v in V0. rewrite E in V0. change (IZR (Z.of_N 0)) with 0 in V0. lra. }
  unfold linear_R. replace (IZR (Z.of_N (2 ^ p))) with m by (unfold m, m_R; rewrite N2Z.inj_pow; reflexivity).
  fold v. rewrite En. clearbody v m b x t. clear RF HH NR H0 Hn.
  assert (LB : - (x * (1 + / m)) <= ln b <= - x).
  { split.
    - rewrite <- (ln_exp (- (x * (1 + / m)))). apply ln_le; [apply exp_pos|exact BL].
    - rewrite <- (ln_exp (- x)). apply ln_le; [lra|exact BU]. }
  assert (E1 : ln (m / v) = ln m - ln v) by (unfold Rdiv; rewrite ln_mult, ln_Rinv by (try apply Rinv_0_lt_compat; lra); lra).
  assert (L1 : ln m + ln b + ln (1 - t) <= ln v).
  { rewrite <- !ln_mult by nra. apply ln_le; nra. }
  assert (L2 : ln v <= ln m + ln b + ln (1 + t)).
  { rewrite <- !ln_mult by nra. apply ln_le; nra. }
  assert (T1 : ln (1 + t) <= t).
  { pose proof (exp_ineq1_le t). rewrite <- (ln_exp t) at 2. apply ln_le; lra. }
  assert (T2 : - (1.25 * t) <= ln (1 - t)).
  { replace (1 - t) with (/ (1 + t / (1 - t))) by (field; lra). rewrite ln_Rinv.
    2:{ assert (0 < t / (1 - t)) by (apply Rdiv_lt_0_compat; lra). lra. }
    apply Ropp_le_contravar.
    assert (D : 0 < t / (1 - t) <= 1.25 * t) by (split; [apply Rdiv_lt_0_compat|apply div_le]; nra).
    pose proof (exp_ineq1_le (t / (1 - t))). apply Rle_trans with (t / (1 - t)); [|lra].
    rewrite <- (ln_exp (t / (1 - t))) at 2. apply ln_le; lra. }
  assert (J : 0 < / m) by (apply Rinv_0_lt_compat; lra).
  rewrite E1. split.
  - rewrite Rmult_assoc. apply Rmult_le_compat_l; [lra|]. lra.
  - rewrite Rmult_assoc. apply Rmult_le_compat_l; [lra|]. lra.
Qed.

(** ** The sparse representation *)
Lemma lost_rare_2 : forall p n t, (10 <= p <= 18)%N -> (0 < n)%nat -> INR n <= 2 * m_R p -> 0 < t ->
  rare 64 n (0.01 / (m_R p * t ^ 2)) (fun hs => INR n * (0.0079 + t) <= lost n hs).
Proof.
  intros p n t Hp H0 Hn Ht. pose proof (m_10 p (proj1 Hp)) as M.
  pose proof (m_R_bounds p ltac:(lia) ltac:(lia)) as MB. assert (N1 : 0 < INR n) by now apply lt_0_INR.
  assert (E25 : m_R 25 = 33554432) by reflexivity.
  eapply rare_weaken; [apply (zeros_are_rare_2 64 25 n t); try lia; [rewrite E25; lra|exact Ht]| |].
  - rewrite E25. assert (0 < t ^ 2) by now apply pow_lt. set (s := t ^ 2) in *. clearbody s.
    apply div_le; [nra|]. unfold Rdiv. rewrite Rmult_assoc.
    replace (/ (m_R p * s) * (33554432 * s)) with (33554432 / m_R p) by (field; lra).
    apply Rle_trans with (0.01 * 128); [lra|]. apply Rmult_le_compat_l; [lra|]. apply div_ge; lra.
  - intros hs HH L. unfold rare_zeros. rewrite E25. eapply Rle_trans; [|apply Rle_abs].
    unfold lost in L. destruct (below_exp 25 n ltac:(lia)) as [_ B]. rewrite E25 in B.
    pose proof (below_pos 25 n ltac:(lia)) as B0.
    set (z := IZR (Z.of_N (zero_count (file_of 64 25 hs)))) in *. clearbody z.
    set (b := below 25 n 0) in *. clearbody b. set (x := INR n) in *.
    assert (X : 0 < x <= 524288) by lra. clearbody x.
    pose proof (exp_neg_up (x / 33554432) ltac:(lra)) as U.
    assert (B1 : b <= 1). { eapply Rle_trans; [exact B|]. nra. }
    assert (B2 : 33554432 * b <= 33554432 - x + 0.0079 * x) by nra.
    assert (t * (x / 33554432) * (33554432 * b) <= t * x).
    { replace (t * (x / 33554432) * (33554432 * b)) with (t * x * b) by field. assert (0 < t * x) by nra. nra. }
    lra.
Qed.

(** In sparse representation. *)
Lemma sparse_count : forall p L c, (10 <= p <= 18)%N -> (gap_len 0 L <= sparse_limit p)%N ->
  approx (/ IZR (2 ^ 28)) c (linear_R (2 ^ 24) (2 ^ 24 - N.of_nat (length L))) ->
  INR (length L) * 0.99999 <= c <= INR (length L) * 1.013.
Proof.
  intros p L c Hp S A. pose proof (m_R_bounds p ltac:(lia) ltac:(lia)) as MB.
  assert (K : INR (length L) <= 0.8 * m_R p).
  { pose proof (gap_len_length L 0) as G. unfold sparse_limit in S.
    assert (N2 : (5 * N.of_nat (length L) <= 4 * 2 ^ p)%N).
    { pose proof (N.mul_div_le (4 * 2 ^ p) 5 ltac:(discriminate)). lia. }
    apply N2Z.inj_le, IZR_le in N2. rewrite !N2Z.inj_mul, !mult_IZR, N2Z.inj_pow, nat_N_Z, <- INR_IZR_INZ in N2.
    change (IZR (Z.of_N 2 ^ Z.of_N p)) with (m_R p) in N2. change (IZR (Z.of_N 5)) with 5 in N2.
    change (IZR (Z.of_N 4)) with 4 in N2. lra. }
  pose proof (linear_24 (length L) (length L) (le_n _) ltac:(lra)) as [L1 L2].
  pose proof (pos_INR (length L)) as P. unfold approx in A. rewrite (Rabs_pos_eq (linear_R _ _)) in A by lra.
  apply Rabs_le_inv in A. change (IZR (2 ^ 28)) with 268435456 in A. change (IZR (2 ^ 24)) with 16777216 in L2.
  assert (16777216 / (16777216 - INR (length L)) <= 1.0128) by (apply div_le; lra).
  set (k := INR (length L)) in *. set (r := linear_R (2 ^ 24) (2 ^ 24 - N.of_nat (length L))) in *. clearbody k r. nra.
Qed.

(** ** The corrected estimate *)
Lemma rare_false : forall W n d, 0 <= d -> rare W n d (fun _ => False).
Proof.
  intros W n d Hd l D B. destruct l as [|x l]; [|destruct (B x (or_introl eq_refl)); contradiction].
  apply Rmult_le_pos; [exact Hd|]. apply IZR_le, Z.pow_nonneg. lia.
Qed.

(** Outside [bad] the corrected estimate is accurate. *)
Definition corrected_unless (p : N) (n : nat) (t : R) (bad : list N -> Prop) : Prop :=
  (forall hs, bad hs \/ ~ bad hs) /\
  forall hs fl c, hash_list 64 n hs -> is_register_file 64 p hs fl -> ~ bad hs ->
  0.5391 * m_R p <= INR n -> corrected_R (reals (est_table p)) (reals (bias_table p)) p fl c ->
  INR n * (0.989 - 1.75 * t) <= c <= INR n * (1.011 + 1.75 * t).

Lemma corrected_or_small : forall p n t, (10 <= p <= 18)%N -> 0 < t <= / 10 -> INR n <= 6.06 * m_R p ->
  exists bad, rare 64 n (/ (m_R p * t ^ 2)) bad /\ corrected_unless p n t bad.
Proof.
  intros p n t Hp Ht Hn. destruct (Rle_or_lt (0.5391 * m_R p) (INR n)) as [L|L].
  - destruct (corrected_accurate p n t Hp (tables_checked p ltac:(lia)) Ht (conj L Hn)) as (q & _ & R & C).
    exists (rare_harmonic 64 p n (q * t)). split; [exact R|]. split.
    + intros hs. unfold rare_harmonic. destruct (Rle_dec (q * t * (m_R p * mean 64 p n inv_pow2))
        (Rabs (inv_sum (file_of 64 p hs) - m_R p * mean 64 p n inv_pow2))); auto.
    + intros hs fl c HH RF NB _ CR. apply (C hs fl c HH RF NB CR).
  - exists (fun _ => False). split; [|split; [auto|intros; lra]].
    apply rare_false. left. apply Rinv_0_lt_compat. pose proof (m_10 p (proj1 Hp)).
    apply Rmult_lt_0_compat; [lra|apply pow_lt; lra].
Qed.

Lemma threshold_ge : forall p, (10 <= p <= 18)%N -> 0.61 * m_R p <= threshold_R p.
Proof.
  intros p Hp. assert (C : (p = 10 \/ p = 11 \/ p = 12 \/ p = 13 \/ p = 14 \/ p = 15 \/ p = 16 \/ p = 17 \/ p = 18)%N) by lia.
  unfold m_R, threshold_R. repeat (destruct C as [-> |C]); try (rewrite C); simpl; lra.
Qed.

(** ** Up to 2m *)
Theorem plus_low_point : forall e p n t bad hs, build_std e -> accurate e -> (10 <= p <= 18)%N -> 0 < t <= / 10 ->
  (0 < n)%nat -> INR n <= 2 * m_R p -> corrected_unless p n t bad -> hash_list 64 n hs ->
  ~ bad hs -> ~ rare_zeros 64 p n (t * (INR n / m_R p)) hs -> lost n hs < INR n * (0.0079 + t) ->
  plus_counts e p (INR n * (0.985 - 1.75 * t)) (INR n * (1.015 + 1.75 * t)) hs.
Proof.
  intros e p n t bad hs Hb Ha Hp Ht H0 Hn [Dec C] HH B Z LO.
  pose proof (m_10 p (proj1 Hp)) as M. assert (N1 : 0 < INR n) by now apply lt_0_INR.
  assert (J : 0 < / m_R p <= / 1024) by (split; [apply Rinv_0_lt_compat|apply Rinv_le_contravar]; lra).
  intros V ord h Hv Hnr Ho Ep SS.
  destruct (plus_value V e ord h Hb Ha Hv Hnr Ho) as (c & E & F & P). exists c. split; [exact E|]. split; [exact F|].
  rewrite Ep in P. destruct P as (L & HL & P).
  destruct P as [[G P]|[_ (l & RF & P)]].
  + destruct (lost_codes p n _ hs L _ HH SS HL LO) as [B1 B2]. pose proof (sparse_count p L (B2R c) Hp G P) as SC.
    set (k := INR (length L)) in *. set (x := INR n) in *. clearbody k x. split.
    * apply Rle_trans with (k * 0.99999); [|lra]. apply Rle_trans with (x * (1 - (0.0079 + t)) * 0.99999); [|lra].
      rewrite Rmult_assoc. apply Rmult_le_compat_l; lra.
    * apply Rle_trans with (x * 1.013); [lra|]. apply Rmult_le_compat_l; lra.
  + pose proof (register_file_same 64 p (hist_hashes h) hs l SS RF) as RF'.
    destruct (linear_bounds_2 64 p n t hs l Hp ltac:(lia) H0 Hn Ht HH RF' Z) as (Z0 & LL).
    destruct P as [(_ & _ & P)|(P & CR)].
    * set (r := linear_R (2 ^ p) (zero_count l)) in *.
      assert (R0 : 0 <= r) by (assert (0 <= INR n * (1 - t)) by (apply Rmult_le_pos; lra); lra).
      unfold approx in P. rewrite (Rabs_pos_eq r) in P by exact R0. apply Rabs_le_inv in P.
      change (IZR (2 ^ 28)) with 268435456 in P. set (x := INR n) in *. set (i := / m_R p) in *. clearbody r x i.
      assert (r * (1 - / 268435456) <= B2R c <= r * (1 + / 268435456)) by lra. split.
      -- apply Rle_trans with (x * (1 - t) * (1 - / 268435456)); [|nra].
         rewrite Rmult_assoc. apply Rmult_le_compat_l; lra.
      -- apply Rle_trans with (x * (1 + i + 1.25 * t) * (1 + / 268435456)); [nra|].
         rewrite Rmult_assoc. apply Rmult_le_compat_l; [lra|]. nra.
    * assert (X : 0.5391 * m_R p <= INR n).
      { destruct P as [P|P]; [congruence|]. apply Rnot_lt_le. intros SM. pose proof (threshold_ge p Hp) as T.
        assert (INR n * (1 + / m_R p + 1.25 * t) <= 0.5391 * m_R p * 1.126) by (apply Rmult_le_compat; lra). lra. }
      destruct (C hs l (B2R c) HH RF' B X CR) as [C1 C2]. split.
      -- eapply Rle_trans; [|exact C1]. apply Rmult_le_compat_l; lra.
      -- eapply Rle_trans; [exact C2|]. apply Rmult_le_compat_l; lra.
Qed.

Theorem plus_low_gen : forall e p n t bad d1 d2 d3, build_std e -> accurate e -> (10 <= p <= 18)%N -> 0 < t <= / 10 ->
  (0 < n)%nat -> INR n <= 2 * m_R p -> rare 64 n d1 bad -> corrected_unless p n t bad ->
  rare 64 n d2 (rare_zeros 64 p n (t * (INR n / m_R p))) ->
  rare 64 n d3 (fun hs => INR n * (0.0079 + t) <= lost n hs) ->
  rare 64 n (d1 + (d2 + d3))
    (fun hs => ~ plus_counts e p (INR n * (0.985 - 1.75 * t)) (INR n * (1.015 + 1.75 * t)) hs).
Proof.
  intros e p n t bad d1 d2 d3 Hb Ha Hp Ht H0 Hn R HC RZ RL. destruct (HC) as [Dec _].
  assert (DZ : forall hs, rare_zeros 64 p n (t * (INR n / m_R p)) hs \/ ~ rare_zeros 64 p n (t * (INR n / m_R p)) hs).
  { intros hs. unfold rare_zeros. destruct (Rle_dec (t * (INR n / m_R p) * (m_R p * below p n 0))
      (Rabs (IZR (Z.of_N (zero_count (file_of 64 p hs))) - m_R p * below p n 0))); auto. }
  eapply rare_weaken; [apply (rare_or _ _ _ _ _ _ R (rare_or _ _ _ _ _ _ RZ RL DZ) Dec)|apply Rle_refl|].
  intros hs HH NC. destruct (Dec hs) as [B|B]; [left; exact B|right].
  destruct (DZ hs) as [Z|Z]; [left; exact Z|right]. apply Rnot_lt_le. intros LO. apply NC.
  now apply (plus_low_point e p n t bad).
Qed.

Theorem plus_low : forall e p n t, build_std e -> accurate e -> (10 <= p <= 18)%N -> 0 < t <= / 10 ->
  (0 < n)%nat -> INR n <= 2 * m_R p ->
  rare 64 n (2.21 / (m_R p * t ^ 2))
    (fun hs => ~ plus_counts e p (INR n * (0.985 - 1.75 * t)) (INR n * (1.015 + 1.75 * t)) hs).
Proof.
  intros e p n t Hb Ha Hp Ht H0 Hn. pose proof (m_10 p (proj1 Hp)) as M.
  destruct (corrected_or_small p n t Hp Ht ltac:(lra)) as (bad & R & C).
  pose proof (zeros_are_rare_2 64 p n t ltac:(lia) ltac:(lia) H0 Hn ltac:(lra)) as RZ.
  pose proof (lost_rare_2 p n t Hp H0 Hn ltac:(lra)) as RL.
  eapply rare_weaken; [apply (plus_low_gen e p n t bad _ _ _ Hb Ha Hp Ht H0 Hn R C RZ RL)| |auto].
  apply Req_le. unfold Rdiv. lra.
Qed.

(** ** From 2m on *)
Lemma exp_134 : exp 1.34 < 5.
Proof.
  pose proof (exp_eighth 0.1675 ltac:(lra) ltac:(lra)) as E. replace (8 * 0.1675) with 1.34 in E by lra.
  eapply Rle_lt_trans; [exact E|]. apply Rle_lt_trans with ((/ 0.84) ^ 8); [|lra].
  apply pow_incr. split; [left; apply Rinv_0_lt_compat; lra|]. apply Rinv_le_contravar; lra.
Qed.

Lemma linear_past_2 : forall p v, (4 <= p <= 18)%N -> (v <> 0)%N -> IZR (Z.of_N v) < 0.2 * m_R p ->
  threshold_R p < linear_R (2 ^ p) v.
Proof.
  intros p v Hp Hv B. pose proof (threshold_le p Hp) as T. pose proof (m_R_bounds p (proj1 Hp) (proj2 Hp)) as M.
  unfold linear_R. replace (IZR (Z.of_N (2 ^ p))) with (m_R p) by (unfold m_R; rewrite N2Z.inj_pow; reflexivity).
  apply Rle_lt_trans with (m_R p * 1.34); [lra|]. apply Rmult_lt_compat_l; [lra|].
  assert (V : 1 <= IZR (Z.of_N v)) by (apply IZR_le; lia).
  apply Rlt_le_trans with (ln 5).
  - rewrite <- (ln_exp 1.34). apply ln_increasing; [apply exp_pos|exact exp_134].
  - apply ln_le; [lra|]. apply div_ge; lra.
Qed.

Definition many_zeros (p : N) (hs : list N) : Prop := 0.2 * m_R p <= IZR (Z.of_N (zero_count (file_of 64 p hs))).

Lemma exp_minus_2 : exp (- 2) <= 0.1362.
Proof.
  assert (D : exists d, d = 0.125) by eauto. destruct D as [d Hd].
  pose proof (exp_neg_up d ltac:(lra)) as E. pose proof (exp_pos (- d)) as EP.
  replace (-2) with (INR 16 * - d) by (simpl; lra). rewrite <- exp_pow.
  apply Rle_trans with (0.8828125 ^ 16); [|lra]. apply pow_incr. split; [lra|]. rewrite Hd in E at 2 3. lra.
Qed.

Lemma many_zeros_rare : forall p n t, (10 <= p <= 18)%N -> 0 < t <= / 10 -> 2 * m_R p <= INR n ->
  rare 64 n (0.34 / (m_R p * t ^ 2)) (many_zeros p).
Proof.
  intros p n t Hp Ht Hn. pose proof (m_10 p (proj1 Hp)) as M. pose proof (below_pos p n ltac:(lia)) as B.
  pose proof (below_exp p n ltac:(lia)) as [_ BU].
  assert (X2 : 2 <= INR n / m_R p) by (apply div_ge; lra).
  assert (B2 : below p n 0 <= 0.1362).
  { eapply Rle_trans; [exact BU|]. apply Rle_trans with (exp (- 2)); [apply exp_le; lra|exact exp_minus_2]. }
  assert (EB : below p n 0 = (1 - / m_R p) ^ n) by (unfold below; rewrite N.add_0_r; reflexivity).
  set (m := m_R p) in *.
  assert (J : 0 < / m <= / 1024) by (split; [apply Rinv_0_lt_compat|apply Rinv_le_contravar]; lra).
  assert (C : (1 - 2 / m) ^ n <= below p n 0 * below p n 0).
  { rewrite EB, <- Rpow_mult_distr. apply pow_incr. unfold Rdiv. nra. }
  set (b := below p n 0) in *. assert (T0 : 0 < (0.2 - b) * m) by nra.
  assert (P2 : 0 < t ^ 2 <= 0.01) by (split; [apply pow_lt; lra|nra]).
  eapply rare_weaken; [apply (zeros_rare 64 p n ((0.2 - b) * m)); [lia|exact T0]| |].
  - fold m b. set (w := (1 - 2 / m) ^ n) in *. clearbody w b.
    apply Rle_trans with (m * b / ((0.2 - b) * m) ^ 2).
    + apply Rmult_le_compat_r; [left; apply Rinv_0_lt_compat, pow_lt, T0|]. apply Rmult_le_compat_l; [lra|].
      assert (0 <= b * b) by nra. assert ((m - 1) * w <= (m - 1) * (b * b)) by (apply Rmult_le_compat_l; lra). lra.
    + replace (m * b / ((0.2 - b) * m) ^ 2) with (b / (0.2 - b) ^ 2 / m) by (field; lra).
      apply Rle_trans with (34 / m).
      * apply Rmult_le_compat_r; [lra|]. apply div_le; [apply pow_lt; lra|]. nra.
      * unfold Rdiv. rewrite Rinv_mult. set (i := / m) in *.
        assert (100 <= / t ^ 2). { rewrite <- (Rinv_inv 100). apply Rinv_le_contravar; lra. }
        assert (34 * i <= 0.34 * i * / t ^ 2); [|lra].
        replace (34 * i) with (0.34 * i * 100) by lra. apply Rmult_le_compat_l; lra.
  - intros hs _ Q. unfold many_zeros in Q. fold m b in Q |- *. eapply Rle_trans; [|apply Rle_abs]. lra.
Qed.

Theorem plus_mid_point : forall e p n t bad hs, build_std e -> accurate e -> (10 <= p <= 18)%N -> 0 < t <= / 10 ->
  2 * m_R p <= INR n <= 6.06 * m_R p -> corrected_unless p n t bad -> hash_list 64 n hs ->
  ~ bad hs -> ~ many_zeros p hs ->
  plus_counts e p (INR n * (0.985 - 1.75 * t)) (INR n * (1.015 + 1.75 * t)) hs.
Proof.
  intros e p n t bad hs Hb Ha Hp Ht Hn [Dec C] HH B Z. pose proof (m_10 p (proj1 Hp)) as M.
  apply Rnot_le_lt in Z.
  intros V ord h Hv Hnr Ho Ep SS.
  destruct (plus_value V e ord h Hb Ha Hv Hnr Ho) as (c & E & F & P). exists c. split; [exact E|]. split; [exact F|].
  rewrite Ep in P. destruct P as (L & HL & P).
  pose proof (file_of_ok 64 p hs ltac:(lia) (proj2 HH)) as RF0.
  destruct P as [[G P]|[_ (l & RF & P)]].
  + exfalso. pose proof (register_file_same 64 p hs (hist_hashes h) _ (fun x => iff_sym (SS x)) RF0) as RF1.
    pose proof (nonzero_codes p p _ _ L ltac:(lia) RF1 HL) as N3.
    pose proof (gap_len_length L 0) as GL. unfold sparse_limit in G.
    assert (N2 : (5 * N.of_nat (length L) <= 4 * 2 ^ p)%N).
    { pose proof (N.mul_div_le (4 * 2 ^ p) 5 ltac:(discriminate)). lia. }
    assert (N4 : (2 ^ p <= 5 * zero_count (file_of 64 p hs))%N) by lia.
    apply N2Z.inj_le, IZR_le in N4. rewrite N2Z.inj_mul, mult_IZR, N2Z.inj_pow in N4.
    change (IZR (Z.of_N 2 ^ Z.of_N p)) with (m_R p) in N4. change (IZR (Z.of_N 5)) with 5 in N4. lra.
  + pose proof (register_file_same 64 p (hist_hashes h) hs l SS RF) as RF'.
    rewrite (is_register_file_unique 64 p hs _ l ltac:(lia) RF0 RF') in Z.
    destruct P as [(Nz & T & _)|(_ & CR)].
    { exfalso. pose proof (linear_past_2 p _ ltac:(lia) Nz Z). lra. }
    destruct (C hs l (B2R c) HH RF' B ltac:(lra) CR) as [C1 C2]. pose proof (pos_INR n). split.
    -- eapply Rle_trans; [|exact C1]. apply Rmult_le_compat_l; lra.
    -- eapply Rle_trans; [exact C2|]. apply Rmult_le_compat_l; lra.
Qed.

Theorem plus_mid_gen : forall e p n t bad d1 d2, build_std e -> accurate e -> (10 <= p <= 18)%N -> 0 < t <= / 10 ->
  2 * m_R p <= INR n <= 6.06 * m_R p -> rare 64 n d1 bad -> corrected_unless p n t bad -> rare 64 n d2 (many_zeros p) ->
  rare 64 n (d1 + d2)
    (fun hs => ~ plus_counts e p (INR n * (0.985 - 1.75 * t)) (INR n * (1.015 + 1.75 * t)) hs).
Proof.
  intros e p n t bad d1 d2 Hb Ha Hp Ht Hn R HC RZ. destruct (HC) as [Dec _].
  eapply rare_weaken; [apply (rare_or _ _ _ _ _ _ R RZ Dec)|apply Rle_refl|].
  intros hs HH NC. destruct (Dec hs) as [B|B]; [left; exact B|right]. apply Rnot_lt_le. intros Z. apply NC.
  apply (plus_mid_point e p n t bad); auto. unfold many_zeros. lra.
Qed.

Theorem plus_mid : forall e p n t, build_std e -> accurate e -> (10 <= p <= 18)%N -> 0 < t <= / 10 ->
  2 * m_R p <= INR n <= 6.06 * m_R p ->
  rare 64 n (1.34 / (m_R p * t ^ 2))
    (fun hs => ~ plus_counts e p (INR n * (0.985 - 1.75 * t)) (INR n * (1.015 + 1.75 * t)) hs).
Proof.
  intros e p n t Hb Ha Hp Ht Hn. destruct (corrected_or_small p n t Hp Ht (proj2 Hn)) as (bad & R & C).
  pose proof (many_zeros_rare p n t Hp Ht (proj1 Hn)) as RZ.
  eapply rare_weaken; [apply (plus_mid_gen e p n t bad _ _ Hb Ha Hp Ht Hn R C RZ)| |auto].
  apply Req_le. unfold Rdiv. lra.
Qed.

(** ** Every cardinality *)
Theorem plus_everywhere : forall e p n t, build_std e -> accurate e -> (10 <= p <= 18)%N -> 0 < t <= / 10 ->
  (0 < n)%nat -> INR n <= IZR (2 ^ 59) ->
  rare 64 n (2.21 / (m_R p * t ^ 2))
    (fun hs => ~ plus_counts e p (INR n * (0.985 - 1.75 * t)) (INR n * (1.015 + 1.75 * t)) hs).
Proof.
  intros e p n t Hb Ha Hp Ht H0 Hn. pose proof (m_10 p (proj1 Hp)) as M. pose proof (pos_INR n) as PN.
  assert (P2 : 0 < m_R p * t ^ 2) by (apply Rmult_lt_0_compat; [lra|apply pow_lt; lra]).
  assert (W : forall a, a <= 2.21 -> a / (m_R p * t ^ 2) <= 2.21 / (m_R p * t ^ 2)).
  { intros a H. apply Rmult_le_compat_r; [left; now apply Rinv_0_lt_compat|exact H]. }
  destruct (Rle_or_lt (INR n) (2 * m_R p)) as [L|L]; [now apply plus_low|].
  destruct (Rle_or_lt (INR n) (6.06 * m_R p)) as [L2|L2].
  - eapply rare_weaken; [apply (plus_mid e p n t); auto; lra|apply W; lra|auto].
  - assert (LO : 5.5 * (1 + t) * m_R p <= INR n).
    { apply Rle_trans with (5.5 * 1.1 * m_R p); [apply Rmult_le_compat_r; lra|lra]. }
    eapply rare_weaken; [apply (plus_large_10 e p n t Hb Ha Hp ltac:(lra) LO Hn)|apply W; lra|].
    + intros hs _ NC PC. apply NC. eapply plus_counts_weaken; [exact PC| |].
      * assert (I1 : 1 - t <= / (1 + t)). { apply Rmult_le_reg_r with (1 + t); [lra|]. rewrite Rinv_l by lra. nra. }
        unfold Rdiv. replace (0.996 * INR n * / (1 + t)) with (INR n * (0.996 * / (1 + t))) by ring.
        apply Rmult_le_compat_l; lra.
      * assert (I2 : / (1 - t) <= 1 + 1.12 * t). { apply Rmult_le_reg_r with (1 - t); [lra|]. rewrite Rinv_l by lra. nra. }
        unfold Rdiv. replace (1.004 * INR n * / (1 - t)) with (INR n * (1.004 * / (1 - t))) by ring.
        apply Rmult_le_compat_l; lra.
Qed.
