(** * Accuracy of linear counting and of the sparse representation for most hash assignments *)
From Coq Require Import NArith ZArith Reals List Bool Lia Lra Permutation Sorted.
From Flocq Require Import Core BinarySingleNaN.
From Verif Require Import ModelRust ModelF64 ModelEnv ModelConstants ModelHistory Spec SpecReal SpecCount SpecDist
  SpecProb SpecBuild BitFacts EncFacts CodeFacts AbsorbFacts DistFacts ProbFacts MomentFacts HarmonicNum
  PlusInv PFInv LinearFacts RawFacts FloatFacts SparseFacts MonoFacts ExtremeFacts ClaimFloat ClaimFacts ClaimDist
  HarmonicMean AccFacts.
Import ListNotations.
Local Notation ln := Rpower.ln.
Local Open Scope R_scope.

Lemma markov : forall W n all (G : list N -> R) v t, enumerates (hash_list W n) all ->
  0 < t -> (forall hs, In hs all -> 0 <= G hs) -> rsum G all <= v * INR (length all) ->
  rare W n (v / t) (fun hs => t <= G hs).
Proof.
  intros W n all G v t E Ht P V l D B. rewrite <- (total_R W n all E).
  apply Rmult_le_reg_r with (1 := Ht).
  replace (v / t * INR (length all) * t) with (v * INR (length all)) by (field; lra).
  eapply Rle_trans; [|exact V]. apply Rle_trans with (rsum G l).
  - rewrite <- (rsum_const t l). apply rsum_le. intros hs Hh. apply (B hs Hh).
  - apply rsum_incl; [exact D| |exact P]. intros hs Hh. apply E, B, Hh.
Qed.

Lemma exp_le : forall x y, x <= y -> exp x <= exp y.
Proof. intros x y [H| ->]; [left; now apply exp_increasing|apply Rle_refl]. Qed.

(** ** The number of empty registers *)
Lemma psum_first : forall f n, (forall k, (0 < k)%nat -> f k = 0) -> psum f (S n) = f O.
Proof.
  intros f n H. induction n; [cbn; lra|]. change (psum f (S (S n))) with (psum f (S n) + f (S n)).
  rewrite IHn, (H (S n)) by lia. lra.
Qed.

Lemma mean_zero : forall W p n, mean W p n (ind 0) = below p n 0.
Proof.
  intros W p n. unfold mean. rewrite rsum_range.
  replace (N.to_nat (W - p + 1)) with (S (N.to_nat (W - p))) by lia. rewrite psum_first.
  - unfold ind. destruct (N.leb_spec (W - p + 1) 0); [lia|]. cbn. lra.
  - intros k Hk. unfold ind. destruct (N.leb_spec (N.of_nat k) 0); [lia|].
    destruct (N.leb_spec (N.of_nat k + 1) 0); [lia|]. lra.
Qed.

Lemma ind_sq : forall k v, ind k v * ind k v = ind k v.
Proof. intros. unfold ind. destruct (_ <=? _)%N; lra. Qed.

Lemma mean_ext : forall W p n f g, (forall v, f v = g v) -> mean W p n f = mean W p n g.
Proof.
  intros W p n f g H. unfold mean. rewrite H. f_equal. apply rsum_ext. intros. now rewrite !H.
Qed.

Lemma rsum_zero : forall l, rsum (ind 0) l = IZR (Z.of_N (zero_count l)).
Proof.
  intros l. unfold ind. rewrite ind_sum. unfold zero_count.
  replace (filter (N.eqb 0) l) with (filter (fun v => v <=? 0)%N l).
  - rewrite INR_IZR_INZ. f_equal. lia.
  - apply filter_ext. intros v. destruct (N.leb_spec v 0), (N.eqb_spec 0 v); lia || reflexivity.
Qed.

Theorem zeros_spread : forall W p n file all, (p < W)%N -> register_files W p n file ->
  enumerates (hash_list W n) all ->
  rsum (fun hs => (IZR (Z.of_N (zero_count (file hs))) - m_R p * below p n 0) ^ 2) all
  <= m_R p * (below p n 0 + (m_R p - 1) * (1 - 2 / m_R p) ^ n - m_R p * (below p n 0 * below p n 0)) * INR (length all).
Proof.
  intros W p n file all HW F E.
  pose proof (variance_bound W p n file all HW F E (ind 0) ((1 - 2 / m_R p) ^ n)) as VB.
  rewrite (mean_ext W p n (fun v => ind 0 v * ind 0 v) (ind 0) (ind_sq 0)), mean_zero in VB.
  fold (m_R p) in VB. unfold total in VB. rewrite (Rmult_comm _ (INR (length all))).
  rewrite (rsum_ext _ (fun hs => (rsum (ind 0) (file hs) - m_R p * below p n 0) ^ 2)) by (intros; now rewrite rsum_zero).
  apply VB. intros i j Hi Hj Hij. apply Req_le. unfold m_R. now apply (two_zero W).
Qed.

Lemma zeros_rare : forall W p n t, (p < W)%N -> 0 < t ->
  rare W n (m_R p * (below p n 0 + (m_R p - 1) * (1 - 2 / m_R p) ^ n - m_R p * (below p n 0 * below p n 0)) / t ^ 2)
    (fun hs => t <= Rabs (IZR (Z.of_N (zero_count (file_of W p hs))) - m_R p * below p n 0)).
Proof.
  intros W p n t HW Ht. destruct (hash_lists_exist W n) as (all & E).
  assert (F : register_files W p n (file_of W p)) by (apply file_of_files; lia).
  apply (chebyshev W n all (fun hs => IZR (Z.of_N (zero_count (file_of W p hs)))) (m_R p * below p n 0)); auto.
  now apply (zeros_spread W p n (file_of W p) all).
Qed.

(** ** The variance, relative to the square of the mean *)
Lemma exp_quad : forall y, 0 <= y <= 1.43 -> exp y <= 1 + y + y ^ 2.
Proof.
  intros y Hy. set (z := y / 2). assert (Hz : 0 <= z <= 0.715) by (unfold z; lra).
  assert (Ey : y = z + z) by (unfold z; lra). rewrite Ey. clearbody z. clear y Hy Ey.
  pose proof (exp_neg_lo z (proj1 Hz)) as L. rewrite exp_Ropp in L. rewrite exp_plus.
  pose proof (exp_pos z) as P. set (e := exp z) in *. clearbody e.
  set (q := 1 - z + z ^ 2 / 2 - z ^ 3 / 6) in *.
  assert (Q : 0 < q) by (unfold q; nra).
  assert (E : e * q <= 1).
  { apply Rmult_le_reg_l with (/ e); [now apply Rinv_0_lt_compat|]. rewrite <- Rmult_assoc, Rinv_l by lra. lra. }
  apply Rmult_le_reg_r with (q * q); [nra|].
  apply Rle_trans with 1.
  { replace (e * e * (q * q)) with ((e * q) * (e * q)) by ring. assert (0 < e * q) by nra. nra. }
  assert (H : 0 <= 2 - 16 / 3 * z + 71 / 12 * z ^ 2 - 13 / 3 * z ^ 3 + 73 / 36 * z ^ 4 - 11 / 18 * z ^ 5 + z ^ 6 / 9).
  { set (w := 0.715 - z). replace z with (0.715 - w) by (unfold w; ring). assert (W : 0 <= w) by (unfold w; lra).
    clearbody w. clear - W.
    pose proof (pow_le w 2 W). pose proof (pow_le w 3 W). pose proof (pow_le w 4 W). pose proof (pow_le w 5 W).
    pose proof (pow_le w 6 W). nra. }
  replace ((1 + (z + z) + (z + z) ^ 2) * (q * q)) with
    (1 + z ^ 2 * (2 - 16 / 3 * z + 71 / 12 * z ^ 2 - 13 / 3 * z ^ 3 + 73 / 36 * z ^ 4 - 11 / 18 * z ^ 5 + z ^ 6 / 9))
    by (unfold q; field).
  pose proof (pow2_ge_0 z). nra.
Qed.

Lemma below_pos : forall p n, (4 <= p)%N -> 0 < below p n 0.
Proof.
  intros p n Hp. eapply Rlt_le_trans; [|exact (below_lo p n 0 Hp)]. apply exp_pos.
Qed.

Lemma below_exp : forall p n, (4 <= p)%N ->
  exp (- (INR n / m_R p * (1 + / m_R p))) <= below p n 0 <= exp (- (INR n / m_R p)).
Proof.
  intros p n Hp. pose proof (below_lo p n 0 Hp) as L. pose proof (below_up p n 0 Hp) as U.
  unfold expo in L, U. cbn [N.of_nat pow] in L, U. rewrite Rmult_1_r in L, U. split; assumption.
Qed.

Lemma zero_variance : forall p n, (4 <= p <= 18)%N -> INR n <= 1.34 * m_R p ->
  below p n 0 + (m_R p - 1) * (1 - 2 / m_R p) ^ n - m_R p * (below p n 0 * below p n 0)
  <= 1.2 * (INR n / m_R p) ^ 2 * (below p n 0 * below p n 0).
Proof.
  intros p n Hp Hn. pose proof (m_R_bounds p (proj1 Hp) (proj2 Hp)) as M.
  pose proof (below_pos p n (proj1 Hp)) as B. pose proof (below_exp p n (proj1 Hp)) as [BL _].
  assert (EB : below p n 0 = (1 - / m_R p) ^ n) by (unfold below; rewrite N.add_0_r; reflexivity).
  set (m := m_R p) in *. set (b := below p n 0) in *. set (x := INR n / m) in *.
  assert (Hx : 0 <= x <= 1.34).
  { unfold x. split; [apply Rmult_le_pos; [apply pos_INR|left; apply Rinv_0_lt_compat; lra]|].
    apply div_le; lra. }
  assert (En : INR n = x * m) by (unfold x; field; lra).
  set (i := / (m - 1)). assert (I : 0 < i <= / 15).
  { unfold i. split; [apply Rinv_0_lt_compat; lra|]. apply Rinv_le_contravar; lra. }
  assert (Ei : i * (m - 1) = 1) by (unfold i; apply Rinv_l; lra).
  set (u := INR n * (i * i)).
  assert (C : (1 - 2 / m) ^ n <= b * b * (1 - u + u ^ 2 / 2)).
  { replace (1 - 2 / m) with ((1 - / m) * (1 - / m) * (1 - i * i)).
    2:{ unfold i. field. lra. }
    rewrite !Rpow_mult_distr, <- EB. apply Rmult_le_compat_l; [nra|].
    apply Rle_trans with (exp (- (i * i)) ^ n).
    - apply pow_incr. split; [nra|]. pose proof (exp_ineq1_le (- (i * i))). lra.
    - rewrite exp_pow. replace (INR n * - (i * i)) with (- u) by (unfold u; ring). apply exp_neg_up.
      unfold u. apply Rmult_le_pos; [apply pos_INR|nra]. }
  assert (J : 0 < / m <= / 16) by (split; [apply Rinv_0_lt_compat|apply Rinv_le_contravar]; lra).
  set (y := x * (1 + / m)) in *.
  assert (Hy : 0 <= y <= 1.43) by (unfold y; nra).
  assert (IB : / b <= 1 + y + y ^ 2).
  { eapply Rle_trans; [|now apply exp_quad]. rewrite exp_Ropp in BL. pose proof (exp_pos y).
    rewrite <- (Rinv_inv (exp y)). apply Rinv_le_contravar; [now apply Rinv_0_lt_compat|exact BL]. }
  assert (Eb : b = / b * (b * b)) by (field; lra).
  apply Rle_trans with ((/ b - 1 - (m - 1) * u + (m - 1) * (u ^ 2 / 2)) * (b * b)).
  { rewrite Eb at 1. apply (Rmult_le_compat_l (m - 1)) in C; [|lra]. nra. }
  apply Rmult_le_compat_r; [nra|].
  assert (U1 : y <= (m - 1) * u).
  { unfold u, y. rewrite En. replace ((m - 1) * (x * m * (i * i))) with (x * (m * i * (i * (m - 1)))) by ring.
    rewrite Ei, Rmult_1_r. apply Rmult_le_compat_l; [lra|].
    apply Rmult_le_reg_r with (m * (m - 1)); [nra|].
    replace ((1 + / m) * (m * (m - 1))) with ((m + 1) * (m - 1)) by (field; lra).
    replace (m * i * (m * (m - 1))) with (m * m * (i * (m - 1))) by ring. rewrite Ei. nra. }
  assert (U2 : (m - 1) * (u ^ 2 / 2) <= 0.04 * x ^ 2).
  { unfold u. rewrite En. replace ((m - 1) * ((x * m * (i * i)) ^ 2 / 2)) with (x ^ 2 * ((m * i) ^ 2 * i * (i * (m - 1)) / 2)) by field.
    rewrite Ei. assert (MI : 0 <= m * i <= 16 / 15).
    { split; [nra|]. replace (m * i) with (i * (m - 1) + i) by ring. lra. }
    assert (K : 0 <= (m * i) ^ 2 <= 1.1378) by (split; [apply pow2_ge_0|nra]).
    set (k := (m * i) ^ 2) in *. clearbody k. pose proof (pow2_ge_0 x).
    rewrite (Rmult_comm 0.04). apply Rmult_le_compat_l; [lra|]. nra. }
  assert (Y2 : y ^ 2 <= 1.129 * x ^ 2).
  { unfold y. assert (0 <= (1 + / m) ^ 2 <= 1.129) by nra. rewrite Rpow_mult_distr. pose proof (pow2_ge_0 x). nra. }
  pose proof (pow2_ge_0 x). lra.
Qed.

Definition rare_zeros (W p : N) (n : nat) (t : R) (hs : list N) : Prop :=
  t * (m_R p * below p n 0) <= Rabs (IZR (Z.of_N (zero_count (file_of W p hs))) - m_R p * below p n 0).

(** With [t = s n / m]. *)
Lemma zeros_are_rare : forall W p n s, (4 <= p <= 18)%N -> (p < W)%N -> (0 < n)%nat -> INR n <= 1.34 * m_R p -> 0 < s ->
  rare W n (1.2 / (m_R p * s ^ 2)) (rare_zeros W p n (s * (INR n / m_R p))).
Proof.
  intros W p n s Hp HW H0 Hn Hs. pose proof (m_R_bounds p (proj1 Hp) (proj2 Hp)) as M.
  pose proof (below_pos p n (proj1 Hp)) as B.
  assert (N1 : 0 < INR n) by now apply lt_0_INR.
  pose proof (zero_variance p n Hp Hn) as V. set (m := m_R p) in *. set (x := INR n / m) in *.
  assert (Hx : 0 < x) by (apply Rdiv_lt_0_compat; lra).
  assert (T : 0 < s * x * (m * below p n 0)).
  { apply Rmult_lt_0_compat; [apply Rmult_lt_0_compat; [lra|exact Hx]|]. apply Rmult_lt_0_compat; lra. }
  eapply rare_weaken; [apply (zeros_rare W p n _ HW T)| |].
  - fold m. set (v := below p n 0 + (m - 1) * (1 - 2 / m) ^ n - m * (below p n 0 * below p n 0)) in *.
    set (b := below p n 0) in *. clearbody v b x.
    assert (T2 : 0 < (s * x * (m * b)) ^ 2) by now apply pow_lt.
    apply Rmult_le_reg_r with (1 := T2). unfold Rdiv. rewrite Rmult_assoc, Rinv_l, Rmult_1_r by lra.
    replace (1.2 * / (m * s ^ 2) * (s * x * (m * b)) ^ 2) with (m * (1.2 * x ^ 2 * (b * b))) by (field; lra).
    apply Rmult_le_compat_l; lra.
  - intros hs _ H. exact H.
Qed.

(** ** Linear counting *)
Lemma linear_bounds : forall W p n s hs l, (4 <= p <= 18)%N -> (p < W)%N -> (0 < n)%nat -> INR n <= 1.34 * m_R p ->
  0 < s <= / 10 -> hash_list W n hs -> is_register_file W p hs l -> ~ rare_zeros W p n (s * (INR n / m_R p)) hs ->
  (zero_count l <> 0)%N /\
  m_R p * below p n 0 * (1 - s * (INR n / m_R p)) <= IZR (Z.of_N (zero_count l)) /\
  INR n * (1 - s) <= linear_R (2 ^ p) (zero_count l) <= INR n * (1 + / m_R p + 1.16 * s).
Proof.
  intros W p n s hs l Hp HW H0 Hn Hs HH RF NR.
  pose proof (m_R_bounds p (proj1 Hp) (proj2 Hp)) as M. pose proof (below_pos p n (proj1 Hp)) as B.
  pose proof (below_exp p n (proj1 Hp)) as [BL BU].
  assert (N1 : 0 < INR n) by now apply lt_0_INR.
  unfold rare_zeros in NR.
  rewrite (is_register_file_unique W p hs _ l ltac:(lia) (file_of_ok W p hs ltac:(lia) (proj2 HH)) RF) in NR.
  apply Rnot_le_lt, Rabs_lt_inv in NR.
  set (v := IZR (Z.of_N (zero_count l))) in *.
  set (m := m_R p) in *. set (b := below p n 0) in *. set (x := INR n / m) in *.
  assert (Hx : 0 < x <= 1.34) by (split; [apply Rdiv_lt_0_compat|apply div_le]; lra).
  assert (En : INR n = m * x) by (unfold x; field; lra).
  set (t := s * x) in *. assert (Et : t = s * x) by reflexivity. assert (Ht : 0 < t <= 0.134) by (unfold t; nra).
  assert (MB : 0 < m * b) by nra.
  assert (Hv : m * b * (1 - t) < v < m * b * (1 + t)) by (split; lra).
  assert (V0 : 0 < v) by nra.
  split. { intros E. unfold v in V0. rewrite E in V0. change (IZR (Z.of_N 0)) with 0 in V0. lra. }
  split; [lra|].
  unfold linear_R. replace (IZR (Z.of_N (2 ^ p))) with m by (unfold m, m_R; rewrite N2Z.inj_pow; reflexivity).
  fold v. rewrite En. clearbody v m b x t. clear RF HH NR H0 Hn.
  assert (LB : - (x * (1 + / m)) <= ln b <= - x).
  { split.
    - rewrite <- (ln_exp (- (x * (1 + / m)))). apply ln_le; [apply exp_pos|exact BL].
    - rewrite <- (ln_exp (- x)). apply ln_le; [lra|exact BU]. }
  assert (E1 : ln (m / v) = ln m - ln v) by (unfold Rdiv; rewrite ln_mult, ln_Rinv by (try apply Rinv_0_lt_compat; lra); lra).
  assert (L1 : ln m + ln b + ln (1 - t) <= ln v).
  { rewrite <- !ln_mult by nra. apply ln_le; nra. }
  assert (L2 : ln v <= ln m + ln b + ln (1 + t)).
  { rewrite <- !ln_mult by nra. apply ln_le; nra. }
  assert (T1 : ln (1 + t) <= t).
  { pose proof (exp_ineq1_le t). rewrite <- (ln_exp t) at 2. apply ln_le; lra. }
  assert (T2 : - (1.16 * t) <= ln (1 - t)).
  { replace (1 - t) with (/ (1 + t / (1 - t))) by (field; lra). rewrite ln_Rinv.
    2:{ assert (0 < t / (1 - t)) by (apply Rdiv_lt_0_compat; lra). lra. }
    apply Ropp_le_contravar.
    assert (D : 0 < t / (1 - t) <= 1.16 * t) by (split; [apply Rdiv_lt_0_compat|apply div_le]; nra).
    pose proof (exp_ineq1_le (t / (1 - t))). apply Rle_trans with (t / (1 - t)); [|lra].
    rewrite <- (ln_exp (t / (1 - t))) at 2. apply ln_le; lra. }
  assert (J : 0 < / m) by (apply Rinv_0_lt_compat; lra).
  rewrite E1. split.
  - rewrite Rmult_assoc. apply Rmult_le_compat_l; [lra|]. lra.
  - rewrite Rmult_assoc. apply Rmult_le_compat_l; [lra|]. lra.
Qed.

Theorem pf_small_point : forall e p n s hs, build e -> accurate e -> (4 <= p <= 16)%N -> 0 < s <= / 10 ->
  (0 < n)%nat -> INR n <= m_R p -> hash_list 32 n hs -> ~ rare_zeros 32 p n (s * (INR n / m_R p)) hs ->
  pf_counts e p (INR n * (1 - s) * (1 - / IZR (2 ^ 28))) (INR n * (1 + / m_R p + 1.16 * s) * (1 + / IZR (2 ^ 28))) hs.
Proof.
  intros e p n s hs Hb Ha Hp Hs H0 Hn HH NR. assert (Hp' : (4 <= p <= 18)%N) by lia.
  pose proof (m_R_bounds p (proj1 Hp') (proj2 Hp')) as M.
  assert (N1 : 0 < INR n) by now apply lt_0_INR. apply Rnot_le_lt in NR.
  intros V h Hv Hnr Ep SS.
  assert (LB : forall l, is_register_file 32 p (map (fun x => x mod 2 ^ 32)%N (hist_hashes h)) l ->
    (zero_count l <> 0)%N /\ m_R p * below p n 0 * (1 - s * (INR n / m_R p)) <= IZR (Z.of_N (zero_count l)) /\
    INR n * (1 - s) <= linear_R (2 ^ p) (zero_count l) <= INR n * (1 + / m_R p + 1.16 * s)).
  { intros l RF. apply (linear_bounds 32 p n s hs l); auto; try lia; try lra.
    - eapply register_file_same; eauto.
    - unfold rare_zeros. lra. }
  assert (RU : forall l, is_register_file 32 p (map (fun x => x mod 2 ^ 32)%N (hist_hashes h)) l ->
    raw_R p l <= 2.5 * m_R p).
  { intros l RF. destruct (LB l RF) as (_ & Z & _). pose proof (zero_inv_sum l) as Z'.
    pose proof (alpha_upper p (proj1 Hp') (proj2 Hp')) as A.
    assert (B : 0.34 <= below p n 0).
    { eapply Rle_trans; [|apply (below_exp p n (proj1 Hp'))].
      apply Rle_trans with (exp (- (0.53125 + 0.53125))).
      - rewrite Ropp_plus_distr, exp_plus. pose proof (exp_neg_lo 0.53125 ltac:(lra)) as E0.
        assert (E1 : 0.5848 <= exp (Ropp 0.53125)) by lra. nra.
      - assert (X : INR n / m_R p <= 1) by (apply div_le; lra).
        assert (X0 : 0 < INR n / m_R p) by (apply Rdiv_lt_0_compat; lra).
        assert (J : 0 < / m_R p <= / 16) by (split; [apply Rinv_0_lt_compat|apply Rinv_le_contravar]; lra).
        set (x := INR n / m_R p) in *. set (i := / m_R p) in *. clearbody x. clearbody i.
        assert (Y : x * (1 + i) <= 0.53125 + 0.53125) by nra.
        apply exp_le. lra. }
    assert (X : 0 < s * (INR n / m_R p) <= / 10).
    { assert (INR n / m_R p <= 1) by (apply div_le; lra).
      assert (0 < INR n / m_R p) by (apply Rdiv_lt_0_compat; lra). nra. }
    set (t := s * (INR n / m_R p)) in *. set (b := below p n 0) in *. clearbody t b.
    assert (BT : 0.3 <= b * (1 - t)) by nra.
    assert (Zl : 0.3 * m_R p <= inv_sum l).
    { rewrite Rmult_assoc, (Rmult_comm 0.3) in *. eapply Rle_trans; [|exact (Rle_trans _ _ _ Z Z')].
      apply Rmult_le_compat_l; lra. }
    unfold raw_R. apply div_le; [lra|]. nra. }
  assert (B32 : below_2_32 (hist_precision h) (hist_hashes h)).
  { intros l RF. rewrite Ep in *. specialize (RU l RF). change (IZR (2 ^ 32)) with 4294967296. lra. }
  destruct (pf_value_R V e h Hb Ha Hv Hnr B32) as (c & E & F & (l & RF & P) & _).
  exists c. split; [exact E|]. split; [exact F|]. rewrite Ep in *. specialize (RU l RF).
  destruct (LB l RF) as (Z & _ & LL).
  destruct P as [(_ & _ & P)|([P|P] & _)]; [|congruence|exfalso; lra].
  unfold approx in P.
  set (r := linear_R (2 ^ p) (zero_count l)) in *.
  assert (R0 : 0 <= r) by (assert (0 <= INR n * (1 - s)) by (apply Rmult_le_pos; lra); lra).
  rewrite (Rabs_pos_eq r) in P by lra. apply Rabs_le_inv in P.
  set (lo := INR n * (1 - s)) in *.
  set (hi := INR n * (1 + / m_R p + 1.16 * s)) in *.
  change (IZR (2 ^ 28)) with 268435456 in *. clearbody r lo hi. lra.
Qed.

Theorem pf_small_gen : forall e p n s d, build e -> accurate e -> (4 <= p <= 16)%N -> 0 < s <= / 10 ->
  (0 < n)%nat -> INR n <= m_R p ->
  rare 32 n d (rare_zeros 32 p n (s * (INR n / m_R p))) ->
  rare 32 n d
    (fun hs => ~ pf_counts e p (INR n * (1 - s) * (1 - / IZR (2 ^ 28)))
      (INR n * (1 + / m_R p + 1.16 * s) * (1 + / IZR (2 ^ 28))) hs).
Proof.
  intros e p n s d Hb Ha Hp Hs H0 Hn HR. eapply rare_weaken; [exact HR|apply Rle_refl|].
  intros hs HH NC. apply Rnot_lt_le. intros NR. apply NC. apply pf_small_point; auto. apply Rlt_not_le, NR.
Qed.

Theorem pf_small : forall e p n s, build e -> accurate e -> (4 <= p <= 16)%N -> 0 < s <= / 10 ->
  (0 < n)%nat -> INR n <= m_R p ->
  rare 32 n (1.2 / (m_R p * s ^ 2))
    (fun hs => ~ pf_counts e p (INR n * (1 - s) * (1 - / IZR (2 ^ 28)))
      (INR n * (1 + / m_R p + 1.16 * s) * (1 + / IZR (2 ^ 28))) hs).
Proof.
  intros e p n s Hb Ha Hp Hs H0 Hn. pose proof (m_R_bounds p ltac:(lia) ltac:(lia)) as M.
  apply pf_small_gen; auto. apply zeros_are_rare; auto; try lia; try lra.
Qed.

(** ** Codes that coincide *)
Lemma nonzero_le : forall W q H hs l, is_register_file W q H l -> same_set H hs ->
  (2 ^ q <= zero_count l + N.of_nat (length hs))%N.
Proof.
  intros W q H hs l RF SS. destruct (RF) as [LL _].
  rewrite <- (zero_split l _ LL) at 1. apply N.add_le_mono_l.
  rewrite <- (map_length (bucket W q) hs).
  assert (I : forall a b : list N, NoDup a -> incl a b -> (N.of_nat (length a) <= N.of_nat (length b))%N).
  { intros a b D J. pose proof (NoDup_incl_length D J). lia. }
  apply I; [apply NoDup_filter, range_NoDup|].
  intros i Hi. apply filter_In in Hi. destruct Hi as [Hi Hz]. apply range_in in Hi.
  destruct (file_nth W q H l i RF Hi) as [_ [E|(h & Hh & Hb & _)]].
  - rewrite E in Hz. discriminate Hz.
  - apply in_map_iff. exists h. split; [exact Hb|]. now apply SS.
Qed.

(** How many of the [n] hashes share their 25-bit prefix with an earlier one. *)
Definition lost (n : nat) (hs : list N) : R :=
  INR n - 33554432 + IZR (Z.of_N (zero_count (file_of 64 25 hs))).

Lemma lost_rare : forall n u, 0 < u -> rare 64 n (INR n ^ 2 / IZR (2 ^ 26) / u) (fun hs => u <= lost n hs).
Proof.
  intros n u Hu. destruct (hash_lists_exist 64 n) as (all & E).
  assert (F : register_files 64 25 n (file_of 64 25)) by (apply file_of_files; lia).
  apply (markov 64 n all (lost n)); [exact E|exact Hu| |].
  - intros hs Hh. apply E in Hh. unfold lost.
    pose proof (nonzero_le 64 25 hs hs _ (F hs Hh) (fun x => iff_refl _)) as N1.
    destruct Hh as [Hl _]. rewrite Hl in N1. apply N2Z.inj_le, IZR_le in N1.
    rewrite N2Z.inj_add, plus_IZR, nat_N_Z, <- INR_IZR_INZ in N1.
    change (IZR (Z.of_N (2 ^ 25))) with 33554432 in N1. lra.
  - rewrite (rsum_ext _ (fun hs => (INR n - 33554432) + total (file_of 64 25) (ind 0) hs)).
    2:{ intros hs _. unfold lost, total. now rewrite rsum_zero. }
    rewrite rsum_plus, rsum_const, (total_mean 64 25 n (file_of 64 25) all ltac:(lia) F E), mean_zero.
    rewrite <- Rmult_plus_distr_l, Rmult_comm. apply Rmult_le_compat_r; [apply pos_INR|].
    change (IZR (2 ^ Z.of_N 25)) with 33554432. change (IZR (2 ^ 26)) with 67108864.
    destruct (below_exp 25 n ltac:(lia)) as [_ B]. change (m_R 25) with 33554432 in B.
    pose proof (pos_INR n) as P. set (x := INR n) in *. clearbody x.
    pose proof (exp_neg_up (x / 33554432) ltac:(lra)) as U. nra.
Qed.

Lemma lost_codes : forall p n H hs L u, hash_list 64 n hs -> same_set H hs -> is_code_list p H L ->
  lost n hs < u -> INR n - u < INR (length L) <= INR n.
Proof.
  intros p n H hs L u HH SS HL B. split.
  - pose proof (file_of_ok 64 25 hs ltac:(lia) (proj2 HH)) as RF.
    pose proof (register_file_same 64 25 hs H _ (fun x => iff_sym (SS x)) RF) as RF'.
    pose proof (nonzero_codes p 25 H _ L ltac:(lia) RF' HL) as N1. unfold lost in B.
    apply N2Z.inj_le, IZR_le in N1. rewrite N2Z.inj_add, plus_IZR, nat_N_Z, <- INR_IZR_INZ in N1.
    change (IZR (Z.of_N (2 ^ 25))) with 33554432 in N1. lra.
  - apply le_INR. destruct HH as [<- _]. eapply code_list_le; eauto.
Qed.

Theorem plus_exact : forall e p n, build_std e -> accurate e -> (4 <= p <= 18)%N ->
  (4 * N.of_nat n + 16 <= sparse_limit p)%N -> (N.of_nat n <= 5791)%N ->
  rare 64 n (INR n ^ 2 / IZR (2 ^ 26)) (fun hs => ~ plus_counts_int e p (Z.of_nat n) hs).
Proof.
  intros e p n Hb Ha Hp Hl Hn.
  eapply rare_weaken; [apply (lost_rare n 1); lra|lra|].
  intros hs HH NC. apply Rnot_lt_le. intros B. apply NC. clear NC.
  intros V ord h Hv Hnr Ho Ep SS.
  destruct (code_list_exists p (hist_hashes h)) as (L & HL).
  destruct (lost_codes p n _ hs L 1 HH SS HL B) as [B1 B2].
  assert (EL : length L = n).
  { apply INR_le in B2. rewrite !INR_IZR_INZ, <- minus_IZR in B1. apply lt_IZR in B1. lia. }
  rewrite <- Ep in HL, Hl. rewrite <- EL in Hl |- *.
  apply (small_exact_any V e ord h L); auto. lia.
Qed.

Lemma linear_24 : forall k n, (k <= n)%nat -> INR n <= 400000 ->
  INR k <= linear_R (2 ^ 24) (2 ^ 24 - N.of_nat k) <= INR n * (IZR (2 ^ 24) / (IZR (2 ^ 24) - INR n)).
Proof.
  intros k n Hk Hn. unfold linear_R. apply le_INR in Hk. pose proof (pos_INR k) as P.
  assert (K : (N.of_nat k <= 2 ^ 24)%N).
  { change (2 ^ 24)%N with 16777216%N. assert (INR k <= 400000) by lra. rewrite INR_IZR_INZ in H. apply le_IZR in H. lia. }
  rewrite N2Z.inj_sub, minus_IZR, nat_N_Z, <- INR_IZR_INZ by exact K.
  change (IZR (Z.of_N (2 ^ 24))) with 16777216. change (IZR (2 ^ 24)) with 16777216.
  set (x := INR k) in *. set (y := INR n) in *. clearbody x y.
  set (q := x / 16777216). assert (Ex : x = 16777216 * q) by (unfold q; field).
  assert (Hq : 0 <= q <= / 2) by (unfold q; lra).
  replace (16777216 / (16777216 - x)) with (/ (1 - q)) by (rewrite Ex; field; lra).
  rewrite ln_Rinv by lra. split.
  - assert (ln (1 - q) <= - q).
    { rewrite <- (ln_exp (- q)). apply ln_le; [lra|]. pose proof (exp_ineq1_le (- q)). lra. }
    rewrite Ex at 1. lra.
  - apply Rle_trans with (x * (/ (1 - q))).
    + rewrite Ex at 1. rewrite Rmult_assoc. apply Rmult_le_compat_l; [lra|]. rewrite <- ln_Rinv by lra.
      pose proof (exp_ineq1_le (ln (/ (1 - q)))) as I. rewrite exp_ln in I by (apply Rinv_0_lt_compat; lra).
      replace (q * / (1 - q)) with (/ (1 - q) - 1) by (field; lra). lra.
    + apply Rmult_le_compat; [lra|left; apply Rinv_0_lt_compat; lra|lra|].
      replace (16777216 / (16777216 - y)) with (/ (1 - y / 16777216)) by (field; lra).
      apply Rinv_le_contravar; unfold q; lra.
Qed.

Theorem plus_small : forall e p n s, build_std e -> accurate e -> (4 <= p <= 18)%N -> 0 < s <= / 10 ->
  (0 < n)%nat -> INR n * (1 + / m_R p + 1.16 * s) <= threshold_R p ->
  rare 64 n (1.2 / (m_R p * s ^ 2) + INR n / (IZR (2 ^ 26) * s))
    (fun hs => ~ plus_counts e p (INR n * (1 - s) * (1 - / IZR (2 ^ 28)))
      (INR n * Rmax (1 + / m_R p + 1.16 * s) (IZR (2 ^ 24) / (IZR (2 ^ 24) - INR n)) * (1 + / IZR (2 ^ 28))) hs).
Proof.
  intros e p n s Hb Ha Hp Hs H0 Hn.
  pose proof (m_R_bounds p (proj1 Hp) (proj2 Hp)) as M. pose proof (threshold_le p Hp) as T.
  assert (N1 : 0 < INR n) by now apply lt_0_INR.
  assert (J : 0 < / m_R p) by (apply Rinv_0_lt_compat; lra).
  assert (Hn' : INR n <= 1.34 * m_R p) by nra.
  assert (Us : 0 < s * INR n) by (apply Rmult_lt_0_compat; lra).
  eapply rare_weaken; [apply rare_or;
    [apply (zeros_are_rare 64 p n s); auto; lia || lra|apply (lost_rare n (s * INR n) Us)|]| |].
  - intros hs. unfold rare_zeros. destruct (Rle_dec (s * (INR n / m_R p) * (m_R p * below p n 0))
      (Rabs (IZR (Z.of_N (zero_count (file_of 64 p hs))) - m_R p * below p n 0))); auto.
  - apply Rplus_le_compat_l. apply Req_le. change (IZR (2 ^ 26)) with 67108864. field. lra.
  - intros hs HH NC.
    destruct (Rle_dec (s * (INR n / m_R p) * (m_R p * below p n 0))
      (Rabs (IZR (Z.of_N (zero_count (file_of 64 p hs))) - m_R p * below p n 0))) as [B|B]; [left; exact B|right].
    apply Rnot_lt_le. intros LO. apply NC. clear NC.
    intros V ord h Hv Hnr Ho Ep SS.
    destruct (plus_value V e ord h Hb Ha Hv Hnr Ho) as (c & E & F & P). exists c. split; [exact E|]. split; [exact F|].
    rewrite Ep in P. destruct P as (L & HL & P).
    set (hi := INR n * Rmax (1 + / m_R p + 1.16 * s) (IZR (2 ^ 24) / (IZR (2 ^ 24) - INR n))).
    assert (HI : INR n * (1 + / m_R p + 1.16 * s) <= hi) by (apply Rmult_le_compat_l; [lra|apply Rmax_l]).
    assert (HI2 : INR n * (IZR (2 ^ 24) / (IZR (2 ^ 24) - INR n)) <= hi) by (apply Rmult_le_compat_l; [lra|apply Rmax_r]).
    assert (LO0 : 0 <= INR n * (1 - s)) by (apply Rmult_le_pos; lra).
    enough (X : exists r, INR n * (1 - s) <= r <= hi /\ approx (/ IZR (2 ^ 28)) (B2R c) r).
    { destruct X as (r & RB & A). unfold approx in A. rewrite (Rabs_pos_eq r) in A by lra. apply Rabs_le_inv in A.
      change (IZR (2 ^ 28)) with 268435456 in *. set (lo := INR n * (1 - s)) in *. clearbody lo hi. lra. }
    destruct P as [[_ P]|[_ (l & RF & P)]].
    + eexists. split; [|exact P].
      destruct (lost_codes p n _ hs L _ HH SS HL LO) as [B1 B2].
      pose proof (linear_24 (length L) n (INR_le _ _ B2) ltac:(lra)) as [L1 L2]. lra.
    + destruct (linear_bounds 64 p n s hs l Hp ltac:(lia) H0 Hn' Hs HH) as (Z & _ & LL).
      { eapply register_file_same; eauto. } { exact B. }
      destruct P as [(_ & _ & P)|([P|P] & _)]; [|congruence|exfalso; lra].
      eexists. split; [|exact P]. lra.
Qed.
