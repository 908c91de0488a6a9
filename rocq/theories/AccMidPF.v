(** * Accuracy of HyperLogLogPF at every cardinality up to 2^27 *)
From Coq Require Import NArith ZArith Reals List Bool Lia Lra.
From Flocq Require Import Core BinarySingleNaN.
From Verif Require Import ModelRust ModelF64 ModelEnv ModelConstants ModelHistory Spec SpecReal SpecCount SpecDist
  SpecProb SpecBuild BitFacts EncFacts CodeFacts AbsorbFacts DistFacts ProbFacts MomentFacts HarmonicNum
  PlusInv PFInv LinearFacts RawFacts FloatFacts SparseFacts MonoFacts ExtremeFacts ClaimFloat ClaimFacts ClaimDist
  BiasFacts HarmonicMean AccFacts AccSmall MeanTable BiasCheck PFCheck BiasSound AccMid AccRange.
Import ListNotations.
Local Notation ln := Rpower.ln.
Local Open Scope R_scope.

(** ** The number of empty registers up to 2.75m *)
Lemma exp_276 : exp 2.76 <= 15.92.
Proof.
  pose proof (exp_eighth 0.345 ltac:(lra) ltac:(lra)) as E. replace (8 * 0.345) with 2.76 in E by lra.
  eapply Rle_trans; [exact E|]. apply Rle_trans with ((/ 0.7076) ^ 8); [|lra].
  apply pow_incr. split; [left; apply Rinv_0_lt_compat; lra|]. apply Rinv_le_contravar; lra.
Qed.

Lemma exp_quad_3 : forall y, 0 <= y <= 2.76 -> exp y <= 1 + y + 1.6 * y ^ 2.
Proof.
  intros y Hy. destruct (Rle_or_lt y 2.01) as [L|L].
  - pose proof (exp_quad_2 y ltac:(lra)). pose proof (pow2_ge_0 y). lra.
  - set (w := 2.76 - y). replace y with (2.76 + - w) at 1 by (unfold w; ring). rewrite exp_plus.
    assert (W : 0 <= w <= 0.75) by (unfold w; lra). pose proof (exp_neg_up w (proj1 W)) as E.
    pose proof exp_276 as E2. pose proof (exp_pos (- w)). pose proof (exp_pos 2.76).
    apply Rle_trans with (15.92 * (1 - w + w ^ 2 / 2)); [apply Rmult_le_compat; lra|].
    replace y with (2.76 - w) by (unfold w; ring). clearbody w. nra.
Qed.

Lemma zero_variance_3 : forall p n, (10 <= p)%N -> INR n <= 2.75 * m_R p ->
  below p n 0 + (m_R p - 1) * (1 - 2 / m_R p) ^ n - m_R p * (below p n 0 * below p n 0)
  <= 1.65 * (INR n / m_R p) ^ 2 * (below p n 0 * below p n 0).
Proof.
  intros p n Hp Hn. pose proof (m_10 p Hp) as M.
  pose proof (below_pos p n ltac:(lia)) as B. pose proof (below_exp p n ltac:(lia)) as [BL _].
  assert (EB : below p n 0 = (1 - / m_R p) ^ n) by (unfold below; rewrite N.add_0_r; reflexivity).
  set (m := m_R p) in *. set (b := below p n 0) in *. set (x := INR n / m) in *.
  assert (Hx : 0 <= x <= 2.75).
  { unfold x. split; [apply Rmult_le_pos; [apply pos_INR|left; apply Rinv_0_lt_compat; lra]|].
    apply div_le; lra. }
  assert (En : INR n = x * m) by (unfold x; field; lra).
  set (i := / (m - 1)). assert (I : 0 < i <= / 1023).
  { unfold i. split; [apply Rinv_0_lt_compat; lra|]. apply Rinv_le_contravar; lra. }
  assert (Ei : i * (m - 1) = 1) by (unfold i; apply Rinv_l; lra).
  set (u := INR n * (i * i)).
  assert (C : (1 - 2 / m) ^ n <= b * b * (1 - u + u ^ 2 / 2)).
  { replace (1 - 2 / m) with ((1 - / m) * (1 - / m) * (1 - i * i)).
    2:{ unfold i. field. lra. }
    rewrite !Rpow_mult_distr, <- EB. apply Rmult_le_compat_l; [nra|].
    apply Rle_trans with (exp (- (i * i)) ^ n).
    - apply pow_incr. split; [nra|]. pose proof (exp_ineq1_le (- (i * i))). lra.
    - rewrite exp_pow. replace (INR n * - (i * i)) with (- u) by (unfold u; ring). apply exp_neg_up.
      unfold u. apply Rmult_le_pos; [apply pos_INR|nra]. }
  assert (J : 0 < / m <= / 1024) by (split; [apply Rinv_0_lt_compat|apply Rinv_le_contravar]; lra).
  set (y := x * (1 + / m)) in *.
  assert (Hy : 0 <= y <= 2.76) by (unfold y; nra).
  assert (IB : / b <= 1 + y + 1.6 * y ^ 2).
  { eapply Rle_trans; [|now apply exp_quad_3]. rewrite exp_Ropp in BL. pose proof (exp_pos y).
    rewrite <- (Rinv_inv (exp y)). apply Rinv_le_contravar; [now apply Rinv_0_lt_compat|exact BL]. }
  assert (Eb : b = / b * (b * b)) by (field; lra).
  apply Rle_trans with ((/ b - 1 - (m - 1) * u + (m - 1) * (u ^ 2 / 2)) * (b * b)).
  { rewrite Eb at 1. apply (Rmult_le_compat_l (m - 1)) in C; [|lra]. nra. }
  apply Rmult_le_compat_r; [nra|].
  assert (U1 : y <= (m - 1) * u).
  { unfold u, y. rewrite En. replace ((m - 1) * (x * m * (i * i))) with (x * (m * i * (i * (m - 1)))) by ring.
    rewrite Ei, Rmult_1_r. apply Rmult_le_compat_l; [lra|].
    apply Rmult_le_reg_r with (m * (m - 1)); [nra|].
    replace ((1 + / m) * (m * (m - 1))) with ((m + 1) * (m - 1)) by (field; lra).
    replace (m * i * (m * (m - 1))) with (m * m * (i * (m - 1))) by ring. rewrite Ei. nra. }
  assert (U2 : (m - 1) * (u ^ 2 / 2) <= 0.04 * x ^ 2).
  { unfold u. rewrite En. replace ((m - 1) * ((x * m * (i * i)) ^ 2 / 2)) with (x ^ 2 * ((m * i) ^ 2 * i * (i * (m - 1)) / 2)) by field.
    rewrite Ei. assert (MI : 0 <= m * i <= 1.001).
    { split; [nra|]. replace (m * i) with (i * (m - 1) + i) by ring. lra. }
    assert (K : 0 <= (m * i) ^ 2 <= 1.01) by (split; [apply pow2_ge_0|nra]).
    set (k := (m * i) ^ 2) in *. clearbody k. pose proof (pow2_ge_0 x).
    rewrite (Rmult_comm 0.04). apply Rmult_le_compat_l; [lra|]. nra. }
  assert (Y2 : y ^ 2 <= 1.002 * x ^ 2).
  { unfold y. assert (0 <= (1 + / m) ^ 2 <= 1.002) by nra. rewrite Rpow_mult_distr. pose proof (pow2_ge_0 x). nra. }
  pose proof (pow2_ge_0 x). lra.
Qed.

Lemma zeros_are_rare_3 : forall W p n s, (10 <= p)%N -> (p < W)%N -> (0 < n)%nat -> INR n <= 2.75 * m_R p -> 0 < s ->
  rare W n (1.65 / (m_R p * s ^ 2)) (rare_zeros W p n (s * (INR n / m_R p))).
Proof.
  intros W p n s Hp HW H0 Hn Hs. pose proof (m_10 p Hp) as M.
  pose proof (below_pos p n ltac:(lia)) as B.
  assert (N1 : 0 < INR n) by now apply lt_0_INR.
  pose proof (zero_variance_3 p n Hp Hn) as V. set (m := m_R p) in *. set (x := INR n / m) in *.
  assert (Hx : 0 < x) by (apply Rdiv_lt_0_compat; lra).
  assert (T : 0 < s * x * (m * below p n 0)).
  { apply Rmult_lt_0_compat; [apply Rmult_lt_0_compat; [lra|exact Hx]|]. apply Rmult_lt_0_compat; lra. }
  eapply rare_weaken; [apply (zeros_rare W p n _ HW T)| |].
  - fold m. set (v := below p n 0 + (m - 1) * (1 - 2 / m) ^ n - m * (below p n 0 * below p n 0)) in *.
    set (b := below p n 0) in *. clearbody v b x.
    assert (T2 : 0 < (s * x * (m * b)) ^ 2) by now apply pow_lt.
    apply Rmult_le_reg_r with (1 := T2). unfold Rdiv. rewrite Rmult_assoc, Rinv_l, Rmult_1_r by lra.
    replace (1.65 * / (m * s ^ 2) * (s * x * (m * b)) ^ 2) with (m * (1.65 * x ^ 2 * (b * b))) by (field; lra).
    apply Rmult_le_compat_l; lra.
  - intros hs _ H. exact H.
Qed.

Lemma linear_bounds_3 : forall W p n s hs l, (10 <= p <= 18)%N -> (p < W)%N -> (0 < n)%nat -> INR n <= 2.75 * m_R p ->
  0 < s <= / 10 -> hash_list W n hs -> is_register_file W p hs l -> ~ rare_zeros W p n (s * (INR n / m_R p)) hs ->
  (zero_count l <> 0)%N /\
  INR n * (1 - s) <= linear_R (2 ^ p) (zero_count l) <= INR n * (1 + / m_R p + 1.38 * s).
Proof.
  intros W p n s hs l Hp HW H0 Hn Hs HH RF NR.
  pose proof (m_10 p (proj1 Hp)) as M. pose proof (below_pos p n ltac:(lia)) as B.
  pose proof (below_exp p n ltac:(lia)) as [BL BU].
  assert (N1 : 0 < INR n) by now apply lt_0_INR.
  unfold rare_zeros in NR.
  rewrite (is_register_file_unique W p hs _ l ltac:(lia) (file_of_ok W p hs ltac:(lia) (proj2 HH)) RF) in NR.
  apply Rnot_le_lt, Rabs_lt_inv in NR.
  set (v := IZR (Z.of_N (zero_count l))) in *.
  set (m := m_R p) in *. set (b := below p n 0) in *. set (x := INR n / m) in *.
  assert (Hx : 0 < x <= 2.75) by (split; [apply Rdiv_lt_0_compat|apply div_le]; lra).
  assert (En : INR n = m * x) by (unfold x; field; lra).
  set (t := s * x) in *. assert (Et : t = s * x) by reflexivity. assert (Ht : 0 < t <= 0.275) by (unfold t; nra).
  assert (MB : 0 < m * b) by nra.
  assert (Hv : m * b * (1 - t) < v < m * b * (1 + t)) by (split; lra).
  assert (V0 : 0 < v) by nra.
  split. { intros E. unfold v in V0. rewrite E in V0. change (IZR (Z.of_N 0)) with 0 in V0. lra. }
  unfold linear_R. replace (IZR (Z.of_N (2 ^ p))) with m by (unfold m, m_R; rewrite N2Z.inj_pow; reflexivity).
  fold v. rewrite En. clearbody v m b x t. clear RF HH NR H0 Hn.
  assert (LB : - (x * (1 + / m)) <= ln b <= - x).
  { split.
    - rewrite <- (ln_exp (- (x * (1 + / m)))). apply ln_le; [apply exp_pos|exact BL].
    - rewrite <- (ln_exp (- x)). apply ln_le; [lra|exact BU]. }
  assert (E1 : ln (m / v) = ln m - ln v) by (unfold Rdiv; rewrite ln_mult, ln_Rinv by (try apply Rinv_0_lt_compat; lra); lra).
  assert (L1 : ln m + ln b + ln (1 - t) <= ln v).
  { rewrite <- !ln_mult by nra. apply ln_le; nra. }
  assert (L2 : ln v <= ln m + ln b + ln (1 + t)).
  { rewrite <- !ln_mult by nra. apply ln_le; nra. }
  assert (T1 : ln (1 + t) <= t).
  { pose proof (exp_ineq1_le t). rewrite <- (ln_exp t) at 2. apply ln_le; lra. }
  assert (T2 : - (1.38 * t) <= ln (1 - t)).
  { replace (1 - t) with (/ (1 + t / (1 - t))) by (field; lra). rewrite ln_Rinv.
    2:{ assert (0 < t / (1 - t)) by (apply Rdiv_lt_0_compat; lra). lra. }
    apply Ropp_le_contravar.
    assert (D : 0 < t / (1 - t) <= 1.38 * t) by (split; [apply Rdiv_lt_0_compat|apply div_le]; nra).
    pose proof (exp_ineq1_le (t / (1 - t))). apply Rle_trans with (t / (1 - t)); [|lra].
    rewrite <- (ln_exp (t / (1 - t))) at 2. apply ln_le; lra. }
  assert (J : 0 < / m) by (apply Rinv_0_lt_compat; lra).
  rewrite E1. split.
  - rewrite Rmult_assoc. apply Rmult_le_compat_l; [lra|]. lra.
  - rewrite Rmult_assoc. apply Rmult_le_compat_l; [lra|]. lra.
Qed.

(** ** The check of one cell *)
Lemma c_ratio : forall p a, (10 <= p)%N -> (0 < a)%Z ->
  IZR (c_an p) / IZR (c_ad p * a) = IZR U * alpha_R p / (IZR a / IZR (2 ^ 77)).
Proof.
  intros p a Hp Ha. rewrite (alpha_frac p Hp). unfold c_an, c_ad, U. rewrite !mult_IZR, plus_IZR, mult_IZR.
  fold (m_R p). apply IZR_lt in Ha. change (IZR 0) with 0 in Ha.
  assert (0 < m_R p) by (apply pow2_pos; lia).
  change (2 ^ 133)%Z with (2 ^ 56 * 2 ^ 77)%Z. rewrite mult_IZR.
  assert (0 < IZR (2 ^ 77)) by now apply IZR_lt.
  set (A := IZR (2 ^ 77)) in *. set (B := IZR (2 ^ 56)). clearbody A B. field. lra.
Qed.

Lemma c_ad_pos : forall p, (0 < c_ad p)%Z.
Proof. intros p. unfold c_ad. assert (0 < 2 ^ Z.of_N p)%Z by (apply Z.pow_pos_nonneg; lia). lia. Qed.

Lemma alpha_mono : forall p q, (10 <= p <= q)%N -> alpha_R p <= alpha_R q.
Proof.
  intros p q H. rewrite !alpha_frac by lia. assert (P : 0 < m_R p) by (apply pow2_pos; lia).
  assert (Q : m_R p <= m_R q) by (unfold m_R; rewrite !two_pow; apply bpow_le; lia).
  apply div_le; [lra|]. apply Rmult_le_reg_r with (10000 * m_R q + 10790); [lra|].
  replace (7213 * m_R q / (10000 * m_R q + 10790) * (10000 * m_R p + 10790) * (10000 * m_R q + 10790))
    with (7213 * m_R q * (10000 * m_R p + 10790)) by (field; lra). nra.
Qed.

Lemma c_hi_ok : forall p a mu, (10 <= p <= 16)%N -> (0 < a)%Z -> IZR a / IZR (2 ^ 77) <= mu ->
  IZR U * alpha_R p / mu <= IZR (c_hi a).
Proof.
  intros p a mu Hp Ha Hm. unfold c_hi.
  assert (D : (0 < c_ad 16 * a)%Z) by (pose proof (c_ad_pos 16); nia).
  eapply Rle_trans; [|exact (zdiv_up (c_an 16) (c_ad 16 * a) D)]. rewrite (c_ratio 16 a ltac:(lia) Ha).
  assert (A0 : 0 < IZR a / IZR (2 ^ 77)) by (apply Rdiv_lt_0_compat; now apply IZR_lt).
  pose proof (alpha_mono p 16 ltac:(lia)) as AM. pose proof (alpha_lower p ltac:(lia)) as AL.
  assert (U0 : 0 < IZR U) by now apply IZR_lt. unfold Rdiv at 1 2.
  apply Rmult_le_compat; [apply Rmult_le_pos; lra|left; apply Rinv_0_lt_compat; lra|apply Rmult_le_compat_l; lra|].
  now apply Rinv_le_contravar.
Qed.

Lemma c_lo_ok : forall p a mu, (10 <= p)%N -> (0 < a)%Z -> 0 < mu <= IZR a / IZR (2 ^ 77) ->
  IZR (c_lo a) <= IZR U * alpha_R p / mu.
Proof.
  intros p a mu Hp Ha Hm. unfold c_lo.
  assert (D : (0 < c_ad 10 * a)%Z) by (pose proof (c_ad_pos 10); nia).
  eapply Rle_trans; [exact (zdiv_lo (c_an 10) (c_ad 10 * a) D)|]. rewrite (c_ratio 10 a ltac:(lia) Ha).
  pose proof (alpha_mono 10 p ltac:(lia)) as AM. pose proof (alpha_lower 10 ltac:(lia)) as AL.
  assert (U0 : 0 < IZR U) by now apply IZR_lt. unfold Rdiv at 1 3.
  apply Rmult_le_compat; [apply Rmult_le_pos; lra|left; apply Rinv_0_lt_compat; lra|apply Rmult_le_compat_l; lra|].
  apply Rinv_le_contravar; lra.
Qed.

Lemma cell_mean_ok : forall q a b, cell_mean q a b = true ->
  (0 < a)%Z /\ (b * 2 ^ 60 * 25600 ^ 2 <= (25600 ^ 2 + q ^ 2) * a ^ 2)%Z.
Proof.
  intros q a b CM. unfold cell_mean in CM. apply andb_true_iff in CM. destruct CM as [A0 A2].
  apply Z.ltb_lt in A0. apply Z.leb_le in A2. split; assumption.
Qed.

Lemma strip_cover : forall n d g x, (0 < d)%Z -> IZR g <= x <= IZR (g + d * Z.of_nat n) -> (0 < n)%nat ->
  exists a b, In (a, b) (strip n d g) /\ IZR a <= x <= IZR b /\ (g <= a < b)%Z.
Proof.
  induction n as [|n IH]; intros d g x Hd Hx Hn; [lia|]. cbn [strip].
  destruct (Rle_or_lt x (IZR (g + d))) as [L|L].
  - exists g, (g + d)%Z. split; [left; reflexivity|]. split; [lra|lia].
  - destruct n as [|n].
    + replace (g + d * Z.of_nat 1)%Z with (g + d)%Z in Hx by lia. lra.
    + destruct (IH d (g + d)%Z x Hd) as (a & b & A & B & C).
      * replace (g + d + d * Z.of_nat (S n))%Z with (g + d * Z.of_nat (S (S n)))%Z by lia. lra.
      * lia.
      * exists a, b. split; [right; exact A|]. split; [exact B|lia].
Qed.

(** ** One cell *)
Lemma end_ok : forall g hi w, (0 < w)%Z -> pf_end g hi w = true ->
  IZR w * IZR w <= IZR g / 256 * IZR U * (1.035 * IZR w + 1.4 / 1.06 * (IZR w - IZR hi)).
Proof.
  intros g hi w W H. unfold pf_end in H. apply Z.leb_le, IZR_le in H.
  repeat rewrite ?mult_IZR, ?plus_IZR, ?minus_IZR in H.
  set (u := IZR U) in *. set (G := IZR g) in *. set (h := IZR hi) in *. set (v := IZR w) in *. clearbody u G h v.
  apply Rmult_le_reg_r with (256 * 106 * 200); [lra|].
  replace (1.035) with (207 / 200) by lra. replace (1.4 / 1.06) with (140 / 106) by lra.
  replace (G / 256 * u * (207 / 200 * v + 140 / 106 * (v - h)) * (256 * 106 * 200)) with (G * u * (106 * 207 * v + 200 * 140 * (v - h))) by field.
  lra.
Qed.

(** A convex function that is negative at both ends is negative in between. *)
Lemma convex_between : forall B C a b w, a <= w <= b -> a * a <= B * a + C -> b * b <= B * b + C -> w * w <= B * w + C.
Proof.
  intros B C a b w H A D. destruct (Req_dec a b) as [E|E]; [subst b; replace w with a by lra; exact A|].
  apply Rmult_le_reg_l with (b - a); [lra|].
  assert (P : 0 <= (b - w) * (B * a + C - a * a)) by (apply Rmult_le_pos; lra).
  assert (Q : 0 <= (w - a) * (B * b + C - b * b)) by (apply Rmult_le_pos; lra).
  assert (T : 0 <= (b - a) * ((w - a) * (b - w))) by (repeat apply Rmult_le_pos; lra).
  replace ((b - a) * (B * w + C)) with ((b - w) * (B * a + C - a * a) + (w - a) * (B * b + C - b * b) + (b - a) * ((w - a) * (b - w))
    + (b - a) * (w * w)) by ring. lra.
Qed.

Lemma raw_up : forall X H d t a b, 0 < X -> 0 < H -> d = 1.06 * t -> 0 < t <= / 10 ->
  0 < a -> a <= H / (1 - d) <= b ->
  a * a <= X * (1.035 * a + 1.4 / 1.06 * (a - H)) -> b * b <= X * (1.035 * b + 1.4 / 1.06 * (b - H)) ->
  H / (1 - d) <= X * (1.035 + 1.4 * t).
Proof.
  intros X H d t a b HX HH Hd Ht Ha Hw A B.
  set (w := H / (1 - d)) in *. assert (EH : H = w * (1 - d)) by (unfold w; field; lra).
  assert (W : w * w <= X * (1.035 + 1.4 / 1.06) * w + - (X * (1.4 / 1.06) * H)).
  { apply (convex_between _ _ a b); [exact Hw|lra|lra]. }
  apply Rmult_le_reg_r with w; [lra|]. rewrite EH in W. rewrite Hd in W. unfold Rdiv in W.
  replace (X * (1.4 * / 1.06) * (w * (1 - 1.06 * t))) with (X * (1.4 * / 1.06) * w - X * 1.4 * w * t) in W.
  - lra.
  - replace 1.06 with (53 / 50) by lra. field.
Qed.

Lemma pf_test_ok : forall g h a0 x0 a1 a2, pf_test g h a0 x0 a1 a2 = true ->
  (0 < c_lo a1)%Z /\ (0 < c_hi a0)%Z /\ (0 <= x0)%Z /\ cell_mean 27136 a0 a2 = true /\
  pf_hi g (c_hi a0) = true /\ pf_lo h (c_lo a1) = true /\ pf_over g (c_lo a1) = true.
Proof.
  intros g h a0 x0 a1 a2 Hc. unfold pf_test in Hc. cbv zeta in Hc. set (hi := c_hi a0) in *. set (lo := c_lo a1) in *.
  apply andb_true_iff in Hc. destruct Hc as [C1 C7]. apply andb_true_iff in C1. destruct C1 as [C1 C6].
  apply andb_true_iff in C1. destruct C1 as [C1 C5]. apply andb_true_iff in C1. destruct C1 as [C1 C4].
  apply andb_true_iff in C1. destruct C1 as [C1 C3]. apply andb_true_iff in C1. destruct C1 as [C1 C2].
  apply Z.ltb_lt in C1, C2. apply Z.leb_le in C3. repeat (split; [assumption|]). assumption.
Qed.

Lemma pf_cell_ok : forall g h, pf_cell g h = true ->
  (0 < c_lo (a_up (c_i g)))%Z /\ (0 < c_hi (a_lo (c_j h)))%Z /\ (0 <= x_lo (c_j h))%Z /\
  cell_mean 27136 (a_lo (c_j h)) (a2_up (c_i g)) = true /\ pf_hi g (c_hi (a_lo (c_j h))) = true /\
  pf_lo h (c_lo (a_up (c_i g))) = true /\ pf_over g (c_lo (a_up (c_i g))) = true.
Proof. intros g h. exact (pf_test_ok g h _ _ _ _). Qed.

Section Cell.
Variable p : N.
Hypothesis Hp : (10 <= p <= 16)%N.
Variable g h : Z.
Hypothesis Hg : (256 <= g < h)%Z.
Hypothesis Hc : pf_cell g h = true.
Variable n : nat.
Hypothesis Hx : IZR g / 256 <= INR n / m_R p <= IZR h / 256.
Variable t : R.
Hypothesis Ht0 : 0 < t <= / 10.
Variable hi lo : Z.
Hypothesis Ehi : hi = c_hi (a_lo (c_j h)).
Hypothesis Elo : lo = c_lo (a_up (c_i g)).

Lemma pf_parts : (0 < lo)%Z /\ (0 < hi)%Z /\ (0 <= x_lo (c_j h))%Z /\
  cell_mean 27136 (a_lo (c_j h)) (a2_up (c_i g)) = true /\ pf_hi g hi = true /\ pf_lo h lo = true /\ pf_over g lo = true.
Proof. pose proof (pf_cell_ok g h Hc) as C. rewrite <- Ehi, <- Elo in C. exact C. Qed.

Lemma grid_lo : (0 <= c_i g)%Z /\ IZR (c_i g) / 262144 <= INR n / m_R p.
Proof. unfold c_i. split; [lia|]. rewrite mult_IZR. lra. Qed.

Lemma grid_hi : (0 <= c_j h)%Z /\ INR n / m_R p * (1 + / m_R p) <= IZR (c_j h) / 262144.
Proof.
  unfold c_j. split; [lia|]. rewrite !plus_IZR, mult_IZR. pose proof (m_10 p (proj1 Hp)) as M.
  assert (J : 0 < / m_R p <= / 1024) by (split; [apply Rinv_0_lt_compat|apply Rinv_le_contravar]; lra).
  assert (G : 0 <= IZR g) by (apply IZR_le; lia). set (y := INR n / m_R p) in *.
  apply Rle_trans with (y * (1 + / 1024)); [apply Rmult_le_compat_l; lra|lra].
Qed.

Lemma pf_mean : 0 < mean 32 p n inv_pow2 /\
  IZR (a_lo (c_j h)) / IZR (2 ^ 77) <= mean 32 p n inv_pow2 <= IZR (a_up (c_i g)) / IZR (2 ^ 77) /\
  (0 < a_lo (c_j h))%Z /\
  mean 32 p n (fun v => inv_pow2 v * inv_pow2 v) <= (1 + 1.06 ^ 2) * (mean 32 p n inv_pow2 * mean 32 p n inv_pow2).
Proof.
  destruct pf_parts as (_ & _ & X & CM & _).
  destruct grid_hi as [J0 J1]. destruct grid_lo as [I0 I1].
  pose proof (mean_ge 32 p n ltac:(lia) ltac:(lia) _ J0 X J1) as L.
  destruct (mean_le 32 p n ltac:(lia) ltac:(lia) _ I0 I1) as [U1 U2].
  destruct (cell_mean_ok _ _ _ CM) as [A0 A2].
  split; [|split; [split; assumption|split; [assumption|]]].
  - eapply Rlt_le_trans; [|exact L]. apply Rdiv_lt_0_compat; apply IZR_lt; [exact A0|reflexivity].
  - eapply Rle_trans; [exact U2|]. replace 1.06 with (27136 / 25600) by lra.
    exact (spread_cell 25600 _ _ _ _ ltac:(lia) A0 A2 L).
Qed.

(** The raw estimate, exact. *)
Lemma pf_raw_range : forall hs fl, hash_list 32 n hs -> is_register_file 32 p hs fl -> ~ rare_harmonic 32 p n (1.06 * t) hs ->
  IZR lo / (1 + 1.06 * t) <= raw_R p fl * scale p <= IZR hi / (1 - 1.06 * t).
Proof.
  intros hs fl HH RF NF. destruct pf_mean as (M & [M1 M2] & A0 & _).
  unfold rare_harmonic in NF.
  rewrite (is_register_file_unique 32 p hs _ fl ltac:(lia) (file_of_ok 32 p hs ltac:(lia) (proj2 HH)) RF) in NF.
  set (mu := mean 32 p n inv_pow2) in *. apply Rnot_le_lt, Rabs_lt_inv in NF. pose proof (file_inv_pos _ _ _ _ RF) as P.
  assert (A1 : (0 < a_up (c_i g))%Z).
  { apply lt_IZR. change (IZR 0) with 0. assert (0 < IZR (2 ^ 77)) by now apply IZR_lt.
    apply Rmult_lt_reg_r with (/ IZR (2 ^ 77)); [now apply Rinv_0_lt_compat|]. rewrite Rmult_0_l.
    eapply Rlt_le_trans; [exact M|exact M2]. }
  pose proof (c_hi_ok p _ mu ltac:(lia) A0 M1) as CH. pose proof (c_lo_ok p _ mu ltac:(lia) A1 (conj M M2)) as CL.
  rewrite <- Ehi in CH. rewrite <- Elo in CL.
  assert (AL : 0 < alpha_R p) by (pose proof (alpha_lower p ltac:(lia)); lra).
  set (d := 1.06 * t) in *. assert (QT : 0 < d <= 0.106) by (unfold d; lra). clearbody d.
  assert (Hm : 0 < m_R p) by (apply pow2_pos; lia).
  assert (ER : raw_R p fl * scale p = IZR U * alpha_R p / mu * (m_R p * mu / inv_sum fl)).
  { unfold raw_R. rewrite <- (scale_m p). field. lra. }
  set (T := IZR U * alpha_R p / mu) in *.
  assert (T0 : 0 < T). { unfold T. apply Rdiv_lt_0_compat; [|exact M]. apply Rmult_lt_0_compat; [now apply IZR_lt|exact AL]. }
  set (S := inv_sum fl) in *. set (s := m_R p * mu) in *. assert (S0 : 0 < s) by (unfold s; now apply Rmult_lt_0_compat).
  assert (B1 : / (1 + d) <= s / S).
  { apply div_ge; [lra|]. apply Rmult_le_reg_l with (1 + d); [lra|]. rewrite <- Rmult_assoc, Rinv_r by lra. lra. }
  assert (B2 : s / S <= / (1 - d)).
  { apply div_le; [lra|]. apply Rmult_le_reg_l with (1 - d); [lra|]. rewrite <- Rmult_assoc, Rinv_r by lra. lra. }
  assert (I1 : 0 < / (1 + d)) by (apply Rinv_0_lt_compat; lra). assert (I2 : 0 < / (1 - d)) by (apply Rinv_0_lt_compat; lra).
  rewrite ER. clear ER A0 A1 M1 M2. clearbody S s T. unfold Rdiv at 1 4. split.
  - apply Rle_trans with (T * / (1 + d)); [apply Rmult_le_compat_r; [lra|nra]|]. apply Rmult_le_compat_l; lra.
  - apply Rle_trans with (T * / (1 - d)); [apply Rmult_le_compat_l; lra|]. apply Rmult_le_compat_r; [lra|nra].
Qed.

Lemma to_scale : forall r, r * scale p = r / m_R p * IZR U.
Proof. intros r. assert (0 < m_R p) by (apply pow2_pos; lia). rewrite <- (scale_m p). field. lra. Qed.

Lemma pf_raw_upper : forall r, r * scale p <= IZR hi / (1 - 1.06 * t) -> 2.5 * m_R p < r -> r <= INR n * (1.035 + 1.4 * t).
Proof.
  intros r RH R25. destruct pf_parts as (_ & H0 & _ & _ & CH & _). unfold pf_hi in CH. cbv zeta in CH.
  assert (M : 0 < m_R p) by (apply pow2_pos; lia). assert (U0 : 0 < IZR U) by now apply IZR_lt.
  assert (S : 0 < scale p) by apply scale_pos.
  assert (R1 : 2.5 * IZR U < r * scale p).
  { rewrite to_scale. apply Rmult_lt_compat_r; [exact U0|]. apply Rmult_lt_reg_r with (m_R p); [exact M|].
    unfold Rdiv. rewrite Rmult_assoc, Rinv_l by lra. lra. }
  apply IZR_lt in H0. change (IZR 0) with 0 in H0.
  pose proof (zdiv_up (hi * 1000) 894 ltac:(lia)) as Z. rewrite mult_IZR in Z.
  set (w1 := (hi * 1000 / 894 + 1)%Z) in *.
  assert (W : IZR hi / (1 - 1.06 * t) <= IZR w1).
  { apply Rle_trans with (IZR hi * 1000 / 894); [|exact Z]. unfold Rdiv. rewrite Rmult_assoc. apply Rmult_le_compat_l; [lra|].
    replace (1000 * / 894) with (/ 0.894) by lra. apply Rinv_le_contravar; lra. }
  clearbody w1. destruct (Z.ltb_spec (2 * w1) (5 * U)) as [L|L].
  - exfalso. apply IZR_lt in L. rewrite !mult_IZR in L. lra.
  - clear L. apply andb_true_iff in CH. destruct CH as [C0 C1].
    set (w0 := Z.max hi (5 * (U / 2))) in *.
    assert (E0 : IZR (5 * (U / 2)) = 2.5 * IZR U).
    { unfold U. change (2 ^ 56 / 2)%Z with (2 ^ 55)%Z. change (2 ^ 56)%Z with (2 * 2 ^ 55)%Z. rewrite !mult_IZR. lra. }
    assert (W0 : (0 < w0)%Z) by (unfold w0; pose proof (Z.le_max_r hi (5 * (U / 2))); assert (0 < 5 * (U / 2))%Z by reflexivity; lia).
    assert (W01 : IZR w0 <= IZR hi / (1 - 1.06 * t)).
    { unfold w0. destruct (Z.max_spec hi (5 * (U / 2))) as [[_ ->]|[_ ->]].
      - rewrite E0. lra.
      - apply div_ge; [lra|]. nra. }
    clearbody w0. assert (W1 : (0 < w1)%Z). { apply IZR_lt in W0. apply lt_IZR. lra. }
    pose proof (end_ok _ _ _ W0 C0) as E1. pose proof (end_ok _ _ _ W1 C1) as E2.
    apply IZR_lt in W0. change (IZR 0) with 0 in W0.
    assert (G : 1 <= IZR g / 256) by (pose proof (IZR_le 256 g ltac:(lia)); lra).
    assert (X0 : 0 < IZR g / 256 * IZR U) by (apply Rmult_lt_0_compat; lra).
    pose proof (raw_up (IZR g / 256 * IZR U) (IZR hi) (1.06 * t) t (IZR w0) (IZR w1) X0 H0 eq_refl Ht0 W0 (conj W01 W) E1 E2) as K.
    rewrite to_scale in RH. assert (K2 : r / m_R p * IZR U <= INR n / m_R p * IZR U * (1.035 + 1.4 * t)).
    { eapply Rle_trans; [exact RH|]. eapply Rle_trans; [exact K|]. apply Rmult_le_compat_r; [lra|]. apply Rmult_le_compat_r; lra. }
    apply Rmult_le_reg_r with (/ m_R p * IZR U); [apply Rmult_lt_0_compat; [now apply Rinv_0_lt_compat|exact U0]|].
    unfold Rdiv in K2. lra.
Qed.

Lemma pf_raw_lower : forall r, IZR lo / (1 + 1.06 * t) <= r * scale p -> INR n * (0.985 - 1.05 * t) <= r.
Proof.
  intros r RL. destruct pf_parts as (_ & _ & _ & _ & _ & CL & _). unfold pf_lo in CL.
  assert (M : 0 < m_R p) by (apply pow2_pos; lia). assert (U0 : 0 < IZR U) by now apply IZR_lt.
  apply Z.leb_le, IZR_le in CL. rewrite !mult_IZR in CL. rewrite to_scale in RL.
  assert (X0 : 0 <= INR n / m_R p) by (apply Rmult_le_pos; [apply pos_INR|left; now apply Rinv_0_lt_compat]).
  assert (L1 : 0.985 * (INR n / m_R p) * IZR U <= IZR lo).
  { apply Rle_trans with (0.985 * (IZR h / 256) * IZR U); [apply Rmult_le_compat_r; lra|lra]. }
  assert (L2 : INR n / m_R p * IZR U * (0.985 - 1.05 * t) <= IZR lo / (1 + 1.06 * t)).
  { apply div_ge; [lra|]. eapply Rle_trans; [|exact L1]. set (y := INR n / m_R p * IZR U).
    assert (Y : 0 <= y) by (unfold y; apply Rmult_le_pos; lra).
    replace (0.985 * (INR n / m_R p) * IZR U) with (y * 0.985) by (unfold y; ring). clearbody y.
    rewrite Rmult_assoc. apply Rmult_le_compat_l; [exact Y|]. nra. }
  apply Rmult_le_reg_r with (/ m_R p * IZR U); [apply Rmult_lt_0_compat; [now apply Rinv_0_lt_compat|exact U0]|].
  unfold Rdiv in *. lra.
Qed.

Lemma pf_raw_over : (704 <= g)%Z -> forall r, IZR lo / (1 + 1.06 * t) <= r * scale p -> 2.5 * m_R p < r.
Proof.
  intros G r RL. destruct pf_parts as (L0 & _ & _ & _ & _ & _ & CO). unfold pf_over in CO.
  apply orb_true_iff in CO. destruct CO as [CO|CO]; [apply Z.ltb_lt in CO; lia|].
  apply Z.ltb_lt, IZR_lt in CO. rewrite !mult_IZR in CO. apply IZR_lt in L0. change (IZR 0) with 0 in L0.
  assert (M : 0 < m_R p) by (apply pow2_pos; lia). assert (U0 : 0 < IZR U) by now apply IZR_lt.
  rewrite to_scale in RL.
  assert (L1 : 2.5 * IZR U < IZR lo / (1 + 1.06 * t)).
  { apply Rlt_le_trans with (IZR lo / 1.106); [lra|]. unfold Rdiv. apply Rmult_le_compat_l; [lra|]. apply Rinv_le_contravar; lra. }
  apply Rmult_lt_reg_r with (/ m_R p * IZR U); [apply Rmult_lt_0_compat; [now apply Rinv_0_lt_compat|exact U0]|].
  replace (2.5 * m_R p * (/ m_R p * IZR U)) with (2.5 * IZR U) by (field; lra). unfold Rdiv in *. lra.
Qed.

Lemma pf_raw_cap : forall r, r * scale p <= IZR hi / (1 - 1.06 * t) -> r <= Rmax (2.5 * m_R p) (INR n * 1.2).
Proof.
  intros r RH. destruct (Rle_or_lt r (2.5 * m_R p)) as [L|L]; [eapply Rle_trans; [exact L|apply Rmax_l]|].
  eapply Rle_trans; [apply (pf_raw_upper r RH L)|]. eapply Rle_trans; [|apply Rmax_r].
  apply Rmult_le_compat_l; [apply pos_INR|lra].
Qed.
End Cell.

(** ** From m to 4m *)
Lemma pf_checked : forall g h, In (g, h) pf_cells -> pf_cell g h = true.
Proof. intros g h Hin. pose proof pf_run as R. rewrite forallb_forall in R. exact (R _ Hin). Qed.

Lemma pf_cells_cover : forall x, 256 <= x <= 1024 ->
  exists a b, In (a, b) pf_cells /\ IZR a <= x <= IZR b /\ (256 <= a < b)%Z /\ (704 < x -> (704 <= a)%Z).
Proof.
  intros x Hx. unfold pf_cells. destruct (Rle_or_lt x 704) as [L1|L1].
  - destruct (strip_cover 224 2 256 x) as (a & b & A & B & C); [lia| |lia|].
    + change (IZR (256 + 2 * Z.of_nat 224)) with 704. lra.
    + exists a, b. split; [apply in_or_app; now left|]. split; [exact B|]. split; [lia|lra].
  - destruct (strip_cover 160 2 704 x) as (a & b & A & B & C); [lia| |lia|].
    + change (IZR (704 + 2 * Z.of_nat 160)) with 1024. lra.
    + exists a, b. split; [apply in_or_app; now right|]. split; [exact B|]. split; [lia|lia].
Qed.

Theorem pf_mid_point : forall e p n t hs, build e -> accurate e -> (10 <= p <= 16)%N -> 0 < t <= / 10 ->
  m_R p <= INR n <= 4 * m_R p -> hash_list 32 n hs -> ~ rare_harmonic 32 p n (1.06 * t) hs ->
  (INR n <= 2.75 * m_R p -> ~ rare_zeros 32 p n (t * (INR n / m_R p)) hs) ->
  pf_counts e p (INR n * (0.984 - 1.1 * t)) (INR n * (1.036 + 1.4 * t)) hs.
Proof.
  intros e p n t hs Hb Ha Hp Ht Hn HH B RZ0. pose proof (m_10 p (proj1 Hp)) as M. pose proof (m_R_bounds p ltac:(lia) ltac:(lia)) as MB.
  assert (N1 : 0 < INR n) by lra. assert (H0 : (0 < n)%nat) by (apply INR_lt; exact N1).
  assert (J : 0 < / m_R p <= / 1024) by (split; [apply Rinv_0_lt_compat|apply Rinv_le_contravar]; lra).
  assert (M16 : m_R p <= 65536).
  { unfold m_R. rewrite two_pow. change 65536 with (bpow radix2 16). apply bpow_le. lia. }
  set (x := INR n / m_R p). assert (Hx : 1 <= x <= 4) by (unfold x; split; [apply div_ge|apply div_le]; lra).
  destruct (pf_cells_cover (256 * x) ltac:(lra)) as (g & h & Hin & Hgh & Hg & H704).
  pose proof (pf_checked g h Hin) as HC.
  assert (HX : IZR g / 256 <= INR n / m_R p <= IZR h / 256) by (fold x; lra).
  assert (ZB : forall l, is_register_file 32 p hs l -> raw_R p l <= 2.5 * m_R p ->
    (zero_count l <> 0)%N /\ INR n * (1 - t) <= linear_R (2 ^ p) (zero_count l) <= INR n * (1 + / m_R p + 1.38 * t)).
  { intros l RF R25. destruct (Rle_or_lt (INR n) (2.75 * m_R p)) as [L|L].
    - apply (linear_bounds_3 32 p n t hs l); auto; lia.
    - exfalso.
      assert (X : 704 < 256 * x). { unfold x. assert (2.75 < INR n / m_R p); [|lra]. apply Rmult_lt_reg_r with (m_R p); [lra|].
        unfold Rdiv. rewrite Rmult_assoc, Rinv_l by lra. lra. }
      pose proof (pf_raw_range p Hp g h Hg HC n HX t Ht _ _ eq_refl eq_refl hs l HH RF B) as [RL _].
      pose proof (pf_raw_over p Hp g h HC t Ht _ _ eq_refl eq_refl (H704 X) _ RL). lra. }
  intros V hh Hv Hnr Ep SS.
  assert (RB : forall l, is_register_file 32 p (map (fun x => x mod 2 ^ 32)%N (hist_hashes hh)) l ->
    is_register_file 32 p hs l /\ INR n * (0.985 - 1.05 * t) <= raw_R p l /\
    (2.5 * m_R p < raw_R p l -> raw_R p l <= INR n * (1.035 + 1.4 * t))).
  { intros l RF. assert (RF' : is_register_file 32 p hs l) by (eapply register_file_same; eauto). split; [exact RF'|].
    pose proof (pf_raw_range p Hp g h Hg HC n HX t Ht _ _ eq_refl eq_refl hs l HH RF' B) as [RL RU]. split.
    - apply (pf_raw_lower p Hp g h HC n HX t Ht _ _ eq_refl eq_refl _ RL).
    - intros R25. apply (pf_raw_upper p Hp g h Hg HC n HX t Ht _ _ eq_refl eq_refl _ RU R25). }
  assert (NB : INR n * (1.035 + 1.4 * t) <= 400000).
  { apply Rle_trans with (4 * 65536 * 1.2); [|lra]. apply Rmult_le_compat; lra. }
  assert (B32 : below_2_32 (hist_precision hh) (hist_hashes hh)).
  { intros l RF. rewrite Ep in *. destruct (RB l RF) as (_ & _ & U). change (IZR (2 ^ 32)) with 4294967296.
    destruct (Rle_or_lt (raw_R p l) (2.5 * m_R p)) as [Q|Q]; [lra|]. specialize (U Q). lra. }
  destruct (pf_value_R V e hh Hb Ha Hv Hnr B32) as (c & E & F & (l & RF & P) & _).
  exists c. split; [exact E|]. split; [exact F|]. rewrite Ep in *. destruct (RB l RF) as (RF' & RL & RU).
  change (IZR (2 ^ 32)) with 4294967296 in P.
  assert (LIN : raw_R p l <= 2.5 * m_R p -> (zero_count l <> 0)%N /\
    INR n * (1 - t) <= linear_R (2 ^ p) (zero_count l) <= INR n * (1 + / m_R p + 1.38 * t)).
  { intros Q. apply (ZB l RF' Q). }
  destruct P as [(_ & P1 & P)|(P1 & P)].
  + destruct (LIN P1) as (_ & LL). set (r := linear_R (2 ^ p) (zero_count l)) in *.
    assert (R0 : 0 <= r) by (assert (0 <= INR n * (1 - t)) by (apply Rmult_le_pos; lra); lra).
    unfold approx in P. rewrite (Rabs_pos_eq r) in P by exact R0. apply Rabs_le_inv in P.
    change (IZR (2 ^ 28)) with 268435456 in P. clear - P LL R0 J Ht N1.
    set (y := INR n) in *. set (i := / m_R p) in *. clearbody r y i.
    assert (r * (1 - / 268435456) <= B2R c <= r * (1 + / 268435456)) by lra. split.
    * apply Rle_trans with (y * (1 - t) * (1 - / 268435456)); [|nra].
      rewrite Rmult_assoc. apply Rmult_le_compat_l; lra.
    * apply Rle_trans with (y * (1 + i + 1.38 * t) * (1 + / 268435456)); [nra|].
      rewrite Rmult_assoc. apply Rmult_le_compat_l; [lra|]. nra.
  + assert (Q : 2.5 * m_R p < raw_R p l).
    { destruct P1 as [P1|P1]; [|exact P1]. apply Rnot_le_lt. intros Q. destruct (LIN Q) as [LZ _]. contradiction. }
    specialize (RU Q). destruct P as [[_ P]|[P _]]; [|exfalso; lra].
    unfold approx in P. rewrite (Rabs_pos_eq (raw_R p l)) in P by lra. apply Rabs_le_inv in P.
    change (IZR (2 ^ 49)) with 562949953421312 in P.
    clear - P RL RU N1 Ht. set (y := INR n) in *. set (r := raw_R p l) in *. clearbody y r. split.
    * apply Rle_trans with (y * (0.985 - 1.05 * t) * (1 - / 562949953421312)); [|lra].
      rewrite Rmult_assoc. apply Rmult_le_compat_l; lra.
    * apply Rle_trans with (y * (1.035 + 1.4 * t) * (1 + / 562949953421312)); [lra|].
      rewrite Rmult_assoc. apply Rmult_le_compat_l; lra.
Qed.


Theorem pf_mid_gen : forall e p n t d1 d2, build e -> accurate e -> (10 <= p <= 16)%N -> 0 < t <= / 10 ->
  m_R p <= INR n <= 4 * m_R p ->
  rare 32 n d1 (rare_harmonic 32 p n (1.06 * t)) -> 0 <= d2 ->
  (INR n <= 2.75 * m_R p -> rare 32 n d2 (rare_zeros 32 p n (t * (INR n / m_R p)))) ->
  rare 32 n (d1 + d2)
    (fun hs => ~ pf_counts e p (INR n * (0.984 - 1.1 * t)) (INR n * (1.036 + 1.4 * t)) hs).
Proof.
  intros e p n t d1 d2 Hb Ha Hp Ht Hn RF1 D0 RZ0.
  assert (D1 : forall hs, rare_harmonic 32 p n (1.06 * t) hs \/ ~ rare_harmonic 32 p n (1.06 * t) hs).
  { intros hs. unfold rare_harmonic. destruct (Rle_dec (1.06 * t * (m_R p * mean 32 p n inv_pow2))
        (Rabs (inv_sum (file_of 32 p hs) - m_R p * mean 32 p n inv_pow2))); auto. }
  destruct (Rle_or_lt (INR n) (2.75 * m_R p)) as [L|L].
  - eapply rare_weaken; [apply (rare_or _ _ _ _ _ _ RF1 (RZ0 L) D1)|apply Rle_refl|].
    intros hs HH NC. destruct (D1 hs) as [B|B]; [left; exact B|right]. unfold rare_zeros.
    destruct (Rle_dec (t * (INR n / m_R p) * (m_R p * below p n 0))
      (Rabs (IZR (Z.of_N (zero_count (file_of 32 p hs))) - m_R p * below p n 0))) as [Z|Z]; [exact Z|].
    exfalso. apply NC. apply (pf_mid_point e p n t); auto.
  - eapply rare_weaken; [exact RF1|lra|].
    intros hs HH NC. destruct (D1 hs) as [B|B]; [exact B|]. exfalso. apply NC. apply (pf_mid_point e p n t); auto. intros; lra.
Qed.

(** The mean and the spread of a register between m and 4m values. *)
Lemma pf_mean_all : forall p n, (10 <= p <= 16)%N -> m_R p <= INR n <= 4 * m_R p ->
  0 < mean 32 p n inv_pow2 /\
  mean 32 p n (fun v => inv_pow2 v * inv_pow2 v) <= (1 + 1.06 ^ 2) * (mean 32 p n inv_pow2 * mean 32 p n inv_pow2).
Proof.
  intros p n Hp Hn. pose proof (m_10 p (proj1 Hp)) as M.
  set (x := INR n / m_R p). assert (Hx : 1 <= x <= 4) by (unfold x; split; [apply div_ge|apply div_le]; lra).
  destruct (pf_cells_cover (256 * x) ltac:(lra)) as (g & h & Hin & Hgh & Hg & H704).
  pose proof (pf_checked g h Hin) as HC.
  assert (HX : IZR g / 256 <= INR n / m_R p <= IZR h / 256) by (fold x; lra).
  destruct (pf_mean p Hp g h Hg HC n HX _ _ eq_refl eq_refl) as (P & _ & _ & V). split; assumption.
Qed.

Theorem pf_mid : forall e p n t, build e -> accurate e -> (10 <= p <= 16)%N -> 0 < t <= / 10 ->
  m_R p <= INR n <= 4 * m_R p ->
  rare 32 n (2.65 / (m_R p * t ^ 2))
    (fun hs => ~ pf_counts e p (INR n * (0.984 - 1.1 * t)) (INR n * (1.036 + 1.4 * t)) hs).
Proof.
  intros e p n t Hb Ha Hp Ht Hn. pose proof (m_10 p (proj1 Hp)) as M. destruct (pf_mean_all p n Hp Hn) as [P V].
  assert (N1 : 0 < INR n) by lra. assert (H0 : (0 < n)%nat) by (apply INR_lt; exact N1).
  assert (P2 : 0 < m_R p * t ^ 2) by (apply Rmult_lt_0_compat; [lra|apply pow_lt; lra]).
  eapply rare_weaken; [apply (pf_mid_gen e p n t (/ (m_R p * t ^ 2)) (1.65 / (m_R p * t ^ 2)) Hb Ha Hp Ht Hn)| |auto].
  - apply (harmonic_spread_q 32 p n ltac:(lia) ltac:(lia) 1.06 t ltac:(lra) ltac:(lra) P V). apply file_of_files. lia.
  - left. apply Rdiv_lt_0_compat; lra.
  - intros L. apply zeros_are_rare_3; auto; lia || lra.
  - apply Req_le. unfold Rdiv. lra.
Qed.

(** ** Every cardinality *)
Theorem pf_everywhere : forall e p n t, build e -> accurate e -> (10 <= p <= 16)%N -> 0 < t <= / 10 ->
  (0 < n)%nat -> INR n <= 0.9 * IZR (2 ^ 27) ->
  rare 32 n (2.65 / (m_R p * t ^ 2))
    (fun hs => ~ pf_counts e p (INR n * (0.984 - 1.1 * t)) (INR n * (1.036 + 1.4 * t)) hs).
Proof.
  intros e p n t Hb Ha Hp Ht H0 Hn. pose proof (m_10 p (proj1 Hp)) as M. pose proof (pos_INR n) as PN.
  assert (P2 : 0 < m_R p * t ^ 2) by (apply Rmult_lt_0_compat; [lra|apply pow_lt; lra]).
  assert (J : 0 < / m_R p <= / 1024) by (split; [apply Rinv_0_lt_compat|apply Rinv_le_contravar]; lra).
  assert (W : forall a, a <= 2.65 -> a / (m_R p * t ^ 2) <= 2.65 / (m_R p * t ^ 2)).
  { intros a H. apply Rmult_le_compat_r; [left; now apply Rinv_0_lt_compat|exact H]. }
  destruct (Rle_or_lt (INR n) (m_R p)) as [L|L].
  - eapply rare_weaken; [apply (pf_small e p n t Hb Ha ltac:(lia) Ht H0 L)|apply W; lra|].
    intros hs _ NC PC. apply NC. change (IZR (2 ^ 28)) with 268435456 in PC. eapply pf_counts_weaken; [exact PC| |].
    + rewrite Rmult_assoc. apply Rmult_le_compat_l; lra.
    + rewrite Rmult_assoc. apply Rmult_le_compat_l; lra.
  - destruct (Rle_or_lt (INR n) (4 * m_R p)) as [L2|L2]; [apply pf_mid; auto; lra|].
    change (IZR (2 ^ 27)) with 134217728 in Hn.
    eapply rare_weaken; [apply (pf_large_10 e p n t Hb Ha Hp ltac:(lra))|apply W; lra|].
    + lra.
    + apply Rle_trans with (2.7 * 1.1 * m_R p); [apply Rmult_le_compat_r; lra|lra].
    + change (IZR (2 ^ 27)) with 134217728. lra.
    + intros hs _ NC PC. apply NC. eapply pf_counts_weaken; [exact PC| |].
      * assert (I1 : 1 - t <= / (1 + t)). { apply Rmult_le_reg_r with (1 + t); [lra|]. rewrite Rinv_l by lra. nra. }
        unfold Rdiv. replace (0.996 * INR n * / (1 + t)) with (INR n * (0.996 * / (1 + t))) by ring.
        apply Rmult_le_compat_l; lra.
      * assert (I2 : / (1 - t) <= 1 + 1.12 * t). { apply Rmult_le_reg_r with (1 - t); [lra|]. rewrite Rinv_l by lra. nra. }
        unfold Rdiv. replace (1.004 * INR n * / (1 - t)) with (INR n * (1.004 * / (1 - t))) by ring.
        apply Rmult_le_compat_l; lra.
Qed.

(** ** Two percent *)
Lemma two_percent : forall x t, t = 0.0156 -> 0 <= x -> 0.98 * x <= 0.996 * x / (1 + t) /\ 1.004 * x / (1 - t) <= 1.02 * x.
Proof.
  intros x t -> Hx. split.
  - apply div_ge; lra.
  - apply div_le; lra.
Qed.

Lemma two_percent_rare : forall m a t, t = 0.0156 -> 16384 <= m -> a = 1.1025 -> a / (m * t ^ 2) <= 0.28.
Proof. intros m a t -> Hm ->. apply div_le; nra. Qed.

Theorem plus_two_percent : forall e p n, build_std e -> accurate e -> (14 <= p <= 18)%N ->
  1500000 <= INR n <= IZR (2 ^ 59) ->
  rare 64 n 0.28 (fun hs => ~ plus_counts e p (0.98 * INR n) (1.02 * INR n) hs).
Proof.
  intros e p n Hb Ha Hp Hn. pose proof (m_R_bounds p ltac:(lia) ltac:(lia)) as MB.
  assert (M : 16384 <= m_R p). { unfold m_R. rewrite two_pow. change 16384 with (bpow radix2 14). apply bpow_le. lia. }
  destruct (two_percent (INR n) 0.0156 eq_refl ltac:(lra)) as [A B].
  eapply rare_weaken; [apply (plus_large_10 e p n 0.0156 Hb Ha ltac:(lia)); lra|now apply two_percent_rare|].
  intros hs _ NC C. apply NC. eapply plus_counts_weaken; [exact C| |]; assumption.
Qed.

Theorem pf_two_percent : forall e p n, build e -> accurate e -> (14 <= p <= 16)%N ->
  300000 <= INR n <= 0.98 * IZR (2 ^ 27) ->
  rare 32 n 0.28 (fun hs => ~ pf_counts e p (0.98 * INR n) (1.02 * INR n) hs).
Proof.
  intros e p n Hb Ha Hp Hn. change (IZR (2 ^ 27)) with 134217728 in Hn.
  assert (M : 16384 <= m_R p). { unfold m_R. rewrite two_pow. change 16384 with (bpow radix2 14). apply bpow_le. lia. }
  assert (M16 : m_R p <= 65536).
  { unfold m_R. rewrite two_pow. change 65536 with (bpow radix2 16). apply bpow_le. lia. }
  destruct (two_percent (INR n) 0.0156 eq_refl ltac:(lra)) as [A B].
  eapply rare_weaken; [apply (pf_large_10 e p n 0.0156 Hb Ha ltac:(lia)); try lra; change (IZR (2 ^ 27)) with 134217728; lra|now apply two_percent_rare|].
  intros hs _ NC C. apply NC. eapply pf_counts_weaken; [exact C| |]; assumption.
Qed.
