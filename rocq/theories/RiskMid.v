(** * The mean square error at the cardinalities in between, and at all of them *)
From Coq Require Import NArith ZArith Reals List Bool Permutation Lia Lra.
From Flocq Require Import Core BinarySingleNaN.
From Verif Require Import ModelRust ModelF64 ModelEnv ModelConstants ModelHistory Spec SpecReal SpecCount SpecDist
  SpecProb SpecBuild SpecMean BitFacts EncFacts CodeFacts AbsorbFacts PlusInv DistFacts ProbFacts MomentFacts HarmonicNum BiasFacts ExtremeFacts
  NegFacts ChernoffFacts RawFacts FloatFacts ClaimFloat ClaimDist HarmonicMean AccFacts MeanTable MeanSlope AccSmall BiasCheck BiasSound
  AccMid AccRange TailFacts TailLarge TailSmall TailMid RiskCore RiskFacts RiskLinear BiasLow.
Import ListNotations.
Local Open Scope R_scope.

(** ** A mean square from a deviation that is seldom large *)
Section Split.
Variables (W : N) (n : nat) (all : list (list N)).
Hypothesis HE : enumerates (hash_list W n) all.
Let T := INR (length all).

Theorem square_split : forall (w D c1 c2 c3 : list N -> R) g b v B1 B2 B3 d1 d2 d3,
  0 <= g -> 0 <= b -> 0 < v -> 0 <= B1 -> 0 <= B2 -> 0 <= B3 ->
  (forall hs, hash_list W n hs -> 0 <= D hs /\ 0 <= c1 hs /\ 0 <= c2 hs /\ 0 <= c3 hs /\
    (Rabs (w hs - 1) <= g + b * sqrt (D hs) \/ (w hs - 1) ^ 2 <= B1 * c1 hs + B2 * c2 hs + B3 * c3 hs)) ->
  rsum D all <= v * T -> rsum c1 all <= d1 * T -> rsum c2 all <= d2 * T -> rsum c3 all <= d3 * T ->
  rsum (fun hs => (w hs - 1) ^ 2) all <= ((g + b * sqrt v) ^ 2 + B1 * d1 + B2 * d2 + B3 * d3) * T.
Proof.
  intros w D c1 c2 c3 g b v B1 B2 B3 d1 d2 d3 Hg Hb Hv H1 H2 H3 P SD S1 S2 S3.
  assert (R0 : 0 < sqrt v) by now apply sqrt_lt_R0. pose proof (sqrt_sqrt v ltac:(lra)) as RR. set (r := sqrt v) in *.
  assert (RI : 0 < / r) by now apply Rinv_0_lt_compat.
  apply Rle_trans with (rsum (fun hs => (g ^ 2 + g * b * r) + ((b ^ 2 + g * b * / r) * D hs + (B1 * c1 hs + (B2 * c2 hs + B3 * c3 hs)))) all).
  - apply rsum_le. intros hs Hh. apply HE in Hh. destruct (P hs Hh) as (D0 & C1 & C2 & C3 & Q).
    assert (K1 : 0 <= B1 * c1 hs) by (apply Rmult_le_pos; lra). assert (K2 : 0 <= B2 * c2 hs) by (apply Rmult_le_pos; lra).
    assert (K3 : 0 <= B3 * c3 hs) by (apply Rmult_le_pos; lra).
    assert (GB : 0 <= g * b) by (apply Rmult_le_pos; lra).
    assert (K4 : 0 <= g ^ 2 + g * b * r) by (pose proof (pow2_ge_0 g); nra).
    assert (K5 : 0 <= (b ^ 2 + g * b * / r) * D hs).
    { apply Rmult_le_pos; [|exact D0]. pose proof (pow2_ge_0 b). assert (0 <= g * b * / r) by (apply Rmult_le_pos; lra). lra. }
    destruct Q as [Q|Q]; [|lra].
    pose proof (sqrt_sqrt (D hs) D0) as SS. pose proof (sqrt_pos (D hs)) as SP. set (s := sqrt (D hs)) in *.
    assert (SQ : (w hs - 1) ^ 2 <= (g + b * s) ^ 2).
    { rewrite <- (pow2_abs (w hs - 1)). apply pow_incr. split; [apply Rabs_pos|exact Q]. }
    assert (AM : 2 * s <= r + / r * (s * s)).
    { apply Rmult_le_reg_l with (1 := R0). rewrite Rmult_plus_distr_l, <- (Rmult_assoc r (/ r)), Rinv_r by lra.
      pose proof (pow2_ge_0 (r - s)). lra. }
    rewrite <- SS in K5 |- *. apply (Rmult_le_compat_l (g * b)) in AM; [|exact GB].
    eapply Rle_trans; [exact SQ|]. set (i := / r) in *. clearbody i. nra.
  - rewrite !rsum_plus, !rsum_scal, rsum_const. fold T.
    assert (G1 : 0 <= b ^ 2 + g * b * / r).
    { pose proof (pow2_ge_0 b). assert (0 <= g * b * / r) by (apply Rmult_le_pos; [apply Rmult_le_pos|]; lra). lra. }
    apply (Rmult_le_compat_l _ _ _ G1) in SD. apply (Rmult_le_compat_l _ _ _ H1) in S1.
    apply (Rmult_le_compat_l _ _ _ H2) in S2. apply (Rmult_le_compat_l _ _ _ H3) in S3.
    replace ((b ^ 2 + g * b * / r) * (v * T)) with ((b ^ 2 * (r * r) + g * b * r * (/ r * r)) * T) in SD by (rewrite <- RR; ring).
    rewrite Rinv_l in SD by lra. change (rsum (fun a => D a)) with (rsum D). change (rsum (fun a => c1 a)) with (rsum c1).
    change (rsum (fun a => c2 a)) with (rsum c2). change (rsum (fun a => c3 a)) with (rsum c3).
    replace (((g + b * r) ^ 2 + B1 * d1 + B2 * d2 + B3 * d3) * T) with
      (T * (g ^ 2 + g * b * r) + ((b ^ 2 * (r * r) + g * b * r * 1) * T + (B1 * (d1 * T) + (B2 * (d2 * T) + B3 * (d3 * T))))) by ring.
    rewrite rsum_const. fold T. lra.
Qed.

Lemma mark_nonneg : forall P (d : {P} + {~ P}), 0 <= mark P d.
Proof. intros P d. unfold mark. destruct d; lra. Qed.

(** Windows for all larger deviations give one for the deviation itself. *)
Lemma window_limit : forall z g b M, 0 < b -> M < / 10 -> (forall t, M < t <= / 10 -> z <= g + b * t) -> z <= g + b * M.
Proof.
  intros z g b M Hb HM H. apply Rnot_lt_le. intros L. set (d := (z - (g + b * M)) / (2 * b)).
  assert (D0 : 0 < d) by (apply Rdiv_lt_0_compat; lra).
  assert (Ed : b * d = (z - (g + b * M)) / 2) by (unfold d; field; lra).
  specialize (H (Rmin (/ 10) (M + d))). pose proof (Rmin_l (/ 10) (M + d)) as M1. pose proof (Rmin_r (/ 10) (M + d)) as M2.
  assert (M3 : M < Rmin (/ 10) (M + d)) by (apply Rmin_glb_lt; lra).
  specialize (H ltac:(lra)). nra.
Qed.
End Split.

(** ** The product of the load and the mean harmonic term *)
Lemma curve_half : forall K x, curve (S K) (2 * x) = / 2 * exp (- (2 * x)) + / 2 * curve K x.
Proof.
  intros K x. unfold curve, blend. rewrite psum_front. cbn [pow]. unfold expo at 1. cbn [pow]. rewrite !Rmult_1_r.
  rewrite (psum_ext _ (fun k => / 2 * ((1 - / 2) * (/ 2) ^ k * expo x k))).
  - rewrite psum_scal. ring_simplify. lra.
  - intros k _. unfold expo. cbn [pow]. replace (2 * x * (/ 2 * (/ 2) ^ k)) with (x * (/ 2) ^ k) by lra. lra.
Qed.

Lemma load_step : forall K z, z * curve K z = 2 * z * curve (S K) (2 * z) - z * exp (- (2 * z)).
Proof. intros K z. rewrite curve_half. lra. Qed.

Lemma load_term : forall z c, 0 <= z -> 0 <= c <= z -> z * exp (- (2 * z)) <= 0.3682 * exp (- c).
Proof.
  intros z c Hz Hc. replace (- (2 * z)) with (- z + - z) by ring. rewrite exp_plus, <- Rmult_assoc.
  pose proof (mul_exp z Hz). pose proof (exp_pos (- z)). assert (exp (- z) <= exp (- c)) by (apply exp_le; lra).
  apply Rmult_le_compat; try lra. apply Rmult_le_pos; lra.
Qed.

Lemma load_lo : forall K z, 0.45 <= z -> 0.2795 <= z * curve K z.
Proof.
  intros K z Hz. rewrite load_step, (load_step (S K)), (load_step (S (S K))), (load_step (S (S (S K)))).
  pose proof (harmonic_lo (2 * (2 * (2 * (2 * z)))) (S (S (S (S K)))) ltac:(lra)) as H. fold (curve (S (S (S (S K)))) (2 * (2 * (2 * (2 * z))))) in H.
  pose proof (mul_exp (2 * z) ltac:(lra)) as T1. pose proof (mul_exp (2 * (2 * z)) ltac:(lra)) as T2.
  pose proof (load_term (2 * (2 * z)) 1.8 ltac:(lra) ltac:(lra)) as T3. pose proof (load_term (2 * (2 * (2 * z))) 3.6 ltac:(lra) ltac:(lra)) as T4.
  pose proof (exp_pos (- 0.45)) as P. set (q := exp (- 0.45)) in *.
  assert (Q : q <= 0.638).
  { assert (D : exists d, d = 0.05625) by eauto. destruct D as [d Hd].
    pose proof (exp_neg_up d ltac:(lra)) as E. unfold q. replace (- 0.45) with (INR 8 * - d) by (simpl; lra).
    rewrite <- exp_pow. apply Rle_trans with (0.945333 ^ 8); [|lra]. apply pow_incr. pose proof (exp_pos (- d)).
    split; [lra|]. eapply Rle_trans; [exact E|]. rewrite Hd. lra. }
  assert (E3 : exp (Ropp 1.8) = q * q * (q * q)) by (unfold q; rewrite <- !exp_plus; f_equal; lra).
  assert (E4 : exp (Ropp 3.6) = q * q * (q * q) * (q * q * (q * q))) by (unfold q; rewrite <- !exp_plus; f_equal; lra).
  assert (Q2 : q * q <= 0.40705) by nra. assert (Q4 : q * q * (q * q) <= 0.1657) by nra.
  assert (Q8 : q * q * (q * q) * (q * q * (q * q)) <= 0.02746) by (assert (0 <= q * q * (q * q)) by nra; nra).
  rewrite E3 in T3. rewrite E4 in T4. lra.
Qed.

Lemma mid_load : forall W p n, (10 <= p)%N -> 0.45 * m_R p <= INR n -> 0.279 <= INR n / m_R p * mean W p n inv_pow2.
Proof.
  intros W p n Hp Hn. pose proof (m_10 p Hp) as M. destruct (mean_curve W p n ltac:(lia)) as [L _].
  set (K := N.to_nat (W - p + 1)) in *. set (x := INR n / m_R p) in *.
  assert (X : 0.45 <= x) by (apply div_ge; lra).
  assert (J : 0 < / m_R p <= / 1024) by (split; [apply Rinv_0_lt_compat|apply Rinv_le_contravar]; lra).
  pose proof (load_lo K (x * (1 + / m_R p)) ltac:(nra)) as H.
  assert (C0 : 0 <= curve K (x * (1 + / m_R p))).
  { apply Rmult_le_reg_l with (x * (1 + / m_R p)); [nra|]. lra. }
  set (c := curve K (x * (1 + / m_R p))) in *. set (mu := mean W p n inv_pow2) in *. set (i := / m_R p) in *. clearbody c mu i x.
  assert (x * c <= x * mu) by (apply Rmult_le_compat_l; lra).
  assert (x * (1 + i) * c <= x * c * (1 + / 1024)).
  { replace (x * (1 + i) * c) with (x * c * (1 + i)) by ring. apply Rmult_le_compat_l; [apply Rmult_le_pos; lra|lra]. }
  lra.
Qed.

Lemma mid_spread : forall p n, (10 <= p <= 18)%N -> 0.45 * m_R p <= INR n <= 6.06 * m_R p ->
  0 < mean 64 p n inv_pow2 /\
  mean 64 p n (fun v => inv_pow2 v * inv_pow2 v) <= 2.13 * (mean 64 p n inv_pow2 * mean 64 p n inv_pow2).
Proof.
  intros p n Hp Hn. pose proof (m_10 p (proj1 Hp)) as M. destruct (Rle_or_lt (0.5391 * m_R p) (INR n)) as [L|L].
  - destruct (corrected_q p n Hp (tables_checked p ltac:(lia)) (conj L (proj2 Hn))) as (q & Q & P & V & _). split; [exact P|].
    eapply Rle_trans; [exact V|]. apply Rmult_le_compat_r; nra.
  - pose proof (mid_load 64 p n (proj1 Hp) (proj1 Hn)) as ML. set (x := INR n / m_R p) in *.
    assert (X : 0.45 <= x <= 0.5391) by (unfold x; split; [apply div_ge|apply div_le]; lra).
    assert (F : register_files 64 p n (file_of 64 p)) by (apply file_of_files; lia). destruct (hash_lists_exist 64 n) as (all & E).
    pose proof (ChernoffFacts.mean_le 64 p n (file_of 64 p) all ltac:(lia) F E (fun v => inv_pow2 v * inv_pow2 v) inv_pow2) as Q.
    set (mu := mean 64 p n inv_pow2) in *. assert (U : 0.51 <= mu) by nra. split; [lra|].
    eapply Rle_trans; [apply Q; intros v _; pose proof (inv_pow2_01 v); nra|]. nra.
Qed.

(** ** The lower tail of the harmonic sum *)
Theorem harmonic_lower_k : forall W p n k u, (4 <= p)%N -> (p < W)%N -> 0 < mean W p n inv_pow2 -> 0 < k ->
  mean W p n (fun v => inv_pow2 v * inv_pow2 v) <= k * (mean W p n inv_pow2 * mean W p n inv_pow2) -> 0 < u ->
  rare W n (exp (- (m_R p * (u ^ 2 / (2 * k)))))
    (fun hs => inv_sum (file_of W p hs) <= (1 - u) * (m_R p * mean W p n inv_pow2)).
Proof.
  intros W p n k u Hp HW P Hk V2 Hu. pose proof (m_ge p Hp) as M. set (mu := mean W p n inv_pow2) in *.
  set (e2 := mean W p n (fun v => inv_pow2 v * inv_pow2 v)) in *.
  set (l := u / (k * mu)). assert (Hl : 0 < l) by (apply Rdiv_lt_0_compat; [lra|apply Rmult_lt_0_compat; lra]).
  assert (El : l * mu = u / k) by (unfold l; field; lra).
  assert (F : register_files W p n (file_of W p)) by (apply file_of_files; lia).
  destruct (hash_lists_exist W n) as (all & E).
  assert (Mg : mean W p n (fun v => exp (- l * inv_pow2 v)) <= exp (- (l * mu) + l ^ 2 / 2 * (k * (mu * mu)))).
  { apply Rle_trans with (mean W p n (fun v => 1 * 1 + 1 * (- l * inv_pow2 v + l ^ 2 / 2 * (inv_pow2 v * inv_pow2 v)))).
    - apply (ChernoffFacts.mean_le W p n (file_of W p) all HW F E). intros v _.
      replace (- l * inv_pow2 v) with (- (l * inv_pow2 v)) by ring. pose proof (inv_pow2_01 v) as B.
      eapply Rle_trans; [apply exp_neg_up; nra|]. right. field.
    - rewrite mean_lin, mean_const, (mean_lin W p n inv_pow2 (fun v => inv_pow2 v * inv_pow2 v)). fold mu e2.
      eapply Rle_trans; [|apply exp_ineq1_le]. assert (0 <= l ^ 2) by apply pow2_ge_0. nra. }
  pose proof (chernoff W p n (file_of W p) inv_pow2 (- l) _ (- l * ((1 - u) * (m_R p * mu))) HW F (or_intror (ind_mono _ inv_pow2_decreasing)) Mg) as C.
  fold (m_R p) in C. eapply rare_weaken; [exact C| |].
  - apply exp_le. replace (l ^ 2 / 2 * (k * (mu * mu))) with (k / 2 * (l * mu) ^ 2) by field.
    replace (- l * ((1 - u) * (m_R p * mu))) with (- (m_R p * ((1 - u) * (l * mu)))) by ring. rewrite El.
    right. field. lra.
  - intros hs _ H. cbv beta. rewrite inv_sum_rsum in H. nra.
Qed.

(** ** Deviations and their mean squares *)
Definition zero_dev (W p : N) (n : nat) (hs : list N) : R :=
  Rabs (IZR (Z.of_N (zero_count (file_of W p hs))) - m_R p * below p n 0) / (INR n / m_R p * (m_R p * below p n 0)).

Lemma zero_scale : forall n p, (0 < n)%nat -> (4 <= p)%N -> 0 < INR n / m_R p * (m_R p * below p n 0).
Proof.
  intros n p H0 Hp. pose proof (m_ge p Hp). pose proof (below_pos p n Hp). assert (0 < INR n) by now apply lt_0_INR.
  apply Rmult_lt_0_compat; [apply Rdiv_lt_0_compat|apply Rmult_lt_0_compat]; lra.
Qed.

Lemma zero_dev_not : forall W p n hs t, (4 <= p)%N -> (0 < n)%nat -> zero_dev W p n hs < t -> ~ rare_zeros W p n (t * (INR n / m_R p)) hs.
Proof.
  intros W p n hs t Hp H0 H B. pose proof (zero_scale n p H0 Hp) as Z. unfold rare_zeros in B. unfold zero_dev in H.
  apply Rlt_not_le in H. apply H. apply div_ge; [exact Z|]. rewrite <- Rmult_assoc. exact B.
Qed.

Lemma zero_dev_rare : forall W p n hs t, (4 <= p)%N -> (0 < n)%nat -> t <= zero_dev W p n hs -> rare_zeros W p n (t * (INR n / m_R p)) hs.
Proof.
  intros W p n hs t Hp H0 H. pose proof (zero_scale n p H0 Hp) as Z. unfold rare_zeros. unfold zero_dev in H.
  apply (Rmult_le_compat_r _ _ _ (Rlt_le _ _ Z)) in H. unfold Rdiv in H at 2. rewrite (Rmult_assoc (Rabs _)), Rinv_l in H by lra. lra.
Qed.

Lemma zero_dev_square_gen : forall W k p n all, (10 <= p)%N -> (p < W)%N -> (0 < n)%nat ->
  below p n 0 + (m_R p - 1) * (1 - 2 / m_R p) ^ n - m_R p * (below p n 0 * below p n 0)
    <= k * (INR n / m_R p) ^ 2 * (below p n 0 * below p n 0) ->
  enumerates (hash_list W n) all ->
  rsum (fun hs => zero_dev W p n hs ^ 2) all <= k / m_R p * INR (length all).
Proof.
  intros W k p n all Hp HW H0 V HE. pose proof (m_10 p Hp) as M. pose proof (below_pos p n ltac:(lia)) as B.
  pose proof (zero_scale n p H0 ltac:(lia)) as Z.
  assert (N1 : 0 < INR n) by now apply lt_0_INR.
  pose proof (zeros_spread W p n (file_of W p) all HW ltac:(apply file_of_files; lia) HE) as S.
  set (z := INR n / m_R p * (m_R p * below p n 0)) in *.
  set (v := below p n 0 + (m_R p - 1) * (1 - 2 / m_R p) ^ n - m_R p * (below p n 0 * below p n 0)) in *.
  rewrite (rsum_ext _ (fun hs => / z ^ 2 * (IZR (Z.of_N (zero_count (file_of W p hs))) - m_R p * below p n 0) ^ 2)).
  2:{ intros hs _. unfold zero_dev. fold z. unfold Rdiv. rewrite Rpow_mult_distr, pow2_abs, pow_inv. ring. }
  rewrite rsum_scal. assert (Z2 : 0 < z ^ 2) by now apply pow_lt.
  apply Rmult_le_reg_l with (1 := Z2). rewrite <- Rmult_assoc, Rinv_r, Rmult_1_l by lra.
  eapply Rle_trans; [exact S|].
  replace (z ^ 2 * (k / m_R p * INR (length all))) with (m_R p * (k * (INR n / m_R p) ^ 2 * (below p n 0 * below p n 0)) * INR (length all)).
  - apply Rmult_le_compat_r; [apply pos_INR|]. apply Rmult_le_compat_l; lra.
  - unfold z. field. lra.
Qed.

Lemma zero_dev_square : forall p n all, (10 <= p)%N -> (p < 64)%N -> (0 < n)%nat -> INR n <= 2 * m_R p ->
  enumerates (hash_list 64 n) all ->
  rsum (fun hs => zero_dev 64 p n hs ^ 2) all <= 1.2 / m_R p * INR (length all).
Proof. intros p n all Hp HW H0 Hn HE. apply zero_dev_square_gen; auto. now apply zero_variance_2. Qed.

Definition lost_dev (n : nat) (hs : list N) : R := Rmax 0 (lost n hs / INR n - 0.0079).

Lemma lost_dev_le : forall n hs, (0 < n)%nat -> INR n <= 524288 -> 0 <= lost_dev n hs <= zero_dev 64 25 n hs.
Proof.
  intros n hs H0 Hn. assert (N1 : 0 < INR n) by now apply lt_0_INR. split; [apply Rmax_l|].
  pose proof (zero_scale n 25 H0 ltac:(lia)) as Z. unfold lost_dev, zero_dev.
  apply Rmax_lub; [apply div_ge; [exact Z|rewrite Rmult_0_l; apply Rabs_pos]|].
  apply div_ge; [exact Z|]. assert (E25 : m_R 25 = 33554432) by reflexivity. rewrite E25 in *.
  unfold lost. destruct (below_exp 25 n ltac:(lia)) as [_ B]. rewrite E25 in B.
  pose proof (below_pos 25 n ltac:(lia)) as B0.
  set (z := IZR (Z.of_N (zero_count (file_of 64 25 hs)))) in *. clearbody z.
  set (b := below 25 n 0) in *. clearbody b. set (x := INR n) in *. assert (X : 0 < x <= 524288) by lra. clearbody x.
  pose proof (exp_neg_up (x / 33554432) ltac:(lra)) as U.
  assert (B1 : b <= 1). { eapply Rle_trans; [exact B|]. nra. }
  assert (B2 : 33554432 * b <= 33554432 - x + 0.0079 * x) by nra.
  replace (x / 33554432 * (33554432 * b)) with (x * b) by field.
  set (t := (x - 33554432 + z) / x - 0.0079).
  assert (Et : x * t = x - 33554432 + z - 0.0079 * x) by (unfold t; field; lra).
  destruct (Rle_or_lt t 0) as [L|L].
  - apply Rle_trans with 0; [|apply Rabs_pos]. assert (0 < x * b) by nra. nra.
  - eapply Rle_trans; [|apply Rle_abs]. apply Rle_trans with (x * t); [|lra].
    replace (t * (x * b)) with (x * t * b) by ring. assert (0 < x * t) by nra. nra.
Qed.

Lemma lost_dev_square : forall p n all, (10 <= p <= 18)%N -> (0 < n)%nat -> INR n <= 2 * m_R p ->
  enumerates (hash_list 64 n) all ->
  rsum (fun hs => lost_dev n hs ^ 2) all <= 0.01 / m_R p * INR (length all).
Proof.
  intros p n all Hp H0 Hn HE. pose proof (m_R_bounds p ltac:(lia) ltac:(lia)) as MB.
  assert (E25 : m_R 25 = 33554432) by reflexivity.
  apply Rle_trans with (rsum (fun hs => zero_dev 64 25 n hs ^ 2) all).
  - apply rsum_le. intros hs _. apply pow_incr, lost_dev_le; [exact H0|lra].
  - eapply Rle_trans; [apply zero_dev_square; auto; [lia|lia|rewrite E25; lra]|].
    apply Rmult_le_compat_r; [apply pos_INR|]. rewrite E25. apply div_ge; lra.
Qed.

Lemma lost_dev_lt : forall n hs t, (0 < n)%nat -> lost_dev n hs < t -> lost n hs < INR n * (0.0079 + t).
Proof.
  intros n hs t H0 H. assert (N1 : 0 < INR n) by now apply lt_0_INR.
  assert (L : lost n hs / INR n - 0.0079 < t) by (eapply Rle_lt_trans; [apply Rmax_r|exact H]).
  replace (lost n hs) with (INR n * (lost n hs / INR n)) by (field; lra). apply Rmult_lt_compat_l; lra.
Qed.

Lemma lost_dev_ge : forall n hs t, (0 < n)%nat -> 0 < t -> t <= lost_dev n hs -> INR n * (0.0079 + t) <= lost n hs.
Proof.
  intros n hs t H0 Ht H. assert (N1 : 0 < INR n) by now apply lt_0_INR.
  assert (L : t <= lost n hs / INR n - 0.0079).
  { unfold lost_dev in H. destruct (Rle_or_lt (lost n hs / INR n - 0.0079) 0) as [L|L].
    - rewrite Rmax_left in H by exact L. lra.
    - rewrite Rmax_right in H by lra. exact H. }
  replace (lost n hs) with (INR n * (lost n hs / INR n)) by (field; lra). apply Rmult_le_compat_l; lra.
Qed.

(** The deviation of the harmonic sum, in units in which its mean square is at most 1/m. *)
Definition ratio_dev (q : R) (W p : N) (n : nat) (hs : list N) : R := Rabs (ratio W p n hs - 1) / q.

Lemma ratio_dev_square : forall q W p n all, (4 <= p)%N -> (p < W)%N -> 0 < q -> 0 < mean W p n inv_pow2 ->
  mean W p n (fun v => inv_pow2 v * inv_pow2 v) <= (1 + q ^ 2) * (mean W p n inv_pow2 * mean W p n inv_pow2) ->
  enumerates (hash_list W n) all ->
  rsum (fun hs => ratio_dev q W p n hs ^ 2) all <= / m_R p * INR (length all).
Proof.
  intros q W p n all Hp HW Hq P V HE. pose proof (m_ge p Hp) as M.
  pose proof (total_variance W p n (file_of W p) all HW ltac:(apply file_of_files; lia) HE inv_pow2 inv_pow2_decreasing) as TV.
  fold (m_R p) in TV. unfold total in TV. set (e1 := mean W p n inv_pow2) in *.
  set (e2 := mean W p n (fun v => inv_pow2 v * inv_pow2 v)) in *. set (mu := m_R p * e1) in *.
  assert (MU : 0 < mu) by (apply Rmult_lt_0_compat; lra).
  rewrite (rsum_ext _ (fun hs => / (q * mu) ^ 2 * (rsum inv_pow2 (file_of W p hs) - mu) ^ 2)).
  2:{ intros hs _. unfold ratio_dev, ratio. fold e1. fold mu. rewrite inv_sum_rsum. unfold Rdiv at 1. rewrite Rpow_mult_distr, pow2_abs. field. lra. }
  assert (Q : 0 < (q * mu) ^ 2) by (apply pow_lt, Rmult_lt_0_compat; lra).
  rewrite rsum_scal. apply Rmult_le_reg_l with (1 := Q).
  rewrite <- Rmult_assoc, Rinv_r, Rmult_1_l by lra. eapply Rle_trans; [exact TV|].
  replace ((q * mu) ^ 2 * (/ m_R p * INR (length all))) with (INR (length all) * (m_R p * (q ^ 2 * (e1 * e1)))).
  - apply Rmult_le_compat_l; [apply pos_INR|]. apply Rmult_le_compat_l; lra.
  - unfold mu. field. lra.
Qed.

Lemma ratio_dev_rare : forall q W p n hs t, (4 <= p)%N -> 0 < q -> 0 < mean W p n inv_pow2 ->
  (t <= ratio_dev q W p n hs <-> rare_harmonic W p n (q * t) hs).
Proof.
  intros q W p n hs t Hp Hq P. pose proof (m_ge p Hp) as M. unfold ratio_dev, ratio, rare_harmonic.
  set (mu := m_R p * mean W p n inv_pow2). assert (MU : 0 < mu) by (apply Rmult_lt_0_compat; lra).
  replace (inv_sum (file_of W p hs) / mu - 1) with ((inv_sum (file_of W p hs) - mu) * / mu) by (field; lra).
  rewrite Rabs_mult, (Rabs_pos_eq (/ mu)) by (left; now apply Rinv_0_lt_compat). set (a := Rabs (inv_sum (file_of W p hs) - mu)).
  replace (a * / mu / q) with (a / (mu * q)) by (field; lra). assert (0 < mu * q) by (apply Rmult_lt_0_compat; lra). split; intros H1.
  - apply (Rmult_le_compat_r (mu * q)) in H1; [|lra]. unfold Rdiv in H1. rewrite Rmult_assoc, Rinv_l in H1 by lra. lra.
  - apply div_ge; [assumption|]. lra.
Qed.

Lemma corrected_dev : forall p n all, (10 <= p <= 18)%N -> INR n <= 6.06 * m_R p -> enumerates (hash_list 64 n) all ->
  exists D, (forall hs, 0 <= D hs) /\ rsum (fun hs => D hs ^ 2) all <= / m_R p * INR (length all) /\
  rare 64 n (2 * exp (- (m_R p / 400))) (fun hs => / 10 <= D hs) /\
  forall t, 0 < t <= / 10 -> corrected_unless p n t (fun hs => t <= D hs).
Proof.
  intros p n all Hp Hn HE. pose proof (m_10 p (proj1 Hp)) as M.
  assert (I : 0 < / m_R p) by (apply Rinv_0_lt_compat; lra).
  destruct (Rle_or_lt (0.5391 * m_R p) (INR n)) as [L|L].
  - destruct (corrected_q p n Hp (tables_checked p ltac:(lia)) (conj L Hn)) as (q & Q & P & V & C).
    exists (ratio_dev q 64 p n). split; [|split; [|split]].
    + intros hs. unfold ratio_dev. apply div_ge; [lra|]. rewrite Rmult_0_l. apply Rabs_pos.
    + apply ratio_dev_square; auto; lia || lra.
    + eapply rare_weaken; [apply (harmonic_tail 64 p n q (/ 10)); auto; lia || lra|right|].
      * f_equal. f_equal. lra.
      * intros hs _ H. apply ratio_dev_rare; auto; lia || lra.
    + intros t Ht. split.
      * intros hs. destruct (Rle_dec t (ratio_dev q 64 p n hs)); auto.
      * intros hs fl c HH RF NB _ CR. apply (C t hs fl c Ht HH RF); [|exact CR].
        intros B. apply NB. apply ratio_dev_rare; auto; lia || lra.
  - exists (fun _ => 0). split; [intros; lra|]. split; [|split].
    + rewrite (rsum_ext _ (fun _ => 0)) by (intros; ring). rewrite rsum_const.
      pose proof (pos_INR (length all)). assert (0 <= / m_R p * INR (length all)) by (apply Rmult_le_pos; lra). lra.
    + eapply rare_weaken; [apply (rare_false 64 n 0); lra|pose proof (exp_pos (- (m_R p / 400))); lra|].
      intros hs _ H. lra.
    + intros t Ht. split; [intros hs; right; lra|intros; lra].
Qed.

(** ** The count never exceeds the raw estimate by much *)
Lemma plus_cap_raw : forall p H l c, (10 <= p <= 18)%N -> is_register_file 64 p H l -> 0 <= raw_R p l ->
  plus_R (reals (est_table p)) (reals (bias_table p)) p H c -> c <= 1.341 * m_R p \/ c <= 1.0001 * raw_R p l + 0.021 * m_R p.
Proof.
  intros p H l c Hp RF R0 (L & HL & P). pose proof (m_10 p (proj1 Hp)) as M.
  destruct P as [[G P]|[_ (l' & RF' & P)]].
  - left. pose proof (sparse_count p L c Hp G P) as [_ SC].
    assert (K : INR (length L) <= 0.8 * m_R p).
    { pose proof (gap_len_length L 0) as GL. unfold sparse_limit in G.
      assert (N2 : (5 * N.of_nat (length L) <= 4 * 2 ^ p)%N).
      { pose proof (N.mul_div_le (4 * 2 ^ p) 5 ltac:(discriminate)). lia. }
      apply N2Z.inj_le, IZR_le in N2. rewrite !N2Z.inj_mul, !mult_IZR, N2Z.inj_pow, nat_N_Z, <- INR_IZR_INZ in N2.
      change (IZR (Z.of_N 2 ^ Z.of_N p)) with (m_R p) in N2. change (IZR (Z.of_N 5)) with 5 in N2.
      change (IZR (Z.of_N 4)) with 4 in N2. lra. }
    lra.
  - rewrite <- (is_register_file_unique 64 p H _ l' ltac:(lia) RF RF') in P.
    destruct P as [(Z & T & P)|(_ & (raw & A & Q))].
    + left. pose proof (threshold_le p ltac:(lia)) as TL. unfold approx in P. change (IZR (2 ^ 28)) with 268435456 in P.
      apply Rabs_le_inv in P. destruct (Rle_or_lt 0 (linear_R (2 ^ p) (zero_count l))) as [Q|Q].
      * rewrite Rabs_pos_eq in P by exact Q. lra.
      * rewrite Rabs_left in P by exact Q. lra.
    + right. unfold approx in A. change (IZR (2 ^ 33)) with 8589934592 in A. apply Rabs_le_inv in A. rewrite Rabs_pos_eq in A by exact R0.
      destruct Q as [[R5 ->]|(R5 & y & I & D)]; [lra|].
      pose proof (interpolated_low p raw y Hp I) as LO.
      apply Rabs_le_inv in D. change (IZR (2 ^ 28)) with 268435456 in D. lra.
Qed.

Lemma cap_square : forall w c b, 0 <= w -> w <= c -> (c - 1) ^ 2 <= b -> 1 <= b -> (w - 1) ^ 2 <= b.
Proof. intros w c b Hw Hw2 Hc Hb. destruct (Rle_or_lt w 1); nra. Qed.

Section Middle.
Variables (e : env) (p : N) (n : nat) (C : list N -> R).
Hypothesis Hb : build_std e.
Hypothesis Ha : accurate e.
Hypothesis Hp : (10 <= p <= 18)%N.
Hypothesis Hn : 0.45 * m_R p <= INR n <= 6.06 * m_R p.
Hypothesis HC : plus_program e p n C.
Variable all : list (list N).
Hypothesis HE : enumerates (hash_list 64 n) all.

Let y := ratio 64 p n.
Let m := m_R p.
Let E := exp (- (m / 400)).
Let T := INR (length all).

Lemma mid_m : 1024 <= m.
Proof. exact (m_10 p (proj1 Hp)). Qed.

Lemma mid_n : (0 < n)%nat.
Proof. apply INR_lt. change (INR 0) with 0. pose proof mid_m. unfold m in *. lra. Qed.

Lemma mid_y : forall hs, hash_list 64 n hs -> 0 < y hs /\ raw_R p (file_of 64 p hs) <= INR n * (2.5856 / y hs).
Proof.
  intros hs HH. pose proof mid_m as M. destruct (mid_spread p n Hp Hn) as [P _].
  assert (I : 0 < inv_sum (file_of 64 p hs)) by (eapply file_inv_pos, (file_of_ok 64 p hs ltac:(lia) (proj2 HH))).
  pose proof (mid_load 64 p n (proj1 Hp) (proj1 Hn)) as ML. pose proof (alpha_ratio p ltac:(lia)) as A.
  assert (J : 0 < / m_R p) by (apply Rinv_0_lt_compat; unfold m in *; lra). pose proof (alpha_lower p ltac:(lia)) as A2.
  assert (A3 : alpha_R p <= alpha_R p * (1 + / m_R p)) by nra.
  unfold y, ratio, m in *. set (mu := mean 64 p n inv_pow2) in *. set (S := inv_sum (file_of 64 p hs)) in *.
  assert (MU : 0 < m_R p * mu) by (apply Rmult_lt_0_compat; lra). split; [apply Rdiv_lt_0_compat; lra|].
  unfold raw_R. fold S. replace (INR n * (2.5856 / (S / (m_R p * mu)))) with (2.5856 * (INR n / m_R p * mu) * (m_R p * m_R p) / S) by (field; lra).
  unfold Rdiv. apply Rmult_le_compat_r; [left; now apply Rinv_0_lt_compat|].
  apply Rmult_le_compat_r; [apply Rmult_le_pos; lra|]. fold (INR n / m_R p). lra.
Qed.

Lemma mid_count : forall hs, hash_list 64 n hs ->
  0 <= C hs <= IZR (2 ^ 65) /\ C hs / INR n <= Rmax 3 (0.0467 + 2.5859 / y hs).
Proof.
  intros hs HH. destruct (HC hs HH) as (V & ord & h & c & Hv & Hnr & Ho & Ep & SS & Ec & EC).
  destruct (plus_range V e ord h Hb Ha Hv Hnr Ho) as (c1 & E1 & _ & R1 & _).
  destruct (plus_value V e ord h Hb Ha Hv Hnr Ho) as (c2 & E2 & _ & P).
  rewrite Ec in E1, E2. injection E1 as <-. injection E2 as <-. rewrite <- EC in *. rewrite Ep in P.
  split; [exact R1|]. destruct (mid_y hs HH) as [Y RY]. pose proof mid_m as M. unfold m in *.
  assert (I : 0 < inv_sum (file_of 64 p hs)) by (eapply file_inv_pos, (file_of_ok 64 p hs ltac:(lia) (proj2 HH))).
  pose proof (file_of_ok 64 p hs ltac:(lia) (proj2 HH)) as RF0.
  pose proof (register_file_same 64 p hs (hist_hashes h) _ (fun x => iff_sym (SS x)) RF0) as RF. set (l := file_of 64 p hs) in *.
  assert (R0 : 0 <= raw_R p l).
  { unfold raw_R. pose proof (alpha_10 p Hp). apply Rmult_le_pos; [apply Rmult_le_pos; [lra|apply Rmult_le_pos; lra]|].
    left. now apply Rinv_0_lt_compat. }
  assert (N0 : 0 < INR n) by lra. assert (F : 0 < / y hs) by now apply Rinv_0_lt_compat.
  destruct (plus_cap_raw p _ l (C hs) Hp RF R0 P) as [B|B].
  - eapply Rle_trans; [|apply Rmax_l]. apply div_le; lra.
  - eapply Rle_trans; [|apply Rmax_r]. apply div_le; [exact N0|]. unfold Rdiv in *.
    assert (0 < INR n * / y hs) by (apply Rmult_lt_0_compat; lra). lra.
Qed.

Lemma mid_lower : forall u, 0 < u -> rsum (fun hs => mark _ (Rle_dec (y hs) (1 - u))) all <= exp (- (m * (u ^ 2 / 4.26))) * T.
Proof.
  intros u Hu. apply (mark_sum 64 n _ (fun hs => y hs <= 1 - u) (fun hs => Rle_dec (y hs) (1 - u)) all HE).
  pose proof mid_m as M. destruct (mid_spread p n Hp Hn) as [P V].
  pose proof (harmonic_lower_k 64 p n 2.13 u ltac:(lia) ltac:(lia) P ltac:(lra) V Hu) as H.
  replace (2 * 2.13) with 4.26 in H by lra. eapply rare_weaken; [exact H|apply Rle_refl|].
  intros hs HH Y. unfold y, ratio, m in *. assert (MU : 0 < m_R p * mean 64 p n inv_pow2) by (apply Rmult_lt_0_compat; lra).
  apply (Rmult_le_compat_r _ _ _ (Rlt_le _ _ MU)) in Y. unfold Rdiv in Y. rewrite Rmult_assoc, Rinv_l in Y by lra. lra.
Qed.

Lemma exp_big : forall k, 2 ^ k <= exp (INR k).
Proof.
  intros k. replace (INR k) with (INR k * 1) by ring. rewrite <- exp_pow. apply pow_incr. pose proof (exp_ineq1_le 1). lra.
Qed.

Theorem mid_generic : forall (D : list N -> R) (bad : list N -> Prop) (dec : forall hs, {bad hs} + {~ bad hs}),
  rare 64 n (5 * E) bad -> rsum D all <= 2.21 / m * T ->
  (forall hs, hash_list 64 n hs -> 0 <= D hs /\ (~ bad hs -> Rabs (C hs / INR n - 1) <= 0.015 + 1.75 * sqrt (D hs))) ->
  rsum (fun hs => (C hs / INR n - 1) ^ 2) all <= ((0.015 + 2.61 / sqrt m) ^ 2 + 28 * E) * T.
Proof.
  intros D bad dec RB SD PT. pose proof mid_m as M. assert (N0 : 460 <= INR n) by (unfold m in *; lra).
  assert (V0 : 0 < 2.21 / m) by (apply Rdiv_lt_0_compat; lra).
  assert (P113 : 0 < IZR (2 ^ 113)) by now apply IZR_lt.
  pose proof (mark_sum 64 n (5 * E) bad dec all HE RB) as S1.
  pose proof (mid_lower 0.2 ltac:(lra)) as S2. pose proof (mid_lower 0.75 ltac:(lra)) as S3. fold T in S1.
  assert (TP : 0 <= T) by apply pos_INR.
  eapply Rle_trans; [apply (square_split 64 n all HE (fun hs => C hs / INR n) D (fun hs => mark _ (dec hs))
    (fun hs => mark _ (Rle_dec (y hs) (1 - 0.2))) (fun hs => mark _ (Rle_dec (y hs) (1 - 0.75))) 0.015 1.75 (2.21 / m) 5.2 88.2 (IZR (2 ^ 113))
    (5 * E) (exp (- (m * (0.2 ^ 2 / 4.26)))) (exp (- (m * (0.75 ^ 2 / 4.26))))
    ltac:(lra) ltac:(lra) V0 ltac:(lra) ltac:(lra) (Rlt_le _ _ P113)); [|exact SD|exact S1|exact S2|exact S3]|].
  - intros hs HH. destruct (PT hs HH) as [D0 PW]. split; [exact D0|]. repeat split; try apply mark_nonneg.
    destruct (mid_count hs HH) as [CB CY]. destruct (mid_y hs HH) as [Y0 _].
    assert (C0 : 0 <= C hs / INR n) by (apply div_ge; lra).
    pose proof (mark_nonneg _ (dec hs)) as Q1.
    destruct (Rle_dec (y hs) (1 - 0.75)) as [L|L].
    + right. pose proof (mark_nonneg _ (Rle_dec (y hs) (1 - 0.2))) as Q2. replace (mark _ (left L)) with 1 by reflexivity.
      assert (W : C hs / INR n <= IZR (2 ^ 65) / 460).
      { unfold Rdiv. apply Rmult_le_compat; try lra; [left; apply Rinv_0_lt_compat; lra|apply Rinv_le_contravar; lra]. }
      change (IZR (2 ^ 65)) with 36893488147419103232 in W. change (IZR (2 ^ 113)) with 10384593717069655257060992658440192.
      assert ((C hs / INR n - 1) ^ 2 <= 10384593717069655257060992658440192).
      { apply (cap_square _ _ _ C0 W); lra. }
      lra.
    + destruct (Rle_dec (y hs) (1 - 0.2)) as [L2|L2].
      * right. replace (mark _ (left L2)) with 1 by reflexivity. replace (mark _ (right L)) with 0 by reflexivity. apply Rnot_le_lt in L.
        assert (W : C hs / INR n <= 10.391).
        { eapply Rle_trans; [exact CY|]. apply Rmax_lub; [lra|]. assert (2.5859 / y hs <= 10.3436) by (apply div_le; lra). lra. }
        assert ((C hs / INR n - 1) ^ 2 <= 88.2) by (apply (cap_square _ _ _ C0 W); lra). lra.
      * destruct (dec hs) as [B|B]; [right|left; now apply PW]. replace (mark _ (left B)) with 1 by reflexivity. replace (mark _ (right L2)) with 0 by reflexivity. replace (mark _ (right L)) with 0 by reflexivity. apply Rnot_le_lt in L2.
        assert (W : C hs / INR n <= 3.2791).
        { eapply Rle_trans; [exact CY|]. apply Rmax_lub; [lra|]. assert (2.5859 / y hs <= 3.2324) by (apply div_le; lra). lra. }
        assert ((C hs / INR n - 1) ^ 2 <= 5.2) by (apply (cap_square _ _ _ C0 W); lra). lra.
  - apply Rmult_le_compat_r; [exact TP|]. assert (EP : 0 < E) by apply exp_pos.
    assert (G2 : 88.2 * exp (- (m * (0.2 ^ 2 / 4.26))) <= E).
    { apply Rle_trans with (exp (INR 7) * exp (- (m * (0.2 ^ 2 / 4.26)))).
      - apply Rmult_le_compat_r; [left; apply exp_pos|]. eapply Rle_trans; [|apply exp_big]. lra.
      - rewrite <- exp_plus. apply exp_le. replace (INR 7) with 7 by (simpl; lra). unfold E. lra. }
    assert (G3 : IZR (2 ^ 113) * exp (- (m * (0.75 ^ 2 / 4.26))) <= E).
    { apply Rle_trans with (exp (INR 113) * exp (- (m * (0.75 ^ 2 / 4.26)))).
      - apply Rmult_le_compat_r; [left; apply exp_pos|]. eapply Rle_trans; [|apply exp_big]. right. exact (eq_sym (pow_IZR 2 113)).
      - rewrite <- exp_plus. apply exp_le. replace (INR 113) with 113 by (rewrite INR_IZR_INZ; reflexivity). unfold E. lra. }
    assert (S : 0 < sqrt m) by (apply sqrt_lt_R0; lra).
    assert (G1 : (0.015 + 1.75 * sqrt (2.21 / m)) ^ 2 <= (0.015 + 2.61 / sqrt m) ^ 2).
    { pose proof (sqrt_pos (2.21 / m)). apply pow_incr. split; [lra|]. apply Rplus_le_compat_l.
      rewrite sqrt_div by lra. assert (sqrt 2.21 <= 1.4867).
      { rewrite <- (sqrt_square 1.4867) by lra. apply sqrt_le_1; lra. }
      unfold Rdiv. rewrite <- Rmult_assoc. apply Rmult_le_compat_r; [left; now apply Rinv_0_lt_compat|]. lra. }
    lra.
Qed.

Lemma mid_window : forall hs t, hash_list 64 n hs -> plus_counts e p (INR n * (0.985 - 1.75 * t)) (INR n * (1.015 + 1.75 * t)) hs ->
  Rabs (C hs / INR n - 1) <= 0.015 + 1.75 * t.
Proof.
  intros hs t HH P. pose proof mid_m as M. assert (N0 : 0 < INR n) by (unfold m in *; lra).
  destruct (HC hs HH) as (V & ord & h & c & Hv & Hnr & Ho & Ep & SS & Ec & EC).
  destruct (P V ord h Hv Hnr Ho Ep SS) as (c' & Ec' & _ & B). rewrite Ec in Ec'. injection Ec' as <-. rewrite <- EC in B.
  apply Rabs_le.
  assert (C hs / INR n <= 1.015 + 1.75 * t) by (apply div_le; lra).
  assert (0.985 - 1.75 * t <= C hs / INR n) by (apply div_ge; lra). lra.
Qed.

Theorem mid_square : rsum (fun hs => (C hs / INR n - 1) ^ 2) all <= ((0.015 + 2.61 / sqrt m) ^ 2 + 28 * E) * T.
Proof.
  pose proof mid_m as M. pose proof mid_n as H0. pose proof (pos_INR (length all)) as TP. fold T in TP.
  assert (I : 0 < / m) by (apply Rinv_0_lt_compat; lra).
  destruct (corrected_dev p n all Hp (proj2 Hn) HE) as (D1 & P1 & S1 & R1 & CU). fold m E T in S1, R1.
  assert (T400 : m * (/ 10) ^ 2 / 4 = m / 400) by lra.
  destruct (Rle_or_lt (INR n) (2 * m_R p)) as [L|L].
  - pose proof (zero_dev_square p n all (proj1 Hp) ltac:(lia) H0 L HE) as S2. fold m T in S2.
    pose proof (lost_dev_square p n all Hp H0 L HE) as S3. fold m T in S3.
    pose proof (zeros_tail 64 p n (/ 10) (proj1 Hp) ltac:(lia) (conj (proj1 Hn) L) ltac:(lra)) as R2.
    pose proof (lost_tail p n (/ 10) Hp (conj (proj1 Hn) L) ltac:(lra)) as R3. fold m in R2, R3. rewrite T400 in R2, R3. fold E in R2, R3.
    set (bad := fun hs => / 10 <= D1 hs \/ / 10 <= zero_dev 64 p n hs \/ / 10 <= lost_dev n hs).
    assert (dec : forall hs, {bad hs} + {~ bad hs}).
    { intros hs. unfold bad. destruct (Rle_dec (/ 10) (D1 hs)), (Rle_dec (/ 10) (zero_dev 64 p n hs)), (Rle_dec (/ 10) (lost_dev n hs)); [left|left|left|left|left|left|left|right]; tauto. }
    apply (mid_generic (fun hs => D1 hs ^ 2 + (zero_dev 64 p n hs ^ 2 + lost_dev n hs ^ 2)) bad dec).
    + assert (DZ : forall hs, rare_zeros 64 p n (/ 10 * (INR n / m)) hs \/ ~ rare_zeros 64 p n (/ 10 * (INR n / m)) hs).
      { intros hs. unfold rare_zeros. match goal with |- ?a <= ?b \/ _ => destruct (Rle_dec a b); auto end. }
      assert (DD : forall hs, / 10 <= D1 hs \/ ~ / 10 <= D1 hs) by (intros hs; destruct (Rle_dec (/ 10) (D1 hs)); auto).
      eapply rare_weaken; [apply (rare_or _ _ _ _ _ _ R1 (rare_or _ _ _ _ _ _ R2 R3 DZ) DD)|lra|].
      intros hs HH [B|[B|B]]; [left; exact B|right; left; now apply zero_dev_rare; try lia|right; right; apply lost_dev_ge; auto; lra].
    + rewrite !rsum_plus. unfold Rdiv in *. lra.
    + intros hs HH. pose proof (pow2_ge_0 (D1 hs)) as Q1. pose proof (pow2_ge_0 (zero_dev 64 p n hs)) as Q2. pose proof (pow2_ge_0 (lost_dev n hs)) as Q3.
      split; [lra|]. intros NB. unfold bad in NB.
      assert (B1 : D1 hs < / 10) by (apply Rnot_le_lt; tauto). assert (B2 : zero_dev 64 p n hs < / 10) by (apply Rnot_le_lt; tauto).
      assert (B3 : lost_dev n hs < / 10) by (apply Rnot_le_lt; tauto).
      set (X := Rmax (D1 hs) (Rmax (zero_dev 64 p n hs) (lost_dev n hs))).
      pose proof (Rmax_l (D1 hs) (Rmax (zero_dev 64 p n hs) (lost_dev n hs))) as X1.
      pose proof (Rmax_r (D1 hs) (Rmax (zero_dev 64 p n hs) (lost_dev n hs))) as X4.
      pose proof (Rmax_l (zero_dev 64 p n hs) (lost_dev n hs)) as X2. pose proof (Rmax_r (zero_dev 64 p n hs) (lost_dev n hs)) as X3. fold X in X1, X4.
      assert (XL : X < / 10) by (unfold X; apply Rmax_lub_lt; [lra|apply Rmax_lub_lt; lra]).
      assert (X0 : 0 <= X) by (pose proof (P1 hs); lra).
      apply Rle_trans with (0.015 + 1.75 * X).
      * apply window_limit; [lra|exact XL|]. intros t Ht. apply mid_window; [exact HH|].
        apply (plus_low_point e p n t (fun hs => t <= D1 hs)); auto; try lra.
        -- apply CU. lra.
        -- apply zero_dev_not; auto; lra || lia.
        -- apply lost_dev_lt; [exact H0|lra].
      * apply Rplus_le_compat_l, Rmult_le_compat_l; [lra|]. rewrite <- (sqrt_pow2 X X0). apply sqrt_le_1; try lra; [apply pow2_ge_0|].
        assert (XC : X = D1 hs \/ X = zero_dev 64 p n hs \/ X = lost_dev n hs).
        { unfold X, Rmax. destruct (Rle_dec (zero_dev 64 p n hs) (lost_dev n hs)); destruct (Rle_dec (D1 hs) _); auto. }
        destruct XC as [->|[->| ->]]; lra.
  - pose proof (many_zeros_tail p n (/ 10) Hp ltac:(lra) ltac:(lra)) as R2. fold m in R2. rewrite T400 in R2. fold E in R2.
    set (bad := fun hs => / 10 <= D1 hs \/ many_zeros p hs).
    assert (dec : forall hs, {bad hs} + {~ bad hs}).
    { intros hs. unfold bad, many_zeros. destruct (Rle_dec (/ 10) (D1 hs)), (Rle_dec (0.2 * m_R p) (IZR (Z.of_N (zero_count (file_of 64 p hs))))); [left|left|left|right]; tauto. }
    apply (mid_generic (fun hs => D1 hs ^ 2) bad dec).
    + eapply rare_weaken; [apply (rare_or _ _ _ _ _ _ R1 R2)| |intros hs _ H; exact H].
      * intros hs. destruct (Rle_dec (/ 10) (D1 hs)); auto.
      * assert (0 < E) by apply exp_pos. lra.
    + eapply Rle_trans; [exact S1|]. apply Rmult_le_compat_r; [exact TP|]. unfold Rdiv. lra.
    + intros hs HH. split; [apply pow2_ge_0|]. intros NB. unfold bad in NB.
      assert (B1 : D1 hs < / 10) by (apply Rnot_le_lt; tauto). rewrite sqrt_pow2 by apply P1.
      apply window_limit; [lra|exact B1|]. intros t Ht. apply mid_window; [exact HH|]. pose proof (P1 hs).
      apply (plus_mid_point e p n t (fun hs => t <= D1 hs)); auto; try lra. apply CU. lra.
Qed.
End Middle.

(** ** Every cardinality *)
Theorem everywhere_square : forall e p n C, build_std e -> accurate e -> (10 <= p <= 18)%N ->
  (0 < n)%nat -> INR n <= IZR (2 ^ 59) -> plus_program e p n C ->
  forall all, enumerates (hash_list 64 n) all ->
  rsum (fun hs => (C hs / INR n - 1) ^ 2) all
  <= ((0.015 + 2.61 / sqrt (m_R p)) ^ 2 + 28 * exp (- (m_R p / 430))) * INR (length all).
Proof.
  intros e p n C Hb Ha Hp H0 Hn HC all HE. pose proof (m_10 p (proj1 Hp)) as M. pose proof (m_R_bounds p ltac:(lia) ltac:(lia)) as MB.
  assert (S : 0 < sqrt (m_R p)) by (apply sqrt_lt_R0; lra). pose proof (sqrt_sqrt (m_R p) ltac:(lra)) as SS.
  assert (I : 0 < / sqrt (m_R p)) by now apply Rinv_0_lt_compat.
  pose proof (exp_pos (- (m_R p / 430))) as EP. assert (TP := pos_INR (length all)).
  destruct (Rle_or_lt (INR n) (0.45 * m_R p)) as [L|L]; [|destruct (Rle_or_lt (INR n) (6.06 * m_R p)) as [L2|L2]].
  - eapply Rle_trans; [apply (small_square_all e p n C); auto; lia|]. apply Rmult_le_compat_r; [exact TP|].
    change (IZR (2 ^ 25)) with 33554432. assert (N1 : 0 < INR n) by now apply lt_0_INR.
    assert (Q1 : 1.13 / m_R p <= (2.61 / sqrt (m_R p)) ^ 2).
    { replace ((2.61 / sqrt (m_R p)) ^ 2) with (6.8121 / (sqrt (m_R p) * sqrt (m_R p))).
      - rewrite SS. unfold Rdiv. apply Rmult_le_compat_r; [left; apply Rinv_0_lt_compat|]; lra.
      - transitivity ((2.61 * / sqrt (m_R p)) ^ 2); [|reflexivity]. unfold Rdiv. rewrite Rinv_mult. lra. }
    assert (Q2 : 1.15 * INR n / 33554432 <= 0.005) by lra.
    assert (Q3 : (1.15 * INR n / 33554432) ^ 2 <= 0.005 ^ 2) by (apply pow_incr; lra).
    unfold Rdiv at 4. set (i := 2.61 / sqrt (m_R p)) in *. assert (0 < i) by (apply Rdiv_lt_0_compat; lra).
    fold (2.61 / sqrt (m_R p)). fold i. clearbody i. nra.
  - eapply Rle_trans; [apply (mid_square e p n C Hb Ha Hp ltac:(lra) HC all HE)|]. apply Rmult_le_compat_r; [exact TP|].
    apply Rplus_le_compat_l, Rmult_le_compat_l; [lra|]. apply exp_le. lra.
  - eapply Rle_trans; [apply (square_plus e p n C Hb Ha Hp ltac:(lra) Hn HC all HE (/ 10) ltac:(lra))|]. apply Rmult_le_compat_r; [exact TP|].
    replace (m_R p * (/ 10) ^ 2 / 4.3) with (m_R p / 430) by lra. apply Rplus_le_compat; [|lra].
    apply pow_incr. replace (1 - / 10) with 0.9 by lra. unfold Rdiv. lra.
Qed.
