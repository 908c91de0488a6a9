(** * Exponential tails of the harmonic sum from 4m values on *)
From Coq Require Import NArith ZArith Reals List Bool Lia Lra Permutation.
From Verif Require Import ModelRust Spec SpecReal SpecCount SpecDist SpecProb BitFacts CountFacts DistFacts ProbFacts MomentFacts
  HarmonicNum NegFacts ChernoffFacts RawFacts HarmonicMean AccFacts AccSmall TailFacts.
Import ListNotations.
Local Open Scope R_scope.

(** ** A sum over powers of two *)
Definition cube (s : R) : R := s ^ 3 * exp (- s).

Lemma mul_exp : forall u, 0 <= u -> u * exp (- u) <= 0.3682.
Proof.
  intros u Hu. pose proof (exp_ineq1_le (u - 1)) as E. replace (u - 1) with (u + - (1)) in E at 2 by ring.
  rewrite exp_plus in E. pose proof (exp_pos u) as P.
  assert (E1 : exp (- (1)) <= 0.3682).
  { pose proof (exp_neg_up (/ 16) ltac:(lra)) as H. replace (- (1)) with (INR 16 * - / 16) by (cbn; lra). rewrite <- exp_pow.
    pose proof (exp_pos (- / 16)).
    apply Rle_trans with ((1 - / 16 + (/ 16) ^ 2 / 2) ^ 16); [apply pow_incr; lra|]. lra. }
  rewrite exp_Ropp. apply Rmult_le_reg_r with (exp u); [lra|]. rewrite Rmult_assoc, Rinv_l by lra. nra.
Qed.

Lemma cube_lin : forall s, 0 <= s -> cube s <= 0.5424 * s.
Proof.
  intros s Hs. pose proof (mul_exp (s / 2) ltac:(lra)) as E. unfold cube.
  replace (- s) with (- (s / 2) + - (s / 2)) by field. rewrite exp_plus.
  pose proof (exp_pos (- (s / 2))) as P. set (e := exp (- (s / 2))) in *. clearbody e.
  set (v := s / 2 * e) in *. assert (0 <= v) by (unfold v; nra).
  replace (s ^ 3 * (e * e)) with (s * (4 * (v * v))) by (unfold v; field). rewrite Rmult_comm.
  apply Rmult_le_compat_r; [exact Hs|]. clearbody v. nra.
Qed.

Lemma cube_inv : forall s, 0 < s -> cube s <= 4.706 / s.
Proof.
  intros s Hs. pose proof (mul_exp (s / 4) ltac:(lra)) as E. unfold cube.
  replace (- s) with (- (s / 4) + - (s / 4) + (- (s / 4) + - (s / 4))) by field. rewrite !exp_plus.
  pose proof (exp_pos (- (s / 4))) as P. set (e := exp (- (s / 4))) in *. clearbody e.
  set (v := s / 4 * e) in *. assert (0 <= v) by (unfold v; nra).
  apply div_ge; [exact Hs|].
  replace (s ^ 3 * (e * e * (e * e)) * s) with (256 * ((v * v) * (v * v))) by (unfold v; field).
  clearbody v. assert (0 <= v * v <= 0.13558) by nra. nra.
Qed.

Lemma psum_front : forall f K, psum f (S K) = f O + psum (fun k => f (S k)) K.
Proof. intros f K. induction K; [cbn; lra|]. change (psum f (S (S K))) with (psum f (S K) + f (S K)). rewrite IHK. cbn. lra. Qed.

Lemma dyadic : forall K s, 0 < s -> psum (fun k => cube (s * (/ 2) ^ k)) K <= 4.81.
Proof.
  assert (G : forall K s, 0 < s ->
    (s <= 2.95 -> psum (fun k => cube (s * (/ 2) ^ k)) K <= 1.0848 * s) /\
    (2.95 < s -> psum (fun k => cube (s * (/ 2) ^ k)) K <= 4.81 - 4.706 / s)).
  { induction K; intros s Hs.
    - cbn. split; intros H; [lra|]. assert (4.706 / s <= 4.706 / 2.95) by (apply Rmult_le_compat_l; [lra|apply Rinv_le_contravar; lra]). lra.
    - rewrite psum_front. destruct (IHK (s / 2) ltac:(lra)) as [I1 I2].
      rewrite (psum_ext _ (fun k => cube (s / 2 * (/ 2) ^ k))) by (intros; cbn [pow]; f_equal; field).
      cbn [pow]. rewrite Rmult_1_r. pose proof (cube_lin s ltac:(lra)) as C1. pose proof (cube_inv s Hs) as C2. split; intros H.
      + specialize (I1 ltac:(lra)). lra.
      + assert (Es : 4.706 / (s / 2) = 2 * (4.706 / s)) by (field; lra).
        destruct (Rle_or_lt (s / 2) 2.95) as [L|L].
        * specialize (I1 L). assert (X : 2 * (4.706 / s) + 1.0848 * (s / 2) <= 4.81); [|lra].
          apply Rmult_le_reg_r with s; [exact Hs|].
          assert (Ei : 4.706 / s * s = 4.706) by (field; lra).
          replace ((2 * (4.706 / s) + 1.0848 * (s / 2)) * s) with (2 * (4.706 / s * s) + 1.0848 / 2 * (s * s)) by lra.
          rewrite Ei. nra.
        * specialize (I2 L). lra. }
  intros K s Hs. destruct (G K s Hs) as [G1 G2]. destruct (Rle_or_lt s 2.95) as [L|L]; [specialize (G1 L); lra|].
  specialize (G2 L). assert (0 < 4.706 / s) by (apply Rdiv_lt_0_compat; lra). lra.
Qed.

(** ** The remainder of the exponential *)
Section Large.
Variables (W p : N) (n : nat).
Hypothesis Hp : (4 <= p)%N.
Hypothesis HW : (p < W)%N.
Hypothesis Hlo : 4 * m_R p <= INR n.
Hypothesis Hhi : INR n <= IZR (2 ^ Z.of_N W) / 32.
Notation K := (N.to_nat (W - p + 1)).
Notation x := (INR n / m_R p).
Notation mu := (mean W p n inv_pow2).

Lemma remainder : forall r, 0 < r <= 0.15 ->
  mean W p n (fun v => (r * x * inv_pow2 v) ^ 3 * exp (r * x * inv_pow2 v)) <= 8 * r ^ 3.
Proof.
  intros r Hr. assert (X4 : 4 <= x) by exact (x_ge W p n Hp HW Hlo).
  pose proof (x_cap W p n Hp HW Hlo Hhi) as XK. fold (m_R p) in XK.
  set (g := fun v => (r * x * inv_pow2 v) ^ 3 * exp (r * x * inv_pow2 v)).
  assert (G0 : forall v, 0 <= r * x * inv_pow2 v).
  { intros v. rewrite inv_pow2_pow. apply Rmult_le_pos; [nra|]. apply pow_le. lra. }
  assert (Gp : forall v, 0 <= g v).
  { intros v. unfold g. apply Rmult_le_pos; [apply pow_le, G0|left; apply exp_pos]. }
  assert (Gd : forall v, g (v + 1)%N <= g v).
  { intros v. unfold g. pose proof (inv_pow2_decreasing v) as D. assert (D' : r * x * inv_pow2 (v + 1) <= r * x * inv_pow2 v) by (apply Rmult_le_compat_l; nra).
    apply Rmult_le_compat; [apply pow_le, G0|left; apply exp_pos|apply pow_incr; split; [apply G0|exact D']|now apply exp_le]. }
  unfold mean. rewrite rsum_range.
  apply Rle_trans with (g (W - p + 1)%N + psum (fun k => (r / (1 - r)) ^ 3 * cube ((1 - r) * x * (/ 2) ^ k)) K).
  - apply Rplus_le_compat_l, psum_le. intros k _.
    apply Rle_trans with (g (N.of_nat k) * expo x k).
    + pose proof (below_up p n k Hp) as B. fold (m_R p) in B. specialize (Gd (N.of_nat k)). specialize (Gp (N.of_nat k + 1)%N).
      pose proof (proj1 (expo_bounds x k ltac:(lra))) as EB.
      apply Rle_trans with ((g (N.of_nat k) - g (N.of_nat k + 1)%N) * expo x k); [apply Rmult_le_compat_l; lra|apply Rmult_le_compat_r; lra].
    + unfold g, expo, cube. rewrite inv_pow2_pow, Nnat.Nat2N.id. set (y := x * (/ 2) ^ k).
      replace (r * x * (/ 2) ^ k) with (r * y) by (unfold y; ring).
      replace ((1 - r) * x * (/ 2) ^ k) with ((1 - r) * y) by (unfold y; ring).
      rewrite Rmult_assoc, <- exp_plus. replace (- ((1 - r) * y)) with (r * y + - y) by ring.
      right. field. lra.
  - assert (EC : psum (fun k => (r / (1 - r)) ^ 3 * cube ((1 - r) * x * (/ 2) ^ k)) K <= (r / (1 - r)) ^ 3 * 4.81).
    { rewrite psum_scal. apply Rmult_le_compat_l; [apply pow_le; left; apply Rdiv_lt_0_compat; lra|]. apply dyadic. nra. }
    assert (EK : g (W - p + 1)%N <= 0.01 * r ^ 3).
    { unfold g. rewrite inv_pow2_pow. replace (r * x * (/ 2) ^ K) with (r * (x * (/ 2) ^ K)) by ring.
      set (y := x * (/ 2) ^ K) in *. clearbody y. rewrite Rpow_mult_distr, Rmult_assoc, Rmult_comm.
      apply Rmult_le_compat_r; [apply pow_le; lra|].
      assert (E : exp (r * y) <= 2).
      { eapply Rle_trans; [apply exp_quadratic; nra|]. assert (0 <= r * y <= 0.1) by nra. nra. }
      assert (Y : y ^ 3 <= (/ 64) ^ 3) by (apply pow_incr; lra).
      pose proof (exp_pos (r * y)). assert (0 <= y ^ 3) by (apply pow_le; lra).
      apply Rle_trans with ((/ 64) ^ 3 * 2); [apply Rmult_le_compat; lra|lra]. }
    assert (D : (r / (1 - r)) ^ 3 <= 1.63 * r ^ 3).
    { unfold Rdiv. rewrite Rpow_mult_distr, Rmult_comm. apply Rmult_le_compat_r; [apply pow_le; lra|].
      assert (I : 0 < / (1 - r) <= / 0.85) by (split; [apply Rinv_0_lt_compat|apply Rinv_le_contravar]; lra).
      apply Rle_trans with ((/ 0.85) ^ 3); [apply pow_incr; lra|lra]. }
    assert (0 <= r ^ 3) by (apply pow_le; lra). lra.
Qed.

Theorem harmonic_tail_large : forall file q t, register_files W p n file -> 0 < t <= 0.2 -> 0 < q <= 1.3 ->
  2.0983 * (1 + / m_R p) ^ 2 - 1 <= q ^ 2 ->
  rare W n (2 * exp (- (m_R p * t ^ 2 / 4)))
    (fun hs => q * t * (m_R p * mu) <= Rabs (inv_sum (file hs) - m_R p * mu)).
Proof.
  intros file q t HF Ht Hq Vq. pose proof (mean_pos W p n Hp HW Hlo) as Hmu. pose proof (mean_lo W p n Hp HW Hlo) as ML.
  fold (m_R p) in ML. assert (X4 : 4 <= x) by exact (x_ge W p n Hp HW Hlo).
  assert (M : 16 <= m_R p). { unfold m_R. apply IZR_le. apply (Z.pow_le_mono_r 2 4); lia. }
  assert (J : 0 < / m_R p <= / 16) by (split; [apply Rinv_0_lt_compat|apply Rinv_le_contravar]; lra).
  set (a := t / (2 * q)).
  assert (Q1 : 1.047 <= q).
  { assert (Q2 : 1.0983 <= q ^ 2) by (set (i := / m_R p) in *; clearbody i; nra). apply Rnot_lt_le. intros L. nra. }
  assert (Ha : 0 < a <= 0.0956).
  { split; [apply Rdiv_lt_0_compat; lra|]. apply div_le; nra. }
  set (r := a / (x * mu)). assert (Mx : 0.6767 <= x * mu).
  { set (y := x * mu) in *. replace (x * (1 + / m_R p) * mu) with (y * (1 + / m_R p)) in ML by (unfold y; ring).
    assert (0 < y) by (unfold y; nra). nra. }
  assert (Hr : 0 < r <= 1.478 * a).
  { split; [apply Rdiv_lt_0_compat; lra|]. apply div_le; [lra|]. nra. }
  pose proof (remainder r ltac:(lra)) as RM.
  eapply rare_weaken; [apply (remainder_tails W p n file HW HF inv_pow2 inv_pow2_decreasing Hmu q t); try lra|apply Rle_refl|].
  - intros v. rewrite inv_pow2_pow. apply pow_le. lra.
  - eapply Rle_trans; [apply (relative_variance W p n Hp HW Hlo Hhi)|]. fold (m_R p). apply Rmult_le_compat_r; [nra|exact Vq].
  - fold a. rewrite (mean_ext W p n _ (fun v => (r * x * inv_pow2 v) ^ 3 * exp (r * x * inv_pow2 v))).
    2:{ intros v. replace (r * x) with (a / mu); [reflexivity|]. unfold r. field. lra. }
    eapply Rle_trans; [exact RM|].
    assert (R3 : r ^ 3 <= (1.478 * a) ^ 3) by (apply pow_incr; lra). rewrite Rpow_mult_distr in R3.
    assert (0 <= a ^ 2) by apply pow2_ge_0. assert (a ^ 3 <= 0.0956 * a ^ 2) by (cbn [pow]; nra). nra.
  - intros hs _ H. rewrite inv_sum_rsum in H. exact H.
Qed.
End Large.

Theorem tail_large : forall W p n q t, (4 <= p)%N -> (p < W)%N ->
  4 * m_R p <= INR n -> INR n <= IZR (2 ^ Z.of_N W) / 32 -> 0 < t <= 0.2 -> 0 < q <= 1.3 ->
  2.0983 * (1 + / m_R p) ^ 2 - 1 <= q ^ 2 ->
  rare W n (2 * exp (- (m_R p * t ^ 2 / 4))) (rare_harmonic W p n (q * t)).
Proof. intros. apply harmonic_tail_large; auto. apply file_of_files. lia. Qed.
