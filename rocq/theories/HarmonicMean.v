(** * The expected value and variance of the harmonic sum, numerically *)
From Coq Require Import NArith ZArith Reals List Lia Lra.
From Verif Require Import ModelRust Spec SpecDist SpecProb SpecReal CountFacts DistFacts ProbFacts MomentFacts HarmonicNum.
Import ListNotations.
Local Open Scope R_scope.

(** ** Partial sums *)
Fixpoint psum (f : nat -> R) (n : nat) : R := match n with O => 0 | S n => psum f n + f n end.

Lemma psum_ext : forall f g n, (forall k, (k < n)%nat -> f k = g k) -> psum f n = psum g n.
Proof. induction n; intros H; cbn; [reflexivity|]. rewrite IHn, H by (intros; try apply H; lia). reflexivity. Qed.

Lemma psum_le : forall f g n, (forall k, (k < n)%nat -> f k <= g k) -> psum f n <= psum g n.
Proof. induction n; intros H; cbn; [lra|]. apply Rplus_le_compat; [apply IHn; intros; apply H; lia|apply H; lia]. Qed.

Lemma rsum_range : forall f n, rsum f (range n) = psum (fun k => f (N.of_nat k)) (N.to_nat n).
Proof.
  intros f n. unfold range. rewrite rsum_map. induction (N.to_nat n) as [|k IH]; [reflexivity|].
  rewrite seq_S, rsum_app, IH. cbn [psum Nat.add rsum fold_right]. lra.
Qed.

(** The weights [(1 - c) c^k] of the values [e k], and [c^K] for the rest. *)
Definition blend (c : R) (e : nat -> R) (K : nat) : R := c ^ K + psum (fun k => (1 - c) * c ^ k * e k) K.

Lemma blend_S : forall c e K, blend c e (S K) = blend c e K - (1 - c) * c ^ K * (1 - e K).
Proof. intros c e K. unfold blend. cbn [psum pow]. ring. Qed.

Lemma blend_le : forall c e e' K, 0 <= c <= 1 -> (forall k, (k < K)%nat -> e k <= e' k) -> blend c e K <= blend c e' K.
Proof.
  intros c e e' K Hc H. unfold blend. apply Rplus_le_compat_l, psum_le. intros k Hk.
  apply Rmult_le_compat_l; [|auto]. apply Rmult_le_pos; [lra|]. apply pow_le. lra.
Qed.

Lemma blend_decr : forall c e K d, 0 <= c <= 1 -> (forall k, e k <= 1) -> blend c e (K + d) <= blend c e K.
Proof.
  intros c e K d Hc He. induction d; [rewrite Nat.add_0_r; lra|]. rewrite Nat.add_succ_r, blend_S.
  specialize (He (K + d)%nat). pose proof (pow_le c (K + d) (proj1 Hc)).
  assert (0 <= (1 - c) * c ^ (K + d) * (1 - e (K + d)%nat)) by (apply Rmult_le_pos; [apply Rmult_le_pos|]; lra). lra.
Qed.

(** Truncating early adds little: [1 - e k <= x / 2^k]. *)
Lemma blend_trunc : forall c e x K d, 0 <= c <= 1 -> 0 <= x -> (forall k, 1 - e k <= x * (/ 2) ^ k) ->
  blend c e K <= blend c e (K + d) + 2 * (1 - c) * x * (c / 2) ^ K * (1 - (/ 2) ^ d).
Proof.
  intros c e x K d Hc Hx He. induction d; [rewrite Nat.add_0_r; cbn; lra|]. rewrite Nat.add_succ_r, blend_S.
  assert (C : 0 <= (1 - c) * c ^ (K + d)) by (apply Rmult_le_pos; [lra|apply pow_le; lra]).
  assert (A : (1 - c) * c ^ (K + d) * (1 - e (K + d)%nat) <= (1 - c) * c ^ (K + d) * (x * (/ 2) ^ (K + d)))
    by (apply Rmult_le_compat_l; auto).
  assert (B : (1 - c) * c ^ (K + d) * (x * (/ 2) ^ (K + d)) <= (1 - c) * x * (c / 2) ^ K * (/ 2) ^ d).
  { replace ((1 - c) * c ^ (K + d) * (x * (/ 2) ^ (K + d))) with ((1 - c) * x * (c / 2) ^ K * ((/ 2) ^ d * c ^ d)).
    2:{ unfold Rdiv. rewrite Rpow_mult_distr, !pow_add. ring. }
    assert (0 <= (1 - c) * x * (c / 2) ^ K).
    { apply Rmult_le_pos; [apply Rmult_le_pos; lra|apply pow_le; lra]. }
    apply Rmult_le_compat_l; [assumption|]. rewrite <- (Rmult_1_r ((/ 2) ^ d)) at 2.
    apply Rmult_le_compat_l; [apply pow_le; lra|]. rewrite <- (pow1 d). apply pow_incr. lra. }
  cbn [pow]. lra.
Qed.

(** ** The exponential case *)
Definition expo (x : R) (k : nat) : R := exp (- (x * (/ 2) ^ k)).

Lemma expo_bounds : forall x k, 0 <= x -> 0 < expo x k <= 1 /\ 1 - expo x k <= x * (/ 2) ^ k.
Proof.
  intros x k Hx. unfold expo. assert (0 <= x * (/ 2) ^ k) by (apply Rmult_le_pos; [lra|apply pow_le; lra]).
  split; [split; [apply exp_pos|]|].
  - rewrite <- exp_0. destruct (Req_dec (x * (/ 2) ^ k) 0) as [->|]; [rewrite Ropp_0; lra|].
    left. apply exp_increasing. lra.
  - pose proof (exp_ineq1_le (- (x * (/ 2) ^ k))). lra.
Qed.

Lemma expo_series : forall r x n w, r <> 0 ->
  series r (S n) w (expo x n) = w * r ^ n * psum (fun k => (/ r) ^ k * expo x k) (S n).
Proof.
  intros r x n w Hr. revert w. induction n; intros w.
  - cbn. field.
  - cbn [series]. fold (series r n (r * (r * w))).
    change (w * expo x (S n) + series r (S n) (r * w) (expo x (S n) * expo x (S n)) =
            w * r ^ S n * psum (fun k => (/ r) ^ k * expo x k) (S (S n))).
    replace (expo x (S n) * expo x (S n)) with (expo x n).
    2:{ unfold expo. rewrite <- exp_plus. f_equal. cbn [pow]. field. }
    rewrite IHn. remember (S n) as a eqn:Ea. cbn [psum]. rewrite (pow_inv r a).
    assert (r ^ a <> 0) by now apply pow_nonzero.
    replace (r ^ n) with (r ^ a * / r) by (rewrite Ea; cbn [pow]; field; exact Hr).
    generalize dependent (r ^ a). intros ra Hra. field. auto.
Qed.

Lemma psum_scal : forall c f n, psum (fun k => c * f k) n = c * psum f n.
Proof. induction n; cbn; [lra|]. rewrite IHn. lra. Qed.

Lemma blend_series : forall r x s, 1 <= r ->
  blend (/ r) (expo x) (S s) = (/ r) ^ S s + (r - 1) * (/ r) ^ S s * series r (S s) 1 (expo x s).
Proof.
  intros r x s Hr. rewrite expo_series by lra. unfold blend. f_equal.
  rewrite (psum_ext _ (fun k => (1 - / r) * ((/ r) ^ k * expo x k))) by (intros; ring).
  rewrite psum_scal. assert (r ^ s <> 0) by (apply pow_nonzero; lra). cbn [pow]. rewrite (pow_inv r s). field.
  split; [assumption|lra].
Qed.

(** [x = y 2^s] with [1 <= y <= 2]. *)
Lemma octave : forall x, 4 <= x -> exists s y, (2 <= s)%nat /\ 1 <= y <= 2 /\ x = y * 2 ^ s.
Proof.
  intros x Hx. assert (exists k, x <= 2 ^ (3 + k)) as (k & Hk).
  { destruct (Pow_x_infinity 2 ltac:(rewrite Rabs_right; lra) x) as (k & Hk).
    exists k. specialize (Hk k (le_n _)). rewrite Rabs_right in Hk by (apply Rle_ge, pow_le; lra).
    rewrite pow_add. assert (0 <= 2 ^ k) by (apply pow_le; lra). lra. }
  induction k.
  - exists 2%nat, (x / 4). split; [lia|]. cbn in Hk |- *. split; [lra|field].
  - destruct (Rle_dec x (2 ^ (3 + k))); [auto|]. exists (3 + k)%nat, (x / 2 ^ (3 + k)).
    rewrite Nat.add_succ_r in Hk. change (2 ^ S (3 + k)) with (2 * 2 ^ (3 + k)) in Hk.
    assert (P : 0 < 2 ^ (3 + k)) by (apply pow_lt; lra). split; [lia|]. split.
    + split; apply Rmult_le_reg_r with (1 := P); unfold Rdiv; rewrite Rmult_assoc, Rinv_l by lra; lra.
    + field. lra.
Qed.

Lemma expo_base : forall y s, expo (y * 2 ^ s) (s + 15) = base y.
Proof.
  intros y s. unfold expo, base. f_equal. f_equal. rewrite pow_add, pow_inv.
  assert (2 ^ s <> 0) by (apply pow_nonzero; lra). cbn [pow]. field. assumption.
Qed.

Theorem harmonic_lo : forall x K, 4 <= x -> 0.7190 <= x * blend (/ 2) (expo x) K.
Proof.
  intros x K Hx. destruct (octave x Hx) as (s & y & Hs & Hy & E).
  assert (Hx0 : 0 <= x) by lra.
  apply Rle_trans with (x * blend (/ 2) (expo x) (K + S (s + 15))).
  2:{ apply Rmult_le_compat_l; [lra|]. apply blend_decr; [lra|]. intros k. apply expo_bounds, Hx0. }
  apply Rle_trans with (x * psum (fun k => (1 - / 2) * (/ 2) ^ k * expo x k) (S (s + 15))).
  - pose proof (blend_series 2 x (s + 15) ltac:(lra)) as B. unfold blend in B. apply Rplus_eq_reg_l in B.
    rewrite B. replace (expo x (s + 15)) with (base y) by (rewrite E, expo_base; reflexivity).
    destruct (series_bounds y Hy) as (L & _ & _).
    pose proof (series_longer 2 (s - 2) 18 1 (base y) ltac:(lra) ltac:(lra) (Rlt_le _ _ (base_pos y))) as M.
    replace (18 + (s - 2))%nat with (S (s + 15)) in M by lia. rewrite E.
    replace ((/ 2) ^ S (s + 15)) with (/ 65536 * / 2 ^ s).
    2:{ replace (S (s + 15)) with (16 + s)%nat by lia. rewrite pow_add, (pow_inv 2 s). cbn [pow]. field. apply pow_nonzero. lra. }
    assert (P : 0 < 2 ^ s) by (apply pow_lt; lra).
    replace (y * 2 ^ s * ((2 - 1) * (/ 65536 * / 2 ^ s) * series 2 (S (s + 15)) 1 (base y)))
      with (y * series 2 (S (s + 15)) 1 (base y) / 65536) by (field; lra).
    generalize dependent (series 2 18 1 (base y)). generalize (series 2 (S (s + 15)) 1 (base y)). intros. nra.
  - apply Rmult_le_compat_l; [lra|]. unfold blend.
    assert (Mono : forall f a b, (forall k, 0 <= f k) -> psum f a <= psum f (b + a)).
    { intros f a b Hf. induction b; [cbn; lra|]. cbn [Nat.add psum]. specialize (Hf (b + a)%nat). lra. }
    pose proof (Mono (fun k => (1 - / 2) * (/ 2) ^ k * expo x k) (S (s + 15)) K) as M.
    assert (0 <= (/ 2) ^ (K + S (s + 15))) by (apply pow_le; lra).
    enough (psum (fun k => (1 - / 2) * (/ 2) ^ k * expo x k) (S (s + 15)) <= psum (fun k => (1 - / 2) * (/ 2) ^ k * expo x k) (K + S (s + 15))) by lra.
    apply M. intros k. apply Rmult_le_pos; [apply Rmult_le_pos; [lra|apply pow_le; lra]|].
    left. apply expo_bounds, Hx0.
Qed.

Theorem harmonic_up : forall x K, 4 <= x ->
  x * blend (/ 2) (expo x) K <= 0.7226 + (x * (/ 2) ^ K) ^ 2 /\
  x * x * blend (/ 4) (expo x) K <= 1.0846 + 2 * (x * (/ 2) ^ K) ^ 3.
Proof.
  intros x K Hx. destruct (octave x Hx) as (s & y & Hs & Hy & E).
  assert (Hx0 : 0 <= x) by lra.
  assert (A : forall c, 0 <= c <= 1 -> blend c (expo x) K <= blend c (expo x) (S (s + 15)) + 2 * (1 - c) * x * (c / 2) ^ K).
  { intros c Hc. set (d := S (s + 15)). destruct (Nat.le_gt_cases K d) as [L|G].
    - pose proof (blend_trunc c (expo x) x K (d - K) Hc Hx0 (fun k => proj2 (expo_bounds x k Hx0))) as T.
      replace (K + (d - K))%nat with d in T by lia.
      assert (0 <= 2 * (1 - c) * x * (c / 2) ^ K).
      { apply Rmult_le_pos; [apply Rmult_le_pos; lra|apply pow_le; lra]. }
      assert (0 <= (/ 2) ^ (d - K)) by (apply pow_le; lra). nra.
    - pose proof (blend_decr c (expo x) d (K - d) Hc (fun k => proj2 (proj1 (expo_bounds x k Hx0)))) as T.
      replace (d + (K - d))%nat with K in T by lia.
      assert (0 <= 2 * (1 - c) * x * (c / 2) ^ K).
      { apply Rmult_le_pos; [apply Rmult_le_pos; lra|apply pow_le; lra]. } lra. }
  destruct (series_up_all y (S (s + 15)) Hy) as (U2 & U4).
  assert (P : 0 < 2 ^ s) by (apply pow_lt; lra).
  assert (P2 : (/ 2) ^ S (s + 15) = / 65536 * / 2 ^ s).
  { replace (S (s + 15)) with (16 + s)%nat by lia. rewrite pow_add, (pow_inv 2 s). cbn [pow]. field. lra. }
  assert (P4 : (/ 4) ^ S (s + 15) = / 4294967296 * (/ 2 ^ s * / 2 ^ s)).
  { replace (/ 4) with (/ 2 * / 2) by field. rewrite Rpow_mult_distr, P2. field. lra. }
  split.
  - specialize (A (/ 2) ltac:(lra)).
    assert (B : x * blend (/ 2) (expo x) (S (s + 15)) <= 0.7226).
    { rewrite (blend_series 2 x (s + 15) ltac:(lra)).
      replace (expo x (s + 15)) with (base y) by (rewrite E, expo_base; reflexivity). rewrite P2, E.
      generalize dependent (series 2 (S (s + 15)) 1 (base y)). intros S0 U2.
      replace (y * 2 ^ s * (/ 65536 * / 2 ^ s + (2 - 1) * (/ 65536 * / 2 ^ s) * S0)) with (y / 65536 + y * S0 / 65536) by (field; lra). lra. }
    apply Rle_trans with (x * (blend (/ 2) (expo x) (S (s + 15)) + 2 * (1 - / 2) * x * (/ 2 / 2) ^ K)).
    + apply Rmult_le_compat_l; lra.
    + replace (/ 2 / 2) with (/ 2 * / 2) by field. rewrite Rpow_mult_distr. cbn [pow]. lra.
  - specialize (A (/ 4) ltac:(lra)).
    assert (B : x * x * blend (/ 4) (expo x) (S (s + 15)) <= 1.0846).
    { rewrite (blend_series 4 x (s + 15) ltac:(lra)).
      replace (expo x (s + 15)) with (base y) by (rewrite E, expo_base; reflexivity). rewrite P4, E.
      generalize dependent (series 4 (S (s + 15)) 1 (base y)). intros S0 U4.
      replace (y * 2 ^ s * (y * 2 ^ s) * (/ 4294967296 * (/ 2 ^ s * / 2 ^ s) + (4 - 1) * (/ 4294967296 * (/ 2 ^ s * / 2 ^ s)) * S0))
        with ((y * y + y * y * (3 * S0)) / 4294967296) by (field; lra). nra. }
    apply Rle_trans with (x * x * (blend (/ 4) (expo x) (S (s + 15)) + 2 * (1 - / 4) * x * (/ 4 / 2) ^ K)).
    + apply Rmult_le_compat_l; [nra|lra].
    + replace (/ 4 / 2) with (/ 2 * (/ 2 * / 2)) by field. rewrite !Rpow_mult_distr. cbn [pow].
      assert (0 <= (/ 2) ^ K) by (apply pow_le; lra). assert (0 <= x * (/ 2) ^ K) by (apply Rmult_le_pos; lra).
      set (h := (/ 2) ^ K) in *.
      assert (0 <= x * h * (x * h * (x * h))) by (repeat apply Rmult_le_pos; lra). nra.
Qed.

(** ** Registers *)
Lemma exp_pow : forall a n, exp a ^ n = exp (INR n * a).
Proof. intros a n. rewrite <- Rpower_pow by apply exp_pos. unfold Rpower. now rewrite ln_exp. Qed.

Definition inv_pow2 (v : N) : R := / IZR (2 ^ Z.of_N v).

Lemma inv_pow2_pow : forall v, inv_pow2 v = (/ 2) ^ N.to_nat v.
Proof.
  intros v. unfold inv_pow2. rewrite pow_inv. f_equal. rewrite pow_IZR. f_equal. rewrite N_nat_Z. reflexivity.
Qed.

Lemma inv_pow2_decreasing : decreasing inv_pow2.
Proof.
  intros k. unfold inv_pow2. apply Rinv_le_contravar; [apply pow2_pos; lia|]. apply IZR_le.
  apply Z.pow_le_mono_r; lia.
Qed.

Lemma inv_sum_rsum : forall l, inv_sum l = rsum inv_pow2 l.
Proof. reflexivity. Qed.

Section Mean.
Variables (W p : N) (n : nat).
Notation K := (N.to_nat (W - p + 1)).
Notation m := (IZR (2 ^ Z.of_N p)).
Notation x := (INR n / m).

Lemma mean_blend : forall c g, (forall v, g v = c ^ N.to_nat v) ->
  mean W p n g = blend c (fun k => below p n (N.of_nat k)) K.
Proof.
  intros c g Hg. unfold mean, blend. rewrite Hg. f_equal. rewrite rsum_range. apply psum_ext. intros k Hk.
  rewrite !Hg. replace (N.to_nat (N.of_nat k + 1)) with (S k) by lia. rewrite Nnat.Nat2N.id. cbn [pow]. ring.
Qed.

Lemma q_half : forall k, / IZR (2 ^ Z.of_N (p + N.of_nat k)) = / m * (/ 2) ^ k.
Proof.
  intros k. rewrite N2Z.inj_add, Z.pow_add_r by lia. rewrite mult_IZR, Rinv_mult. f_equal.
  rewrite pow_inv, pow_IZR. do 3 f_equal. lia.
Qed.

Lemma below_up : forall k, (4 <= p)%N -> below p n (N.of_nat k) <= expo x k.
Proof.
  intros k Hp. unfold below, expo. rewrite q_half. pose proof (pow2_pos (Z.of_N p) ltac:(lia)) as Hm.
  set (q := / m * (/ 2) ^ k).
  assert (H1 : (1 <= 2 ^ Z.of_N p)%Z) by (apply Z.pow_le_mono_r with (b := 0%Z); lia). apply IZR_le in H1.
  assert (Hq : 0 <= q <= 1).
  { unfold q. assert (0 < / m <= 1). { split; [apply Rinv_0_lt_compat; lra|]. rewrite <- Rinv_1. apply Rinv_le_contravar; lra. }
    assert (0 <= (/ 2) ^ k <= 1). { split; [apply pow_le; lra|]. rewrite <- (pow1 k). apply pow_incr; lra. } nra. }
  apply Rle_trans with (exp (- q) ^ n).
  - apply pow_incr. split; [lra|]. pose proof (exp_ineq1_le (- q)). lra.
  - right. rewrite exp_pow. f_equal. unfold q. field. lra.
Qed.

Lemma below_lo : forall k, (4 <= p)%N -> expo (x * (1 + / m)) k <= below p n (N.of_nat k).
Proof.
  intros k Hp. unfold below, expo. rewrite q_half. pose proof (pow2_pos (Z.of_N p) ltac:(lia)) as Hm.
  set (q := / m * (/ 2) ^ k).
  assert (H1 : (16 <= 2 ^ Z.of_N p)%Z) by (apply (Z.pow_le_mono_r 2 4); lia). apply IZR_le in H1.
  assert (Hi : 0 < / m <= / 16). { split; [apply Rinv_0_lt_compat; lra|]. apply Rinv_le_contravar; lra. }
  assert (Hh : 0 <= (/ 2) ^ k <= 1). { split; [apply pow_le; lra|]. rewrite <- (pow1 k). apply pow_incr; lra. }
  assert (Hq : 0 <= q <= / m) by (unfold q; nra).
  apply Rle_trans with (exp (- (q * (1 + / m))) ^ n).
  - right. rewrite exp_pow. f_equal. unfold q. field. lra.
  - apply pow_incr. split; [left; apply exp_pos|].
    apply Rle_trans with (exp (- (q + q * q))).
    + destruct (Req_dec (q * (1 + / m)) (q + q * q)) as [->|]; [lra|]. left. apply exp_increasing. nra.
    + pose proof (exp_neg_up (q + q * q) ltac:(nra)) as E. nra.
Qed.

Lemma below_le1 : forall k, (4 <= p)%N -> below p n (N.of_nat k) <= 1.
Proof.
  intros k Hp. eapply Rle_trans; [now apply below_up|]. apply expo_bounds.
  apply Rmult_le_pos; [apply pos_INR|]. left. apply Rinv_0_lt_compat, pow2_pos. lia.
Qed.

(** From [4m] values on, up to [2^(W-5)]. *)
Hypothesis Hp : (4 <= p)%N.
Hypothesis HW : (p < W)%N.
Hypothesis Hlo : 4 * m <= INR n.
Hypothesis Hhi : INR n <= IZR (2 ^ Z.of_N W) / 32.

Lemma x_ge : 4 <= x.
Proof.
  pose proof (pow2_pos (Z.of_N p) ltac:(lia)) as Hm. apply Rmult_le_reg_r with (1 := Hm).
  unfold Rdiv. rewrite Rmult_assoc, Rinv_l by lra. lra.
Qed.

Lemma x_tail : x * (/ 2) ^ K = INR n / (2 * IZR (2 ^ Z.of_N W)).
Proof.
  pose proof (pow2_pos (Z.of_N p) ltac:(lia)) as Hm.
  rewrite <- inv_pow2_pow. unfold inv_pow2.
  pose proof (pow2_pos (Z.of_N (W - p + 1)) ltac:(lia)) as Hk.
  replace (INR n / m * / IZR (2 ^ Z.of_N (W - p + 1))) with (INR n * / (m * IZR (2 ^ Z.of_N (W - p + 1)))) by (field; lra).
  rewrite <- mult_IZR, <- Z.pow_add_r by lia. replace (Z.of_N p + Z.of_N (W - p + 1))%Z with (Z.of_N W + 1)%Z by lia.
  rewrite Z.pow_add_r by lia. rewrite mult_IZR. change (IZR (2 ^ 1)) with 2.
  unfold Rdiv. now rewrite (Rmult_comm 2).
Qed.

Lemma mean_up_gen : x * mean W p n inv_pow2 <= 0.7226 + (INR n / (2 * IZR (2 ^ Z.of_N W))) ^ 2.
Proof.
  rewrite (mean_blend (/ 2) inv_pow2 inv_pow2_pow), <- x_tail. pose proof x_ge as Hx.
  apply Rle_trans with (x * blend (/ 2) (expo x) K).
  - apply Rmult_le_compat_l; [lra|]. apply blend_le; [lra|]. intros k _. now apply below_up.
  - apply (harmonic_up x K Hx).
Qed.

Lemma mean_sq_up_gen : x * x * mean W p n (fun v => inv_pow2 v * inv_pow2 v)
  <= 1.0846 + 2 * (INR n / (2 * IZR (2 ^ Z.of_N W))) ^ 3.
Proof.
  rewrite (mean_blend (/ 4)).
  2:{ intros v. rewrite inv_pow2_pow, <- Rpow_mult_distr. f_equal. field. }
  rewrite <- x_tail. pose proof x_ge as Hx.
  apply Rle_trans with (x * x * blend (/ 4) (expo x) K).
  - apply Rmult_le_compat_l; [nra|]. apply blend_le; [lra|]. intros k _. now apply below_up.
  - apply (harmonic_up x K Hx).
Qed.

Lemma x_cap : 0 <= x * (/ 2) ^ K <= / 64.
Proof.
  pose proof x_ge as Hx. pose proof (pow2_pos (Z.of_N W) ltac:(lia)) as HWp. rewrite x_tail.
  set (w := IZR (2 ^ Z.of_N W)) in *. assert (0 < / (2 * w)) by (apply Rinv_0_lt_compat; lra). split.
  - apply Rmult_le_pos; [apply pos_INR|lra].
  - apply Rmult_le_reg_r with (2 * w); [lra|]. unfold Rdiv. rewrite Rmult_assoc, Rinv_l by lra. lra.
Qed.

Lemma mean_up : x * mean W p n inv_pow2 <= 0.7229.
Proof.
  pose proof mean_up_gen as U. pose proof x_cap as Hc. rewrite x_tail in Hc.
  set (c := INR n / (2 * IZR (2 ^ Z.of_N W))) in *. clearbody c. nra.
Qed.

Lemma mean_lo : 0.7190 <= x * (1 + / m) * mean W p n inv_pow2.
Proof.
  rewrite (mean_blend (/ 2) inv_pow2 inv_pow2_pow). pose proof x_ge as Hx.
  assert (Hm : 0 < / m) by (apply Rinv_0_lt_compat, pow2_pos; lia).
  assert (Hx' : 4 <= x * (1 + / m)) by nra.
  apply Rle_trans with (x * (1 + / m) * blend (/ 2) (expo (x * (1 + / m))) K).
  - now apply harmonic_lo.
  - apply Rmult_le_compat_l; [lra|]. apply blend_le; [lra|]. intros k _. now apply below_lo.
Qed.

Lemma mean_sq_up : x * x * mean W p n (fun v => inv_pow2 v * inv_pow2 v) <= 1.0847.
Proof.
  pose proof mean_sq_up_gen as U. pose proof x_cap as Hc. rewrite x_tail in Hc.
  set (c := INR n / (2 * IZR (2 ^ Z.of_N W))) in *. clearbody c.
  assert (c * c <= / 4096) by nra. assert (c ^ 3 <= / 262144). { cbn [pow]. nra. } lra.
Qed.

Lemma mean_pos : 0 < mean W p n inv_pow2.
Proof.
  pose proof mean_lo. pose proof x_ge as Hx.
  assert (Hm : 0 < / m) by (apply Rinv_0_lt_compat, pow2_pos; lia).
  assert (0 < x * (1 + / m)) by nra. nra.
Qed.

(** The variance, relative to the square of the mean. *)
Lemma relative_variance_gen : forall a, 1.0846 + 2 * (INR n / (2 * IZR (2 ^ Z.of_N W))) ^ 3 <= a * 0.7190 ^ 2 ->
  mean W p n (fun v => inv_pow2 v * inv_pow2 v) - mean W p n inv_pow2 * mean W p n inv_pow2
  <= (a * (1 + / m) ^ 2 - 1) * (mean W p n inv_pow2 * mean W p n inv_pow2).
Proof.
  intros a Ha. pose proof mean_lo as L. pose proof mean_sq_up_gen as U. pose proof x_ge as Hx. pose proof mean_pos as P.
  set (e := mean W p n inv_pow2) in *. set (e2 := mean W p n (fun v => inv_pow2 v * inv_pow2 v)) in *.
  assert (Hm : 0 < / m) by (apply Rinv_0_lt_compat, pow2_pos; lia).
  assert (Hc : 0 <= (INR n / (2 * IZR (2 ^ Z.of_N W))) ^ 3).
  { apply pow_le. apply Rmult_le_pos; [apply pos_INR|]. left. apply Rinv_0_lt_compat.
    pose proof (pow2_pos (Z.of_N W) ltac:(lia)). lra. }
  enough (e2 <= a * (1 + / m) ^ 2 * (e * e)) by lra.
  set (cc := (INR n / (2 * IZR (2 ^ Z.of_N W))) ^ 3) in *. clearbody cc.
  clearbody e e2. set (xx := x) in *. clearbody xx. set (i := / m) in *. clearbody i.
  apply Rmult_le_reg_l with (xx * xx); [nra|].
  apply Rle_trans with (1 := U). apply Rle_trans with (1 := Ha).
  replace (xx * xx * (a * (1 + i) ^ 2 * (e * e))) with (a * ((xx * (1 + i) * e) * (xx * (1 + i) * e))) by ring.
  set (z := xx * (1 + i) * e) in *. clearbody z. apply Rmult_le_compat_l; nra.
Qed.

Lemma relative_variance :
  mean W p n (fun v => inv_pow2 v * inv_pow2 v) - mean W p n inv_pow2 * mean W p n inv_pow2
  <= (2.0983 * (1 + / m) ^ 2 - 1) * (mean W p n inv_pow2 * mean W p n inv_pow2).
Proof.
  apply relative_variance_gen. pose proof x_cap as Hc. rewrite x_tail in Hc.
  set (c := INR n / (2 * IZR (2 ^ Z.of_N W))) in *. clearbody c.
  assert (c * c <= / 4096) by nra. assert (c ^ 3 <= / 262144). { cbn [pow]. nra. } lra.
Qed.
End Mean.

(** ** Concentration of the harmonic sum *)
Theorem harmonic_rare_gen : forall W p n file a t, (4 <= p)%N -> (p < W)%N ->
  4 * m_R p <= INR n -> 1.0846 + 2 * (INR n / (2 * IZR (2 ^ Z.of_N W))) ^ 3 <= a * 0.7190 ^ 2 ->
  register_files W p n file -> 0 < t ->
  rare W n ((a * (1 + / m_R p) ^ 2 - 1) / (m_R p * t ^ 2))
    (fun hs => t * (m_R p * mean W p n inv_pow2) <= Rabs (inv_sum (file hs) - m_R p * mean W p n inv_pow2)).
Proof.
  intros W p n file a t Hp HW Hlo Ha F Ht. unfold m_R in *. set (m := IZR (2 ^ Z.of_N p)) in *.
  assert (Hm : 0 < m) by (apply pow2_pos; lia).
  pose proof (mean_pos W p n Hp HW Hlo) as P.
  pose proof (relative_variance_gen W p n Hp HW Hlo a Ha) as V. fold m in V. set (mu := mean W p n inv_pow2) in *.
  destruct (hash_lists_exist W n) as (all & E).
  assert (Ht' : 0 < t * (m * mu)) by (apply Rmult_lt_0_compat; [lra|now apply Rmult_lt_0_compat]).
  eapply rare_weaken; [exact (total_rare W p n file all HW F E inv_pow2 _ inv_pow2_decreasing Ht')| |].
  - fold m mu. set (v := mean W p n (fun v => inv_pow2 v * inv_pow2 v) - mu * mu) in *.
    assert (T2 : 0 < (t * (m * mu)) ^ 2) by now apply pow_lt.
    apply Rmult_le_reg_r with (1 := T2). unfold Rdiv. rewrite Rmult_assoc, Rinv_l, Rmult_1_r by lra.
    replace ((a * (1 + / m) ^ 2 - 1) * / (m * t ^ 2) * (t * (m * mu)) ^ 2)
      with (m * ((a * (1 + / m) ^ 2 - 1) * (mu * mu))) by (field; lra).
    apply Rmult_le_compat_l; lra.
  - intros hs _ H. exact H.
Qed.

Theorem harmonic_rare : forall W p n file t, (4 <= p)%N -> (p < W)%N ->
  4 * m_R p <= INR n -> INR n <= IZR (2 ^ Z.of_N W) / 32 ->
  register_files W p n file -> 0 < t ->
  rare W n ((2.0983 * (1 + / m_R p) ^ 2 - 1) / (m_R p * t ^ 2))
    (fun hs => t * (m_R p * mean W p n inv_pow2) <= Rabs (inv_sum (file hs) - m_R p * mean W p n inv_pow2)).
Proof.
  intros W p n file t Hp HW Hlo Hhi F Ht. apply harmonic_rare_gen; auto.
  pose proof (x_cap W p n Hp HW Hlo Hhi) as Hc. rewrite (x_tail W p n Hp HW) in Hc.
  set (c := INR n / (2 * IZR (2 ^ Z.of_N W))) in *. clearbody c.
  assert (c * c <= / 4096) by nra. assert (c ^ 3 <= / 262144). { cbn [pow]. nra. } lra.
Qed.
