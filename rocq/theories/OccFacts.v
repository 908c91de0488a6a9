(** * Exponential bounds for the number of empty registers *)
From Coq Require Import NArith ZArith Reals List Bool Lia Lra Permutation.
From Verif Require Import ModelRust Spec SpecReal SpecCount SpecDist SpecProb BitFacts CountFacts EncFacts DistFacts ProbFacts MomentFacts
  HarmonicNum NegFacts ChernoffFacts RawFacts HarmonicMean AccFacts AccSmall TailFacts.
Import ListNotations.
Local Open Scope R_scope.

Lemma exp_055 : forall y, y <= 0.2 -> exp y <= 1 + y + 0.55 * y ^ 2.
Proof.
  intros y Hy. destruct (Rle_or_lt 0 y) as [H|H].
  - pose proof (exp_rem3 y H) as E. assert (E1 : exp y <= 1.24) by (eapply Rle_trans; [apply exp_quadratic; lra|nra]).
    assert (0 <= y ^ 2) by apply pow2_ge_0. assert (y ^ 3 * exp y <= 0.248 * y ^ 2).
    { replace (y ^ 3 * exp y) with (y * exp y * y ^ 2) by ring. apply Rmult_le_compat_r; [lra|]. nra. }
    lra.
  - pose proof (exp_neg_up (- y) ltac:(lra)) as E. rewrite Ropp_involutive in E. nra.
Qed.

(** A Bernoulli variable. *)
Lemma bernoulli : forall y l, 0 <= y <= 1 -> -0.2 <= l <= 0.2 ->
  1 - y + y * exp (- l) <= exp (- (l * y) + 0.55 * l ^ 2 * (y * (1 - y))).
Proof.
  intros y l Hy Hl.
  assert (A : l * y <= 0.2) by nra. assert (B : - l * (1 - y) <= 0.2) by nra.
  pose proof (exp_055 _ A) as EA. pose proof (exp_055 _ B) as EB.
  replace (1 - y + y * exp (- l)) with (exp (- (l * y)) * ((1 - y) * exp (l * y) + y * exp (- l * (1 - y)))).
  2:{ replace (exp (- l)) with (exp (- (l * y)) * exp (- l * (1 - y))) by (rewrite <- exp_plus; f_equal; ring).
      rewrite Rmult_plus_distr_l. f_equal; [|ring].
      replace (exp (- (l * y)) * ((1 - y) * exp (l * y))) with ((1 - y) * (exp (- (l * y)) * exp (l * y))) by ring.
      rewrite <- exp_plus. replace (- (l * y) + l * y) with 0 by ring. rewrite exp_0. ring. }
  rewrite exp_plus. apply Rmult_le_compat_l; [left; apply exp_pos|].
  eapply Rle_trans; [|apply exp_ineq1_le].
  apply Rle_trans with ((1 - y) * (1 + l * y + 0.55 * (l * y) ^ 2) + y * (1 + - l * (1 - y) + 0.55 * (- l * (1 - y)) ^ 2)).
  - apply Rplus_le_compat; apply Rmult_le_compat_l; lra.
  - right. ring.
Qed.

Section Occupancy.
Variables (W p : N).
Hypothesis HW : (p < W)%N.
Notation U := (range (2 ^ W)).
Notation m := (m_R p).

Definition free (i : N) (hs : list N) : R := if existsb (fun h => (bucket W p h =? i)%N) hs then 0 else 1.
Definition empties (hs : list N) : R := rsum (fun i => free i hs) (range (2 ^ p)).

Lemma m_pos : 0 < m.
Proof. clear HW. apply MomentFacts.pow2_pos. lia. Qed.

Lemma free_01 : forall i hs, free i hs = 0 \/ free i hs = 1.
Proof. intros. unfold free. destruct (existsb _ _); auto. Qed.

Lemma free_cons : forall i h hs, free i (h :: hs) = free i hs - (if (bucket W p h =? i)%N then free i hs else 0).
Proof. intros. unfold free. cbn [existsb]. destruct (bucket W p h =? i)%N, (existsb _ _); cbn; lra. Qed.

Lemma rank_one : forall h, (h < 2 ^ W)%N -> (1 <= rank W p h)%N.
Proof.
  intros h Hh. unfold rank. destruct (N.eqb_spec (h mod 2 ^ (W - p)) 0); [lia|].
  assert (L : (h mod 2 ^ (W - p) < 2 ^ (W - p))%N) by (apply N.mod_lt, N.pow_nonzero; discriminate).
  set (r := (h mod 2 ^ (W - p))%N) in *. clearbody r. apply N.log2_lt_pow2 in L; lia.
Qed.

Lemma rsum_pick : forall (f : N -> R) i k, (i < k)%N -> rsum (fun j => if (i =? j)%N then f j else 0) (range k) = f i.
Proof.
  intros f i k H. assert (G : forall l, NoDup l -> rsum (fun j => if (i =? j)%N then f j else 0) l = if existsb (N.eqb i) l then f i else 0).
  { induction l as [|j l IH]; intros ND; [reflexivity|]. inversion ND; subst. rewrite rsum_cons, IH by assumption. cbn [existsb].
    destruct (N.eqb_spec i j) as [->|]; [|cbn; lra]. cbn. assert (existsb (N.eqb j) l = false) as ->; [|lra].
    apply not_true_is_false. intros E. apply existsb_exists in E. destruct E as (x & I & E). apply N.eqb_eq in E. now subst. }
  rewrite G by apply range_NoDup. assert (existsb (N.eqb i) (range k) = true) as ->; [|reflexivity].
  apply existsb_exists. exists i. split; [now apply range_in|apply N.eqb_refl].
Qed.

Lemma avg_bucket : forall i, (i < 2 ^ p)%N -> avg U (fun h => if (bucket W p h =? i)%N then 1 else 0) = / m.
Proof.
  intros i Hi. pose proof (expect_mean W p 1 (file_of W p) (lists_of U 1) HW (file_of_files W p 1 ltac:(lia)) (lists_of_enum W 1) (ind 0) i Hi) as E.
  rewrite mean_zero in E. unfold below in E. rewrite N.add_0_r, pow_1 in E. fold (m_R p) in E. cbn [expect top] in E.
  rewrite (avg_ext U _ (fun h => 1 + -1 * (if (bucket W p h =? i)%N then 1 else 0))) in E.
  - rewrite (avg_plus U (U_nonempty W)), (avg_const U (U_nonempty W)), (avg_scal U (U_nonempty W)) in E. lra.
  - intros h Hh. apply range_in in Hh. pose proof (rank_one h Hh) as R. unfold ind.
    destruct (bucket W p h =? i)%N; [|cbn; lra]. rewrite N.max_0_r. destruct (N.leb_spec (rank W p h) 0); [lia|lra].
Qed.

Lemma empties_cons : forall h hs, (h < 2 ^ W)%N -> empties (h :: hs) = empties hs - free (bucket W p h) hs.
Proof.
  intros h hs Hh. unfold empties.
  rewrite (rsum_ext _ (fun i => free i hs + -1 * (if (bucket W p h =? i)%N then free i hs else 0))) by (intros; rewrite free_cons; lra).
  rewrite rsum_plus, rsum_scal, (rsum_pick (fun i => free i hs)); [lra|]. apply bucket_lt; [lia|exact Hh].
Qed.

Lemma avg_free : forall hs, avg U (fun h => free (bucket W p h) hs) = empties hs / m.
Proof.
  intros hs. rewrite (avg_ext U _ (fun h => rsum (fun i => free i hs * (if (bucket W p h =? i)%N then 1 else 0)) (range (2 ^ p)))).
  2:{ intros h Hh. apply range_in in Hh. rewrite (rsum_ext _ (fun i => if (bucket W p h =? i)%N then free i hs else 0)).
      - symmetry. apply (rsum_pick (fun i => free i hs)). apply bucket_lt; [lia|exact Hh].
      - intros i _. destruct (bucket W p h =? i)%N; lra. }
  unfold avg, Rdiv. rewrite rsum_swap.
  rewrite (rsum_ext _ (fun i => (INR (length U) * / m) * free i hs)).
  - rewrite rsum_scal. fold (empties hs). pose proof (c_pos U (U_nonempty W)). pose proof m_pos. field. lra.
  - intros i Hi. apply range_in in Hi. rewrite rsum_scal, <- (avg_bucket i Hi). unfold avg. pose proof (c_pos U (U_nonempty W)). field. lra.
Qed.

Lemma empties_bounds : forall hs, 0 <= empties hs <= m.
Proof.
  intros hs. unfold empties. split.
  - apply rsum_nonneg. intros i _. destruct (free_01 i hs); lra.
  - unfold m_R. rewrite <- range_INR. rewrite <- (Rmult_1_r (INR (length (range (2 ^ p))))), <- rsum_const.
    apply rsum_le. intros i _. destruct (free_01 i hs); lra.
Qed.

(** ** The moment generating function *)
Variable w : nat -> R.
Hypothesis Hw : forall k z, 0 <= z <= m -> m - z <= INR k -> z / m * (1 - z / m) <= w k.

Notation q := (1 - / m).
Fixpoint spread (n k : nat) : R := match n with O => 0 | S n => (q ^ n) ^ 2 * w k + spread n (S k) end.

Lemma q_01 : 0 <= q <= 1.
Proof.
  clear HW Hw.
  assert (1 <= m). { unfold m_R. apply IZR_le. apply (Z.pow_le_mono_r 2 0); lia. }
  assert (0 < / m <= 1) by (split; [apply Rinv_0_lt_compat|rewrite <- Rinv_1; apply Rinv_le_contravar]; lra). lra.
Qed.

Lemma occupancy : forall l, -0.2 <= l <= 0.2 -> forall n k hs, m - empties hs <= INR k ->
  expect U n (fun t => exp (l * empties (rev_append t hs))) <= exp (l * q ^ n * empties hs + 0.55 * l ^ 2 * spread n k).
Proof.
  intros l Hl n. pose proof m_pos as Hm. pose proof q_01 as Q. induction n as [|n IH]; intros k hs Hk.
  - cbn. apply Req_le. f_equal. ring.
  - cbn [expect]. set (ln := l * q ^ n).
    assert (Qn : 0 <= q ^ n <= 1). { split; [apply pow_le; lra|]. apply Rle_trans with (1 ^ n); [apply pow_incr; lra|rewrite pow1; lra]. }
    assert (Hln : -0.2 <= ln <= 0.2) by (unfold ln; nra).
    set (c := exp (ln * empties hs + 0.55 * l ^ 2 * spread n (S k))).
    apply Rle_trans with (avg U (fun h => c * (1 + (exp (- ln) - 1) * free (bucket W p h) hs))).
    + apply (avg_le U (U_nonempty W)). intros h Hh. apply range_in in Hh.
      rewrite (expect_ext U n _ (fun t => exp (l * empties (rev_append t (h :: hs))))) by reflexivity.
      pose proof (empties_cons h hs Hh) as EC.
      assert (Hk' : m - empties (h :: hs) <= INR (S k)). { rewrite S_INR, EC. destruct (free_01 (bucket W p h) hs); lra. }
      eapply Rle_trans; [apply (IH (S k) (h :: hs) Hk')|]. rewrite EC. fold ln. apply Req_le.
      destruct (free_01 (bucket W p h) hs) as [-> | ->]; unfold c.
      * rewrite Rminus_0_r. ring.
      * replace (1 + (exp (- ln) - 1) * 1) with (exp (- ln)) by ring. rewrite <- exp_plus. f_equal. ring.
    + rewrite (avg_scal U (U_nonempty W)), (avg_plus U (U_nonempty W)), (avg_const U (U_nonempty W)), (avg_scal U (U_nonempty W)), avg_free.
      set (y := empties hs / m). pose proof (empties_bounds hs) as EB.
      assert (Hy : 0 <= y <= 1).
      { unfold y. split; [apply Rmult_le_pos; [lra|left; now apply Rinv_0_lt_compat]|]. apply div_le; lra. }
      replace (1 + (exp (- ln) - 1) * y) with (1 - y + y * exp (- ln)) by ring.
      eapply Rle_trans; [apply Rmult_le_compat_l; [left; apply exp_pos|apply (bernoulli y ln Hy Hln)]|].
      unfold c. rewrite <- exp_plus. apply exp_le. cbn [spread].
      specialize (Hw k (empties hs) EB Hk). fold y in Hw.
      replace (l * q ^ S n * empties hs) with (ln * empties hs - ln * y).
      2:{ unfold ln, y. cbn [pow]. field. lra. }
      assert (0.55 * ln ^ 2 * (y * (1 - y)) <= 0.55 * l ^ 2 * ((q ^ n) ^ 2 * w k)); [|lra].
      unfold ln. rewrite Rpow_mult_distr.
      replace (0.55 * (l ^ 2 * (q ^ n) ^ 2) * (y * (1 - y))) with (0.55 * l ^ 2 * (q ^ n) ^ 2 * (y * (1 - y))) by ring.
      replace (0.55 * l ^ 2 * ((q ^ n) ^ 2 * w k)) with (0.55 * l ^ 2 * (q ^ n) ^ 2 * w k) by ring.
      apply Rmult_le_compat_l; [|exact Hw]. apply Rmult_le_pos; [|apply pow2_ge_0]. apply Rmult_le_pos; [lra|apply pow2_ge_0].
Qed.
End Occupancy.

Lemma empties_zero : forall W p n hs, (p < W)%N -> hash_list W n hs ->
  empties W p hs = IZR (Z.of_N (zero_count (file_of W p hs))).
Proof.
  intros W p n hs HW HH. rewrite <- rsum_zero. pose proof (file_of_ok W p hs ltac:(lia) (proj2 HH)) as RF.
  destruct (RF) as [L _]. rewrite (nth_range _ _ L) at 1. rewrite rsum_map. unfold empties.
  apply rsum_ext. intros i Hi. apply range_in in Hi. destruct (file_nth W p hs _ i RF Hi) as [U A].
  unfold free, ind. destruct (existsb _ hs) eqn:E.
  - apply existsb_exists in E. destruct E as (h & Ih & Eb). apply N.eqb_eq in Eb. specialize (U h Ih Eb).
    destruct HH as [_ F]. rewrite Forall_forall in F. pose proof (rank_one W p HW h (F h Ih)).
    destruct (N.leb_spec (nth (N.to_nat i) (file_of W p hs) 0%N) 0); [lia|reflexivity].
  - destruct A as [-> |(h & Ih & Eb & _)]; [reflexivity|]. exfalso.
    assert (existsb (fun h => (bucket W p h =? i)%N) hs = true); [|congruence].
    apply existsb_exists. exists h. split; [exact Ih|now apply N.eqb_eq].
Qed.

Lemma empties_nil : forall W p, empties W p [] = m_R p.
Proof.
  intros W p. unfold empties, free. cbn [existsb]. rewrite rsum_const, range_INR. unfold m_R. ring.
Qed.

Lemma empties_rev : forall W p hs, empties W p (rev_append hs []) = empties W p hs.
Proof.
  intros W p hs. unfold empties. apply rsum_ext. intros i _. unfold free. rewrite rev_append_rev, app_nil_r.
  destruct (existsb _ (rev hs)) eqn:E1, (existsb _ hs) eqn:E2; try reflexivity; exfalso.
  - apply existsb_exists in E1. destruct E1 as (h & I & E). apply in_rev in I.
    assert (existsb (fun h => (bucket W p h =? i)%N) hs = true) by (apply existsb_exists; eauto). congruence.
  - apply existsb_exists in E2. destruct E2 as (h & I & E). apply in_rev in I.
    assert (existsb (fun h => (bucket W p h =? i)%N) (rev hs) = true) by (apply existsb_exists; eauto). congruence.
Qed.

(** ** Tails *)
Theorem occupancy_rare : forall W p n w l s, (p < W)%N ->
  (forall k z, 0 <= z <= m_R p -> m_R p - z <= INR k -> z / m_R p * (1 - z / m_R p) <= w k) ->
  -0.2 <= l <= 0.2 ->
  rare W n (exp (l * (m_R p * below p n 0) + 0.55 * l ^ 2 * spread p w n 0 - s))
    (fun hs => s <= l * IZR (Z.of_N (zero_count (file_of W p hs)))).
Proof.
  intros W p n w l s HW Hw Hl. pose proof (lists_of_enum W n) as E. set (all := lists_of (range (2 ^ W)) n) in *.
  pose proof (count_pos W n all E) as TP.
  pose proof (occupancy W p HW w Hw l Hl n 0 [] ltac:(rewrite empties_nil; cbn; lra)) as OC. rewrite empties_nil in OC.
  replace (l * (1 - / m_R p) ^ n * m_R p) with (l * (m_R p * below p n 0)) in OC.
  2:{ unfold below. rewrite N.add_0_r. fold (m_R p). ring. }
  set (v := l * (m_R p * below p n 0) + 0.55 * l ^ 2 * spread p w n 0) in *. unfold Rminus. rewrite exp_plus.
  change (exp v * exp (- s)) with (exp v * exp (- s)). rewrite exp_Ropp. fold (Rdiv (exp v) (exp s)).
  eapply rare_weaken; [apply (markov W n all (fun hs => exp (l * empties W p (rev_append hs []))) (exp v) (exp s) E (exp_pos s))|apply Rle_refl|].
  - intros hs _. left. apply exp_pos.
  - rewrite (all_expect W n all E), Rmult_comm. apply Rmult_le_compat_r; [lra|exact OC].
  - intros hs HH H. cbv beta. apply exp_le. rewrite empties_rev, (empties_zero W p n hs HW HH). exact H.
Qed.

Lemma quarter : forall m z : R, 0 < m -> z / m * (1 - z / m) <= / 4.
Proof. intros m z _. set (y := z / m). clearbody y. assert (0 <= (y - / 2) ^ 2) by apply pow2_ge_0. nra. Qed.

Lemma spread_quarter : forall p n k, (10 <= p)%N ->
  spread p (fun _ => / 4) n k * 7.996 <= m_R p * (1 - below p n 0 ^ 2).
Proof.
  intros p n k Hp. assert (M : 1024 <= m_R p). { unfold m_R. apply IZR_le. apply (Z.pow_le_mono_r 2 10); lia. }
  assert (J : 0 < / m_R p <= / 1024) by (split; [apply Rinv_0_lt_compat|apply Rinv_le_contravar]; lra).
  assert (E : spread p (fun _ => / 4) n k * (8 - 4 * / m_R p) = m_R p * (1 - ((1 - / m_R p) ^ n) ^ 2)).
  { revert k. induction n as [|n IH]; intros k; [cbn; ring|]. cbn [spread]. rewrite Rmult_plus_distr_r, IH.
    cbn [pow]. field. lra. }
  assert (S0 : 0 <= spread p (fun _ => / 4) n k).
  { clear E. revert k. induction n as [|n IH]; intros k; cbn [spread]; [lra|]. specialize (IH (S k)).
    assert (0 <= ((1 - / m_R p) ^ n) ^ 2) by apply pow2_ge_0. lra. }
  unfold below. rewrite N.add_0_r. fold (m_R p). rewrite <- E. apply Rmult_le_compat_l; lra.
Qed.

Lemma spread_lin : forall p n k, spread p (fun k => INR k / m_R p) n k <= (INR n * INR k + INR n ^ 2 / 2) / m_R p.
Proof.
  intros p n. pose proof (m_pos p) as Hm. pose proof (q_01 p) as Q.
  induction n as [|n IH]; intros k; cbn [spread].
  - cbn. lra.
  - specialize (IH (S k)). pose proof (pos_INR k) as K0. pose proof (pos_INR n) as N0. rewrite !S_INR in *.
    assert (Qn : 0 <= (1 - / m_R p) ^ n <= 1). { split; [apply pow_le; lra|]. apply Rle_trans with (1 ^ n); [apply pow_incr; lra|rewrite pow1; lra]. }
    assert (A : ((1 - / m_R p) ^ n) ^ 2 * (INR k / m_R p) <= INR k / m_R p).
    { rewrite <- (Rmult_1_l (INR k / m_R p)) at 2. apply Rmult_le_compat_r; [|nra].
      apply Rmult_le_pos; [lra|left; now apply Rinv_0_lt_compat]. }
    eapply Rle_trans; [apply Rplus_le_compat; [exact A|exact IH]|]. apply Rle_trans with ((INR k + (INR n * (INR k + 1) + INR n ^ 2 / 2)) / m_R p); [right; field; lra|].
    apply Rmult_le_compat_r; [left; now apply Rinv_0_lt_compat|]. nra.
Qed.
