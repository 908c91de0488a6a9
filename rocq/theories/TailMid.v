(** * Exponential tails of both sketches *)
From Coq Require Import NArith ZArith Reals List Bool Lia Lra.
From Flocq Require Import Core BinarySingleNaN.
From Verif Require Import ModelRust ModelF64 ModelEnv ModelConstants ModelHistory Spec SpecReal SpecCount SpecDist
  SpecProb SpecBuild BitFacts EncFacts DistFacts ProbFacts MomentFacts HarmonicNum BiasFacts ExtremeFacts
  NegFacts ChernoffFacts RawFacts FloatFacts ClaimDist HarmonicMean AccFacts MeanTable MeanSlope AccSmall BiasCheck BiasSound AccMid AccRange AccMidPF TailFacts TailLarge OccFacts TailSmall.
Import ListNotations.
Local Open Scope R_scope.

Lemma mean_floor : forall W p n, (10 <= p)%N -> INR n <= 6.06 * m_R p -> 0.118 <= mean W p n inv_pow2.
Proof.
  intros W p n Hp Hn. pose proof (m_10 p Hp) as M. destruct (mean_curve W p n ltac:(lia)) as [L _].
  eapply Rle_trans; [|exact L]. set (K := N.to_nat (W - p + 1)).
  pose proof (harmonic_lo 6.07 K ltac:(lra)) as H. apply Rle_trans with (curve K 6.07); [unfold curve; lra|].
  assert (J : 0 < / m_R p <= / 1024) by (split; [apply Rinv_0_lt_compat|apply Rinv_le_contravar]; lra).
  assert (X : INR n / m_R p <= 6.06) by (apply div_le; lra).
  assert (Y : INR n / m_R p * (1 + / m_R p) <= 6.07) by nra.
  apply blend_le; try lra. intros k _. unfold expo. apply exp_le. 
  assert (0 < (/ 2) ^ k) by (apply pow_lt; lra). nra.
Qed.

Lemma inv_pow2_01 : forall v, 0 <= inv_pow2 v <= 1.
Proof.
  intros v. rewrite inv_pow2_pow. split; [apply pow_le; lra|]. apply Rle_trans with (1 ^ N.to_nat v); [apply pow_incr; lra|rewrite pow1; lra].
Qed.

Lemma harmonic_tail : forall W p n q t, (10 <= p)%N -> (p < W)%N -> INR n <= 6.06 * m_R p -> 0.39 <= q -> 0 < t <= / 10 ->
  mean W p n (fun v => inv_pow2 v * inv_pow2 v) <= (1 + q ^ 2) * (mean W p n inv_pow2 * mean W p n inv_pow2) ->
  rare W n (2 * exp (- (m_R p * t ^ 2 / 4))) (rare_harmonic W p n (q * t)).
Proof.
  intros W p n q t Hp HW Hn Hq Ht V. pose proof (mean_floor W p n Hp Hn) as F.
  pose proof (bounded_tails W p n (file_of W p) HW ltac:(apply file_of_files; lia) inv_pow2 inv_pow2_decreasing ltac:(lra) q t 1 ltac:(lra) ltac:(lra)) as B.
  set (mu := mean W p n inv_pow2) in *. specialize (B ltac:(lra) inv_pow2_01 ltac:(nra) ltac:(lra)).
  eapply rare_weaken; [exact B|apply Rle_refl|]. intros hs _ H. unfold rare_harmonic in H. rewrite inv_sum_rsum in H. exact H.
Qed.

Lemma corrected_tail : forall p n t, (10 <= p <= 18)%N -> 0 < t <= / 10 -> INR n <= 6.06 * m_R p ->
  exists bad, rare 64 n (2 * exp (- (m_R p * t ^ 2 / 4))) bad /\ corrected_unless p n t bad.
Proof.
  intros p n t Hp Ht Hn. destruct (Rle_or_lt (0.5391 * m_R p) (INR n)) as [L|L].
  - destruct (corrected_q p n Hp (tables_checked p ltac:(lia)) (conj L Hn)) as (q & Q & P & V & C).
    exists (rare_harmonic 64 p n (q * t)). split; [apply harmonic_tail; auto; lia || lra|]. split.
    + intros hs. unfold rare_harmonic. destruct (Rle_dec (q * t * (m_R p * mean 64 p n inv_pow2))
        (Rabs (inv_sum (file_of 64 p hs) - m_R p * mean 64 p n inv_pow2))); auto.
    + intros hs fl c HH RF NB _ CR. apply (C t hs fl c Ht HH RF NB CR).
  - exists (fun _ => False). split; [|split; [auto|intros; lra]].
    apply rare_false. pose proof (exp_pos (- (m_R p * t ^ 2 / 4))). lra.
Qed.

Lemma large_tail : forall W p n t, (10 <= p)%N -> (p < W)%N -> 4 * m_R p <= INR n -> INR n <= IZR (2 ^ Z.of_N W) / 32 ->
  0 < t <= / 10 -> rare W n (2 * exp (- (m_R p * t ^ 2 / 4))) (rare_harmonic W p n (1.06 * t)).
Proof.
  intros W p n t Hp HW H4 Hn Ht. pose proof (m_10 p Hp) as M. apply tail_large; auto; try lia; try lra.
  assert (J : 0 < / m_R p <= / 1024) by (split; [apply Rinv_0_lt_compat|apply Rinv_le_contravar]; lra).
  set (i := / m_R p) in *. clearbody i. nra.
Qed.

Lemma large_10 : forall x t, 0 <= x -> 0 < t <= / 10 ->
  x * (0.985 - 1.1 * t) <= 0.996 * x / (1 + 1.06 * t) /\ 1.004 * x / (1 - 1.06 * t) <= x * (1.015 + 1.4 * t).
Proof.
  intros x t Hx Ht. split.
  - assert (I : 1 - 1.06 * t <= / (1 + 1.06 * t)) by (apply Rmult_le_reg_r with (1 + 1.06 * t); [lra|rewrite Rinv_l by lra; nra]).
    unfold Rdiv. replace (0.996 * x * / (1 + 1.06 * t)) with (x * (0.996 * / (1 + 1.06 * t))) by ring.
    apply Rmult_le_compat_l; lra.
  - assert (I : / (1 - 1.06 * t) <= 1 + 1.2 * t) by (apply Rmult_le_reg_r with (1 - 1.06 * t); [lra|rewrite Rinv_l by lra; nra]).
    unfold Rdiv. replace (1.004 * x * / (1 - 1.06 * t)) with (x * (1.004 * / (1 - 1.06 * t))) by ring.
    apply Rmult_le_compat_l; lra.
Qed.

Theorem plus_tail : forall e p n t, build_std e -> accurate e -> (10 <= p <= 18)%N -> 0 < t <= / 10 ->
  m_R p / 2 <= INR n -> INR n <= IZR (2 ^ 59) ->
  rare 64 n (5 * exp (- (m_R p * t ^ 2 / 4)))
    (fun hs => ~ plus_counts e p (INR n * (0.985 - 1.75 * t)) (INR n * (1.015 + 1.75 * t)) hs).
Proof.
  intros e p n t Hb Ha Hp Ht Hlo Hn. pose proof (m_10 p (proj1 Hp)) as M. pose proof (m_R_bounds p ltac:(lia) ltac:(lia)) as MB.
  assert (N1 : 0 < INR n) by lra. assert (H0 : (0 < n)%nat) by (apply INR_lt; exact N1).
  pose proof (exp_pos (- (m_R p * t ^ 2 / 4))) as E0.
  destruct (Rle_or_lt (INR n) (2 * m_R p)) as [L|L].
  - destruct (corrected_tail p n t Hp Ht ltac:(lra)) as (bad & R & C).
    pose proof (zeros_tail 64 p n t ltac:(lia) ltac:(lia) ltac:(lra) Ht) as RZ.
    pose proof (lost_tail p n t Hp ltac:(lra) Ht) as RL.
    eapply rare_weaken; [apply (plus_low_gen e p n t bad _ _ _ Hb Ha Hp Ht H0 L R C RZ RL)|lra|auto].
  - destruct (Rle_or_lt (INR n) (6.06 * m_R p)) as [L2|L2].
    + destruct (corrected_tail p n t Hp Ht L2) as (bad & R & C).
      pose proof (many_zeros_tail p n t Hp Ht ltac:(lra)) as RZ.
      eapply rare_weaken; [apply (plus_mid_gen e p n t bad _ _ Hb Ha Hp Ht ltac:(lra) R C RZ)|lra|auto].
    + assert (H32 : INR n <= IZR (2 ^ Z.of_N 64) / 32).
      { eapply Rle_trans; [exact Hn|]. change (IZR (2 ^ Z.of_N 64)) with 18446744073709551616.
        change (IZR (2 ^ 59)) with 576460752303423488. lra. }
      pose proof (large_tail 64 p n t ltac:(lia) ltac:(lia) ltac:(lra) H32 Ht) as R. pose proof (alpha_10 p Hp) as A.
      assert (LO : 5.0001 * (1 + 1.06 * t) * m_R p <= alpha_R p / 0.7229 * INR n).
      { apply Rle_trans with (0.9965 * (6.06 * m_R p)); [nra|]. apply Rmult_le_compat; lra. }
      eapply rare_weaken; [apply (plus_large_gen e p n (1.06 * t) _ Hb Ha ltac:(lia) ltac:(lra) ltac:(lra) LO Hn R)|lra|].
      * intros hs _ NC PC. apply NC. destruct (large_10 (INR n) t ltac:(lra) Ht) as [B1 B2].
        pose proof (within_10 p (INR n) (1.06 * t) (/ IZR (2 ^ 33)) Hp ltac:(lra) (pos_INR n)) as [W1 W2].
        { change (IZR (2 ^ 33)) with 8589934592. lra. }
        eapply plus_counts_weaken; [exact PC| |].
        -- eapply Rle_trans; [|exact W1]. eapply Rle_trans; [|exact B1]. apply Rmult_le_compat_l; lra.
        -- eapply Rle_trans; [exact W2|]. eapply Rle_trans; [exact B2|]. apply Rmult_le_compat_l; lra.
Qed.

(** ** The 32-bit sketch *)
Lemma inv_below_3 : forall p n, (10 <= p)%N -> 0.5 * m_R p <= INR n <= 2.75 * m_R p ->
  let x := INR n / m_R p in let b := below p n 0 in
  0.17 <= x * b /\ 1 <= b ^ 2 * (1 + 33.6 * x ^ 2).
Proof.
  intros p n Hp Hn x b. pose proof (m_10 p Hp) as M. pose proof (below_pos p n ltac:(lia)) as B.
  pose proof (below_exp p n ltac:(lia)) as [BL _]. fold x b in BL. fold b in B.
  assert (Hx : 0.5 <= x <= 2.75) by (unfold x; split; [apply div_ge|apply div_le]; lra).
  assert (J : 0 < / m_R p <= / 1024) by (split; [apply Rinv_0_lt_compat|apply Rinv_le_contravar]; lra).
  set (y := x * (1 + / m_R p)) in *. assert (Hy : x <= y <= 1.001 * x) by (unfold y; nra).
  pose proof (exp_quad_3 y ltac:(lra)) as E. rewrite exp_Ropp in BL. pose proof (exp_pos y) as P.
  assert (E1 : exp y <= 1 + 1.001 * x + 1.6033 * x ^ 2).
  { eapply Rle_trans; [exact E|]. assert (y ^ 2 <= 1.002002 * x ^ 2) by nra. nra. }
  assert (B1 : 1 <= b * exp y).
  { apply (Rmult_le_compat_r (exp y)) in BL; [|lra]. rewrite Rinv_l in BL by lra. exact BL. }
  set (e := exp y) in *. clearbody e. clearbody y x b. clear E.
  split.
  - apply Rmult_le_reg_r with e; [exact P|]. apply Rle_trans with x; [nra|]. rewrite Rmult_assoc. nra.
  - assert (Q : e ^ 2 <= 1 + 33.6 * x ^ 2).
    { apply Rle_trans with ((1 + 1.001 * x + 1.6033 * x ^ 2) ^ 2); [apply pow_incr; lra|].
      assert (0 <= (x - 0.5) * (2.75 - x)) by nra.
      assert (0 <= x ^ 2 * ((x - 0.5) * (2.75 - x))) by (apply Rmult_le_pos; [apply pow2_ge_0|assumption]).
      assert (0 <= x * ((x - 0.5) * (2.75 - x))) by (apply Rmult_le_pos; lra). nra. }
    assert (0 <= b ^ 2) by apply pow2_ge_0.
    apply Rle_trans with (b ^ 2 * e ^ 2); [rewrite <- Rpow_mult_distr; nra|]. apply Rmult_le_compat_l; lra.
Qed.

Theorem zeros_tail_3 : forall W p n t, (10 <= p)%N -> (p < W)%N -> 0.5 * m_R p <= INR n <= 2.75 * m_R p -> 0 < t <= / 10 ->
  rare W n (2 * exp (- (m_R p * t ^ 2 / 10))) (rare_zeros W p n (t * (INR n / m_R p))).
Proof.
  intros W p n t Hp HW Hn Ht. pose proof (m_10 p Hp) as M. pose proof (below_pos p n ltac:(lia)) as B.
  destruct (inv_below_3 p n Hp Hn) as [I1 I2]. pose proof (spread_quarter p n 0 Hp) as S4.
  set (x := INR n / m_R p) in *. set (b := below p n 0) in *.
  assert (Hx : 0.5 <= x) by (unfold x; apply div_ge; lra).
  set (l := 0.22 * t / (x * b)). assert (Hl : 0 < l <= 0.2).
  { split; [apply Rdiv_lt_0_compat; lra|]. apply div_le; lra. }
  assert (El : l * (x * b) = 0.22 * t) by (unfold l; field; split; lra).
  pose proof (fun s => occupancy_rare W p n (fun _ => / 4) l s HW (fun _ z _ _ => quarter (m_R p) z ltac:(lra)) ltac:(lra)) as C1.
  pose proof (fun s => occupancy_rare W p n (fun _ => / 4) (- l) s HW (fun _ z _ _ => quarter (m_R p) z ltac:(lra)) ltac:(lra)) as C2.
  fold b in C1, C2. set (sp := spread p (fun _ => / 4) n 0) in *.
  assert (T2 : 0 <= m_R p * t ^ 2) by (apply Rmult_le_pos; [lra|apply pow2_ge_0]).
  assert (V : 0.55 * l ^ 2 * sp <= 0.12 * (m_R p * t ^ 2)).
  { assert (P2 : 0 <= l ^ 2) by apply pow2_ge_0. assert (L2 : l ^ 2 * (1 - b ^ 2) <= 33.6 * (0.22 * t) ^ 2).
    { apply Rle_trans with (l ^ 2 * (b ^ 2 * (33.6 * x ^ 2))); [apply Rmult_le_compat_l; lra|].
      right. replace (l ^ 2 * (b ^ 2 * (33.6 * x ^ 2))) with (33.6 * (l * (x * b)) ^ 2) by ring. now rewrite El. }
    assert (L3 : l ^ 2 * (sp * 7.996) <= l ^ 2 * (m_R p * (1 - b ^ 2))) by (apply Rmult_le_compat_l; lra).
    replace (l ^ 2 * (m_R p * (1 - b ^ 2))) with (m_R p * (l ^ 2 * (1 - b ^ 2))) in L3 by ring.
    assert (L4 : m_R p * (l ^ 2 * (1 - b ^ 2)) <= m_R p * (33.6 * (0.22 * t) ^ 2)) by (apply Rmult_le_compat_l; lra).
    assert (L5 : m_R p * (33.6 * (0.22 * t) ^ 2) = 33.6 * (0.22 * 0.22) * (m_R p * t ^ 2)) by ring. lra. }
  set (d := t * x * (m_R p * b)).
  assert (Ed : l * d = 0.22 * (m_R p * t ^ 2)).
  { unfold d. replace (l * (t * x * (m_R p * b))) with (m_R p * t * (l * (x * b))) by ring. rewrite El. field. }
  specialize (C1 (l * (m_R p * b + d))). specialize (C2 (- l * (m_R p * b - d))).
  eapply rare_weaken; [apply (rare_or _ _ _ _ _ _ C1 C2)| |].
  - intros hs. destruct (Rle_dec (l * (m_R p * b + d)) (l * IZR (Z.of_N (zero_count (file_of W p hs))))); auto.
  - replace (2 * exp (- (m_R p * t ^ 2 / 10))) with (exp (- (m_R p * t ^ 2 / 10)) + exp (- (m_R p * t ^ 2 / 10))) by ring.
    apply Rplus_le_compat; apply exp_le.
    + replace (l * (m_R p * b + d)) with (l * (m_R p * b) + l * d) by ring. lra.
    + replace ((- l) ^ 2) with (l ^ 2) by ring. replace (- l * (m_R p * b - d)) with (- l * (m_R p * b) + l * d) by ring. lra.
  - intros hs _ H. unfold rare_zeros in H. fold b x d in H. revert H. unfold Rabs. destruct (Rcase_abs _); intros H; [right|left].
    + assert (G : IZR (Z.of_N (zero_count (file_of W p hs))) <= m_R p * b - d) by lra. nra.
    + apply Rmult_le_compat_l; lra.
Qed.

Theorem pf_tail : forall e p n t, build e -> accurate e -> (10 <= p <= 16)%N -> 0 < t <= / 10 ->
  m_R p / 2 <= INR n -> INR n <= 0.89 * IZR (2 ^ 27) ->
  rare 32 n (4 * exp (- (m_R p * t ^ 2 / 10)))
    (fun hs => ~ pf_counts e p (INR n * (0.984 - 1.1 * t)) (INR n * (1.036 + 1.4 * t)) hs).
Proof.
  intros e p n t Hb Ha Hp Ht Hlo Hn. pose proof (m_10 p (proj1 Hp)) as M. pose proof (m_R_bounds p ltac:(lia) ltac:(lia)) as MB.
  assert (N1 : 0 < INR n) by lra. assert (H0 : (0 < n)%nat) by (apply INR_lt; exact N1).
  pose proof (exp_pos (- (m_R p * t ^ 2 / 10))) as E0.
  assert (T2 : 0 <= m_R p * t ^ 2) by (apply Rmult_le_pos; [lra|apply pow2_ge_0]).
  assert (E4 : exp (- (m_R p * t ^ 2 / 4)) <= exp (- (m_R p * t ^ 2 / 10))) by (apply exp_le; lra).
  assert (J : 0 < / m_R p <= / 1024) by (split; [apply Rinv_0_lt_compat|apply Rinv_le_contravar]; lra).
  change (IZR (2 ^ 27)) with 134217728 in Hn.
  destruct (Rle_or_lt (INR n) (m_R p)) as [L|L].
  - pose proof (zeros_tail_3 32 p n t ltac:(lia) ltac:(lia) ltac:(lra) Ht) as RZ.
    eapply rare_weaken; [apply (pf_small_gen e p n t _ Hb Ha ltac:(lia) Ht H0 L RZ)|lra|].
    intros hs _ NC PC. apply NC. change (IZR (2 ^ 28)) with 268435456 in PC. eapply pf_counts_weaken; [exact PC| |].
    + rewrite Rmult_assoc. apply Rmult_le_compat_l; lra.
    + rewrite Rmult_assoc. apply Rmult_le_compat_l; lra.
  - destruct (Rle_or_lt (INR n) (4 * m_R p)) as [L2|L2].
    + destruct (pf_mean_all p n Hp ltac:(lra)) as [P V].
      pose proof (harmonic_tail 32 p n 1.06 t ltac:(lia) ltac:(lia) ltac:(lra) ltac:(lra) Ht V) as RH.
      eapply rare_weaken; [apply (pf_mid_gen e p n t _ (2 * exp (- (m_R p * t ^ 2 / 10))) Hb Ha Hp Ht ltac:(lra) RH ltac:(lra))|lra|auto].
      intros L3. apply zeros_tail_3; auto; lia || lra.
    + assert (H32 : INR n <= IZR (2 ^ Z.of_N 32) / 32) by (change (IZR (2 ^ Z.of_N 32)) with 4294967296; lra).
      pose proof (large_tail 32 p n t ltac:(lia) ltac:(lia) ltac:(lra) H32 Ht) as R.
      assert (LO : 2.7 * (1 + 1.06 * t) * m_R p <= INR n) by nra.
      assert (HI : INR n <= (1 - 1.06 * t) * IZR (2 ^ 27)) by (change (IZR (2 ^ 27)) with 134217728; lra).
      eapply rare_weaken; [apply (pf_large_gen e p n (1.06 * t) _ Hb Ha ltac:(lia) ltac:(lra) ltac:(lra) LO HI R)|lra|].
      intros hs _ NC PC. apply NC. destruct (large_10 (INR n) t ltac:(lra) Ht) as [B1 B2].
      pose proof (within_10 p (INR n) (1.06 * t) (/ IZR (2 ^ 49)) ltac:(lia) ltac:(lra) (pos_INR n)) as [W1 W2].
      { change (IZR (2 ^ 49)) with 562949953421312. lra. }
      eapply pf_counts_weaken; [exact PC| |].
      * eapply Rle_trans; [|exact W1]. eapply Rle_trans; [|exact B1]. apply Rmult_le_compat_l; lra.
      * eapply Rle_trans; [exact W2|]. eapply Rle_trans; [exact B2|]. apply Rmult_le_compat_l; lra.
Qed.

(** ** Many values, every precision *)
Lemma large_tail_4 : forall W p n t, (4 <= p)%N -> (p < W)%N -> 4 * m_R p <= INR n -> INR n <= IZR (2 ^ Z.of_N W) / 32 ->
  0 < t <= / 5 -> rare W n (2 * exp (- (m_R p * t ^ 2 / 4))) (rare_harmonic W p n (1.17 * t)).
Proof.
  intros W p n t Hp HW H4 Hn Ht. apply tail_large; auto; try lra.
  assert (M : 16 <= m_R p) by (unfold m_R; apply IZR_le; apply (Z.pow_le_mono_r 2 4); lia).
  assert (J : 0 < / m_R p <= / 16) by (split; [apply Rinv_0_lt_compat|apply Rinv_le_contravar]; lra).
  set (i := / m_R p) in *. clearbody i. nra.
Qed.

Theorem plus_tail_large : forall e p n t, build_std e -> accurate e -> (4 <= p <= 18)%N -> 0 < t <= / 5 ->
  5.5 * (1 + 1.17 * t) * m_R p <= INR n -> INR n <= IZR (2 ^ 59) ->
  rare 64 n (2 * exp (- (m_R p * t ^ 2 / 4)))
    (fun hs => ~ plus_counts e p
      (alpha_R p / 0.7229 * INR n / (1 + 1.17 * t) * (1 - / IZR (2 ^ 33)))
      (alpha_R p * (1 + / m_R p) / 0.7190 * INR n / (1 - 1.17 * t) * (1 + / IZR (2 ^ 33))) hs).
Proof.
  intros e p n t Hb Ha Hp Ht Hlo Hhi. pose proof (m_R_bounds p (proj1 Hp) (proj2 Hp)) as M.
  assert (H4 : 4 * m_R p <= INR n) by nra. pose proof (alpha_lower p Hp) as A.
  apply plus_large_gen; auto; [lra| |].
  - apply Rle_trans with (0.93 * (5.5 * (1 + 1.17 * t) * m_R p)); [nra|]. apply Rmult_le_compat; nra.
  - apply large_tail_4; auto; try lia. eapply Rle_trans; [exact Hhi|].
    change (IZR (2 ^ Z.of_N 64)) with 18446744073709551616. change (IZR (2 ^ 59)) with 576460752303423488. lra.
Qed.

Theorem pf_tail_large : forall e p n t, build e -> accurate e -> (4 <= p <= 16)%N -> 0 < t <= / 5 ->
  4 * m_R p <= INR n -> INR n <= (1 - 1.17 * t) * IZR (2 ^ 27) ->
  rare 32 n (2 * exp (- (m_R p * t ^ 2 / 4)))
    (fun hs => ~ pf_counts e p
      (alpha_R p / 0.7229 * INR n / (1 + 1.17 * t) * (1 - / IZR (2 ^ 49)))
      (alpha_R p * (1 + / m_R p) / 0.7190 * INR n / (1 - 1.17 * t) * (1 + / IZR (2 ^ 49))) hs).
Proof.
  intros e p n t Hb Ha Hp Ht H4 Hhi. pose proof (m_R_bounds p ltac:(lia) ltac:(lia)) as M.
  apply pf_large_gen; auto; [lra|nra|]. change (IZR (2 ^ 27)) with 134217728 in Hhi.
  apply large_tail_4; auto; try lia. change (IZR (2 ^ Z.of_N 32)) with 4294967296. lra.
Qed.

Lemma exp_26 : 5 * exp (- (262144 * (/ 50) ^ 2 / 4)) <= / 1000000000.
Proof.
  apply Rle_trans with (5 * exp (- (INR 100 * 0.26))).
  - apply Rmult_le_compat_l; [lra|]. apply exp_le. rewrite INR_IZR_INZ. simpl (Z.of_nat 100). lra.
  - rewrite exp_Ropp, <- exp_pow. pose proof (exp_ineq1_le 0.26) as E.
    assert (P : 5000000000 <= exp 0.26 ^ 100).
    { apply Rle_trans with (1.26 ^ 100); [lra|]. apply pow_incr. lra. }
    apply Rle_trans with (5 * / 5000000000); [|lra]. apply Rmult_le_compat_l; [lra|]. apply Rinv_le_contravar; lra.
Qed.
