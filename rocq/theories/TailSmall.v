(** * Exponential tails of linear counting and of the sparse representation *)
From Coq Require Import NArith ZArith Reals List Bool Lia Lra Permutation.
From Verif Require Import ModelRust Spec SpecReal SpecCount SpecDist SpecProb BitFacts CountFacts EncFacts DistFacts ProbFacts MomentFacts
  HarmonicNum NegFacts ChernoffFacts RawFacts HarmonicMean AccFacts AccSmall AccRange TailFacts OccFacts.
Import ListNotations.
Local Open Scope R_scope.

(** Between 0.45m and 2m values. *)
Lemma inv_below : forall p n, (10 <= p)%N -> 0.45 * m_R p <= INR n <= 2 * m_R p ->
  let x := INR n / m_R p in let b := below p n 0 in
  0.25 <= x * b /\ 1 <= b ^ 2 * (1 + 14.3 * x ^ 2).
Proof.
  intros p n Hp Hn x b. pose proof (m_10 p Hp) as M. pose proof (below_pos p n ltac:(lia)) as B.
  pose proof (below_exp p n ltac:(lia)) as [BL _]. fold x b in BL. fold b in B.
  assert (Hx : 0.45 <= x <= 2) by (unfold x; split; [apply div_ge|apply div_le]; lra).
  assert (J : 0 < / m_R p <= / 1024) by (split; [apply Rinv_0_lt_compat|apply Rinv_le_contravar]; lra).
  set (y := x * (1 + / m_R p)) in *. assert (Hy : x <= y <= 1.001 * x) by (unfold y; nra).
  pose proof (exp_quad_2 y ltac:(lra)) as E. rewrite exp_Ropp in BL. pose proof (exp_pos y) as P.
  assert (E1 : exp y <= 1 + 1.001 * x + 1.1524 * x ^ 2).
  { eapply Rle_trans; [exact E|]. assert (y ^ 2 <= 1.002002 * x ^ 2) by nra. nra. }
  assert (B1 : 1 <= b * exp y).
  { apply (Rmult_le_compat_r (exp y)) in BL; [|lra]. rewrite Rinv_l in BL by lra. exact BL. }
  set (e := exp y) in *. clearbody e. clearbody y x b. clear E.
  split.
  - apply Rmult_le_reg_r with e; [exact P|]. apply Rle_trans with x; [nra|]. rewrite Rmult_assoc. nra.
  - assert (Q : e ^ 2 <= 1 + 14.3 * x ^ 2).
    { apply Rle_trans with ((1 + 1.001 * x + 1.1524 * x ^ 2) ^ 2); [apply pow_incr; lra|].
      assert (0 <= (x - 0.45) * (2 - x)) by nra.
      assert (0 <= x ^ 2 * ((x - 0.45) * (2 - x))) by (apply Rmult_le_pos; [apply pow2_ge_0|assumption]).
      assert (0 <= x * ((x - 0.45) * (2 - x))) by (apply Rmult_le_pos; lra). nra. }
    assert (0 <= b ^ 2) by apply pow2_ge_0.
    apply Rle_trans with (b ^ 2 * e ^ 2); [rewrite <- Rpow_mult_distr; nra|]. apply Rmult_le_compat_l; lra.
Qed.

Theorem zeros_tail : forall W p n t, (10 <= p)%N -> (p < W)%N -> 0.45 * m_R p <= INR n <= 2 * m_R p -> 0 < t <= / 10 ->
  rare W n (2 * exp (- (m_R p * t ^ 2 / 4))) (rare_zeros W p n (t * (INR n / m_R p))).
Proof.
  intros W p n t Hp HW Hn Ht. pose proof (m_10 p Hp) as M. pose proof (below_pos p n ltac:(lia)) as B.
  destruct (inv_below p n Hp Hn) as [I1 I2]. pose proof (spread_quarter p n 0 Hp) as S4.
  set (x := INR n / m_R p) in *. set (b := below p n 0) in *.
  assert (Hx : 0.45 <= x) by (unfold x; apply div_ge; lra).
  set (l := t / (2 * (x * b))). assert (Hl : 0 < l <= 0.2).
  { split; [apply Rdiv_lt_0_compat; lra|]. apply div_le; lra. }
  assert (El : l * (x * b) = t / 2) by (unfold l; field; split; lra).
  pose proof (fun s => occupancy_rare W p n (fun _ => / 4) l s HW (fun _ z _ _ => quarter (m_R p) z ltac:(lra)) ltac:(lra)) as C1.
  pose proof (fun s => occupancy_rare W p n (fun _ => / 4) (- l) s HW (fun _ z _ _ => quarter (m_R p) z ltac:(lra)) ltac:(lra)) as C2.
  fold b in C1, C2. set (sp := spread p (fun _ => / 4) n 0) in *.
  assert (V : 0.55 * l ^ 2 * sp <= m_R p * (t ^ 2 / 4)).
  { assert (L2 : l ^ 2 * (1 - b ^ 2) <= 14.3 * (t ^ 2 / 4)).
    { assert (0 <= l ^ 2) by apply pow2_ge_0. apply Rle_trans with (l ^ 2 * (b ^ 2 * (14.3 * x ^ 2))); [apply Rmult_le_compat_l; lra|].
      right. replace (l ^ 2 * (b ^ 2 * (14.3 * x ^ 2))) with (14.3 * (l * (x * b)) ^ 2) by ring. rewrite El. field. }
    assert (0 <= l ^ 2) by apply pow2_ge_0. assert (L3 : l ^ 2 * (sp * 7.996) <= l ^ 2 * (m_R p * (1 - b ^ 2))) by (apply Rmult_le_compat_l; lra).
    replace (l ^ 2 * (m_R p * (1 - b ^ 2))) with (m_R p * (l ^ 2 * (1 - b ^ 2))) in L3 by ring.
    assert (L4 : m_R p * (l ^ 2 * (1 - b ^ 2)) <= m_R p * (14.3 * (t ^ 2 / 4))) by (apply Rmult_le_compat_l; lra).
    assert (0 <= t ^ 2) by apply pow2_ge_0. assert (0 <= m_R p * (t ^ 2 / 4)) by (apply Rmult_le_pos; lra). nra. }
  set (d := t * x * (m_R p * b)).
  assert (Ed : l * d = m_R p * (t ^ 2 / 2)).
  { unfold d. replace (l * (t * x * (m_R p * b))) with (m_R p * t * (l * (x * b))) by ring. rewrite El. field. }
  specialize (C1 (l * (m_R p * b + d))). specialize (C2 (- l * (m_R p * b - d))).
  eapply rare_weaken; [apply (rare_or _ _ _ _ _ _ C1 C2)| |].
  - intros hs. destruct (Rle_dec (l * (m_R p * b + d)) (l * IZR (Z.of_N (zero_count (file_of W p hs))))); auto.
  - replace (2 * exp (- (m_R p * t ^ 2 / 4))) with (exp (- (m_R p * t ^ 2 / 4)) + exp (- (m_R p * t ^ 2 / 4))) by ring.
    apply Rplus_le_compat; apply exp_le.
    + replace (l * (m_R p * b + d)) with (l * (m_R p * b) + l * d) by ring. lra.
    + replace ((- l) ^ 2) with (l ^ 2) by ring. replace (- l * (m_R p * b - d)) with (- l * (m_R p * b) + l * d) by ring. lra.
  - intros hs _ H. unfold rare_zeros in H. fold b x d in H. revert H. unfold Rabs. destruct (Rcase_abs _); intros H; [right|left].
    + assert (G : IZR (Z.of_N (zero_count (file_of W p hs))) <= m_R p * b - d) by lra. nra.
    + apply Rmult_le_compat_l; lra.
Qed.

(** Few 25-bit prefixes coincide. *)
Theorem lost_tail : forall p n t, (10 <= p <= 18)%N -> 0.45 * m_R p <= INR n <= 2 * m_R p -> 0 < t <= / 10 ->
  rare 64 n (exp (- (m_R p * t ^ 2 / 4))) (fun hs => INR n * (0.0079 + t) <= lost n hs).
Proof.
  intros p n t Hp Hn Ht. unfold lost. pose proof (m_10 p (proj1 Hp)) as M. pose proof (m_R_bounds p ltac:(lia) ltac:(lia)) as MB.
  assert (E25 : m_R 25 = 33554432) by reflexivity.
  assert (Hw : forall k z, 0 <= z <= m_R 25 -> m_R 25 - z <= INR k -> z / m_R 25 * (1 - z / m_R 25) <= INR k / m_R 25).
  { rewrite E25. intros k z Hz Hk. nra. }
  pose proof (occupancy_rare 64 25 n (fun k => INR k / m_R 25) t (t * (33554432 - INR n + INR n * (0.0079 + t))) ltac:(lia) Hw ltac:(lra)) as C.
  pose proof (spread_lin 25 n 0) as S. set (sp := spread 25 (fun k => INR k / m_R 25) n 0) in *. rewrite E25 in C, S.
  destruct (below_exp 25 n ltac:(lia)) as [_ B]. rewrite E25 in B.
  set (b := below 25 n 0) in *. clearbody b. set (x := INR n) in *.
  assert (X : 0 < x <= 524288) by lra. clearbody x sp. cbn [INR] in S. rewrite Rmult_0_r, Rplus_0_l in S.
  pose proof (exp_neg_up (x / 33554432) ltac:(lra)) as U.
  eapply rare_weaken; [exact C| |].
  - apply exp_le. assert (B2 : 33554432 * b <= 33554432 - x + 0.0079 * x) by nra.
    assert (S2 : sp <= 0.008 * x) by nra.
    assert (T2 : 0 <= t ^ 2) by apply pow2_ge_0.
    assert (V : 0.55 * t ^ 2 * sp <= 0.0044 * x * t ^ 2) by nra.
    assert (t * (33554432 * b) <= t * (33554432 - x + 0.0079 * x)) by (apply Rmult_le_compat_l; lra).
    assert (0.45 * m_R p * t ^ 2 <= x * t ^ 2) by (apply Rmult_le_compat_r; lra). nra.
  - intros hs _ L. apply Rmult_le_compat_l; lra.
Qed.

(** From 2m values on few registers are empty. *)
Theorem many_zeros_tail : forall p n t, (10 <= p <= 18)%N -> 0 < t <= / 10 -> 2 * m_R p <= INR n ->
  rare 64 n (exp (- (m_R p * t ^ 2 / 4))) (many_zeros p).
Proof.
  intros p n t Hp Ht Hn. pose proof (m_10 p (proj1 Hp)) as M. pose proof (below_pos p n ltac:(lia)) as B.
  pose proof (below_exp p n ltac:(lia)) as [_ BU].
  assert (X2 : 2 <= INR n / m_R p) by (apply div_ge; lra).
  assert (B2 : below p n 0 <= 0.1362).
  { eapply Rle_trans; [exact BU|]. apply Rle_trans with (exp (- 2)); [apply exp_le; lra|exact exp_minus_2]. }
  assert (F : register_files 64 p n (file_of 64 p)) by (apply file_of_files; lia).
  assert (E2 : exp 0.2 <= 1.24) by (eapply Rle_trans; [apply exp_quadratic; lra|lra]).
  assert (Mg : mean 64 p n (fun v => exp (0.2 * ind 0 v)) <= exp 0.03269).
  { rewrite (mean_ext 64 p n _ (fun v => 1 * 1 + (exp 0.2 - 1) * ind 0 v)).
    - rewrite mean_lin, mean_const, mean_zero. eapply Rle_trans; [|apply exp_ineq1_le]. nra.
    - intros v. unfold ind. destruct (v <=? 0)%N; [rewrite Rmult_1_r; lra|rewrite Rmult_0_r, exp_0; lra]. }
  assert (Dc : decreasing (ind 0)).
  { intros k. unfold ind. destruct (N.leb_spec (k + 1) 0); [lia|]. destruct (k <=? 0)%N; lra. }
  pose proof (chernoff 64 p n (file_of 64 p) (ind 0) 0.2 _ (0.2 * (0.2 * m_R p)) ltac:(lia) F (or_intror (ind_mono _ Dc)) Mg) as C.
  fold (m_R p) in C. eapply rare_weaken; [exact C| |].
  - apply exp_le. assert (t ^ 2 <= / 100) by nra. nra.
  - intros hs _ H. unfold many_zeros in H. cbv beta. rewrite rsum_zero. lra.
Qed.
