(** * The mean square error of HyperLogLogPF at the cardinalities in between, and at all of them *)
From Coq Require Import NArith ZArith Reals List Bool Lia Lra.
From Flocq Require Import Core BinarySingleNaN.
From Verif Require Import ModelRust ModelF64 ModelEnv ModelConstants ModelHistory Spec SpecReal SpecCount SpecDist
  SpecProb SpecBuild SpecMean BitFacts AbsorbFacts PlusInv DistFacts ProbFacts MomentFacts HarmonicNum BiasFacts ExtremeFacts
  NegFacts ChernoffFacts RawFacts FloatFacts ClaimFloat ClaimDist HarmonicMean AccFacts AccSmall OccFacts AccRange AccMidPF
  TailFacts TailSmall TailMid RiskCore RiskFacts RiskPF RiskLinear RiskMid PlusMono.
Import ListNotations.
Local Open Scope R_scope.

(** ** Very few empty registers *)
Definition few_zeros (p : N) (n : nat) (hs : list N) : Prop :=
  INR n <= 2.75 * m_R p /\ IZR (Z.of_N (zero_count (file_of 32 p hs))) <= m_R p * below p n 0 / 4.

Lemma few_zeros_tail : forall p n, (10 <= p <= 16)%N -> 0.5 * m_R p <= INR n ->
  rare 32 n (exp (- (m_R p * 0.0065))) (few_zeros p n).
Proof.
  intros p n Hp Hn. pose proof (m_10 p (proj1 Hp)) as M.
  destruct (Rle_or_lt (INR n) (2.75 * m_R p)) as [L|L].
  2:{ eapply rare_weaken; [apply (rare_false 32 n 0); lra|left; apply exp_pos|]. intros hs _ [H _]. lra. }
  pose proof (below_pos p n ltac:(lia)) as B. destruct (inv_below_3 p n (proj1 Hp) (conj Hn L)) as [I1 _].
  pose proof (spread_quarter p n 0 (proj1 Hp)) as S4. set (b := below p n 0) in *.
  set (x := INR n / m_R p) in *. assert (X : 0.5 <= x <= 2.75) by (unfold x; split; [apply div_ge|apply div_le]; lra).
  assert (B2 : 0.0618 <= b) by nra.
  pose proof (occupancy_rare 32 p n (fun _ => / 4) (- 0.2) (- 0.2 * (m_R p * b / 4)) ltac:(lia) (fun _ z _ _ => quarter (m_R p) z ltac:(lra)) ltac:(rewrite ?Rabs_Ropp; try apply Rabs_le; lra)) as C.
  fold b in C. set (sp := spread p (fun _ => / 4) n 0) in *. assert (B3 : 0 <= b ^ 2) by apply pow2_ge_0.
  assert (SP : sp * 7.996 <= m_R p) by nra. assert (MB : m_R p * 0.0618 <= m_R p * b) by (apply Rmult_le_compat_l; lra).
  eapply rare_weaken; [exact C| |].
  - apply exp_le. lra.
  - intros hs _ [_ H]. fold b in H. lra.
Qed.

Section Middle.
Variables (e : env) (p : N) (n : nat) (C : list N -> R).
Hypothesis Hb : build e.
Hypothesis Ha : accurate e.
Hypothesis Hr : rejects e.
Hypothesis Hp : (10 <= p <= 16)%N.
Hypothesis Hn : 0.5 * m_R p <= INR n <= 4 * m_R p.
Hypothesis HC : pf_program e p n C.
Variable all : list (list N).
Hypothesis HE : enumerates (hash_list 32 n) all.

Let y := ratio 32 p n.
Let m := m_R p.
Let E := exp (- (m / 1000)).
Let T := INR (length all).

Lemma pfm_m : 1024 <= m <= 65536.
Proof.
  split; [exact (m_10 p (proj1 Hp))|]. change 65536 with (IZR (2 ^ 16)). unfold m, m_R. apply IZR_le.
  apply (Z.pow_le_mono_r 2); lia.
Qed.

Lemma pfm_n : (0 < n)%nat.
Proof. apply INR_lt. change (INR 0) with 0. pose proof pfm_m. unfold m in *. lra. Qed.

Lemma pfm_spread : 0 < mean 32 p n inv_pow2 /\
  mean 32 p n (fun v => inv_pow2 v * inv_pow2 v) <= 3.6 * (mean 32 p n inv_pow2 * mean 32 p n inv_pow2).
Proof.
  pose proof pfm_m as M. unfold m in M. destruct (Rle_or_lt (m_R p) (INR n)) as [L|L].
  - destruct (pf_mean_all p n Hp (conj L (proj2 Hn))) as [P V]. split; [exact P|].
    eapply Rle_trans; [exact V|]. apply Rmult_le_compat_r; nra.
  - pose proof (mid_load 32 p n (proj1 Hp) ltac:(lra)) as ML. set (x := INR n / m_R p) in *.
    assert (X : 0.5 <= x <= 1) by (unfold x; split; [apply div_ge|apply div_le]; lra).
    assert (F : register_files 32 p n (file_of 32 p)) by (apply file_of_files; lia). destruct (hash_lists_exist 32 n) as (a & EN).
    pose proof (ChernoffFacts.mean_le 32 p n (file_of 32 p) a ltac:(lia) F EN (fun v => inv_pow2 v * inv_pow2 v) inv_pow2) as Q.
    set (mu := mean 32 p n inv_pow2) in *. assert (U : 0.279 <= mu) by nra. split; [lra|].
    eapply Rle_trans; [apply Q; intros v _; pose proof (inv_pow2_01 v); nra|]. nra.
Qed.

Lemma pfm_y : forall hs, hash_list 32 n hs -> 0 < y hs /\ 0 < raw_R p (file_of 32 p hs) <= INR n * (2.5856 / y hs).
Proof.
  intros hs HH. pose proof pfm_m as M. destruct pfm_spread as [P _].
  assert (I : 0 < inv_sum (file_of 32 p hs)) by (eapply file_inv_pos, (file_of_ok 32 p hs ltac:(lia) (proj2 HH))).
  pose proof (mid_load 32 p n (proj1 Hp) ltac:(unfold m in M; lra)) as ML. pose proof (alpha_ratio p ltac:(lia)) as A.
  assert (J : 0 < / m_R p) by (apply Rinv_0_lt_compat; unfold m in *; lra). pose proof (alpha_lower p ltac:(lia)) as A2.
  assert (A3 : alpha_R p <= alpha_R p * (1 + / m_R p)) by nra.
  unfold y, ratio, m in *. set (mu := mean 32 p n inv_pow2) in *. set (S := inv_sum (file_of 32 p hs)) in *.
  assert (MU : 0 < m_R p * mu) by (apply Rmult_lt_0_compat; lra). split; [apply Rdiv_lt_0_compat; lra|].
  unfold raw_R. fold S. split; [apply Rdiv_lt_0_compat; [apply Rmult_lt_0_compat; [lra|apply Rmult_lt_0_compat; lra]|exact I]|].
  replace (INR n * (2.5856 / (S / (m_R p * mu)))) with (2.5856 * (INR n / m_R p * mu) * (m_R p * m_R p) / S) by (field; lra).
  unfold Rdiv. apply Rmult_le_compat_r; [left; now apply Rinv_0_lt_compat|].
  apply Rmult_le_compat_r; [apply Rmult_le_pos; lra|]. fold (INR n / m_R p). lra.
Qed.

Lemma pfm_cases : forall hs, hash_list 32 n hs ->
  0 <= C hs <= IZR (2 ^ 40) /\
  (C hs = 0 \/ C hs <= 1.001 * linear_R (2 ^ p) (zero_count (file_of 32 p hs)) /\ (zero_count (file_of 32 p hs) <> 0)%N \/
   IZR (2 ^ 32) / 30 < raw_R p (file_of 32 p hs) \/ C hs <= 1.001 * raw_R p (file_of 32 p hs)).
Proof.
  intros hs HH. destruct (HC hs HH) as (V & h & c & Hv & Hnr & Ep & SS & Ec & EC). destruct (pfm_y hs HH) as [_ [R0 _]].
  pose proof (file_of_ok 32 p hs ltac:(lia) (proj2 HH)) as RF0.
  pose proof (register_file_same 32 p hs (map (fun x => x mod 2 ^ 32)%N (hist_hashes h)) _ (fun x => iff_sym (SS x)) RF0) as RF.
  destruct (pf_finite_iff V e h Hb Ha Hr Hv Hnr) as (c1 & E1 & FI & NN). rewrite Ec in E1. injection E1 as <-.
  destruct (Rle_or_lt (IZR (2 ^ 32)) (raw_R p (file_of 32 p hs))) as [B|B].
  - assert (CZ : C hs = 0).
    { rewrite EC. destruct (is_finite c) eqn:F.
      + exfalso. pose proof (proj1 FI eq_refl) as F2. rewrite Ep in F2. specialize (F2 _ RF). lra.
      + specialize (NN eq_refl). now destruct c. }
    rewrite CZ. change (IZR (2 ^ 40)) with 1099511627776. split; [lra|]. now left.
  - assert (BL : below_2_32 (hist_precision h) (hist_hashes h)).
    { intros l RFl. rewrite Ep in *. now rewrite (is_register_file_unique 32 p _ l _ ltac:(lia) RFl RF). }
    destruct (pf_value_R V e h Hb Ha Hv Hnr BL) as (c2 & E2 & _ & (l & RFl & P) & R & _). rewrite Ec in E2. injection E2 as <-.
    rewrite <- EC in *. rewrite Ep in *. rewrite (is_register_file_unique 32 p _ l _ ltac:(lia) RFl RF) in P.
    split; [exact R|]. right. unfold approx in P.
    destruct P as [(Z & Lo & P)|(_ & [[_ P]|[P _]])]; [left|right; right|right; left; exact P].
    + split; [|exact Z]. change (IZR (2 ^ 28)) with 268435456 in P. apply Rabs_le_inv in P.
      destruct (Rle_or_lt 0 (linear_R (2 ^ p) (zero_count (file_of 32 p hs)))) as [Q|Q].
      * rewrite Rabs_pos_eq in P by exact Q. lra.
      * rewrite Rabs_left in P by exact Q. lra.
    + change (IZR (2 ^ 49)) with 562949953421312 in P. apply Rabs_le_inv in P. rewrite Rabs_pos_eq in P by lra. lra.
Qed.

(** Unless very few registers are empty, or there are many values, linear counting is at most 4n. *)
Lemma linear_cap_4 : forall hs, (zero_count (file_of 32 p hs) <> 0)%N -> ~ few_zeros p n hs ->
  linear_R (2 ^ p) (zero_count (file_of 32 p hs)) <= 4.073 * INR n.
Proof.
  intros hs Z F. pose proof pfm_m as M. unfold m in M. destruct (Rle_or_lt (INR n) (2.75 * m_R p)) as [L|L].
  2:{ pose proof (linear_cap p _ Hp Z). lra. }
  assert (F2 : m_R p * below p n 0 / 4 < IZR (Z.of_N (zero_count (file_of 32 p hs)))).
  { apply Rnot_le_lt. intros H. apply F. now split. }
  unfold linear_R. rewrite N2Z.inj_pow. change (IZR (Z.of_N 2 ^ Z.of_N p)) with (m_R p).
  destruct (below_exp p n ltac:(lia)) as [BL _]. pose proof (below_pos p n ltac:(lia)) as B.
  set (z := IZR (Z.of_N (zero_count (file_of 32 p hs)))) in *. set (b := below p n 0) in *. set (w := INR n / m_R p * (1 + / m_R p)) in *.
  assert (MB : 0 < m_R p * b) by (apply Rmult_lt_0_compat; lra).
  assert (Q : ln (m_R p / z) <= 1.5 + w).
  { rewrite <- (ln_exp (1.5 + w)). assert (Z0 : 0 < m_R p / z) by (apply Rdiv_lt_0_compat; lra).
    assert (LE : m_R p / z <= exp (1.5 + w)).
    { apply div_le; [lra|]. rewrite exp_plus. rewrite exp_Ropp in BL. pose proof (exp_pos w) as W.
      assert (B1 : 1 <= b * exp w).
      { apply (Rmult_le_compat_r (exp w)) in BL; [|lra]. rewrite Rinv_l in BL by lra. exact BL. }
      assert (E4 : 4 <= exp 1.5).
      { replace 1.5 with (INR 16 * 0.09375) by (simpl; lra). rewrite <- exp_pow. apply Rle_trans with (1.09375 ^ 16); [lra|].
        apply pow_incr. pose proof (exp_ineq1_le 0.09375). lra. }
      apply Rle_trans with (4 * exp w * z); [|apply Rmult_le_compat_r; [lra|apply Rmult_le_compat_r; lra]].
      apply Rle_trans with (4 * exp w * (m_R p * b / 4)); [|apply Rmult_le_compat_l; lra].
      replace (4 * exp w * (m_R p * b / 4)) with (m_R p * (b * exp w)) by field. nra. }
    destruct LE as [LE|LE]; [left; now apply ln_increasing|right; now rewrite LE]. }
  assert (W : m_R p * w = INR n * (1 + / m_R p)) by (unfold w; field; lra).
  assert (J : 0 < / m_R p <= / 1024) by (split; [apply Rinv_0_lt_compat|apply Rinv_le_contravar]; lra).
  apply (Rmult_le_compat_l (m_R p)) in Q; [|lra]. nra.
Qed.

Lemma pfm_lower : forall u, 0 < u -> rsum (fun hs => mark _ (Rle_dec (y hs) (1 - u))) all <= exp (- (m * (u ^ 2 / 7.2))) * T.
Proof.
  intros u Hu. apply (mark_sum 32 n _ (fun hs => y hs <= 1 - u) (fun hs => Rle_dec (y hs) (1 - u)) all HE).
  pose proof pfm_m as M. destruct pfm_spread as [P V].
  pose proof (harmonic_lower_k 32 p n 3.6 u ltac:(lia) ltac:(lia) P ltac:(lra) V Hu) as H.
  replace (2 * 3.6) with 7.2 in H by lra. eapply rare_weaken; [exact H|apply Rle_refl|].
  intros hs HH Y. unfold y, ratio, m in *. assert (MU : 0 < m_R p * mean 32 p n inv_pow2) by (apply Rmult_lt_0_compat; lra).
  apply (Rmult_le_compat_r _ _ _ (Rlt_le _ _ MU)) in Y. unfold Rdiv in Y. rewrite Rmult_assoc, Rinv_l in Y by lra. lra.
Qed.

Theorem pfm_generic : forall (D : list N -> R) (bad : list N -> Prop) (dec : forall hs, {bad hs} + {~ bad hs}),
  rare 32 n (4 * E) bad -> rsum D all <= 2.65 / m * T ->
  (forall hs, hash_list 32 n hs -> 0 <= D hs /\ (~ bad hs -> Rabs (C hs / INR n - 1) <= 0.036 + 1.4 * sqrt (D hs))) ->
  rsum (fun hs => (C hs / INR n - 1) ^ 2) all <= ((0.036 + 2.28 / sqrt m) ^ 2 + 42 * E) * T.
Proof.
  intros D bad dec RB SD PT. pose proof pfm_m as M. assert (N0 : 512 <= INR n) by (unfold m in *; lra).
  assert (V0 : 0 < 2.65 / m) by (apply Rdiv_lt_0_compat; lra).
  assert (few : forall hs, {few_zeros p n hs} + {~ few_zeros p n hs}).
  { intros hs. unfold few_zeros. destruct (Rle_dec (INR n) (2.75 * m_R p)); [|right; tauto].
    destruct (Rle_dec (IZR (Z.of_N (zero_count (file_of 32 p hs)))) (m_R p * below p n 0 / 4)); [left|right]; tauto. }
  pose proof (mark_sum 32 n (4 * E) bad dec all HE RB) as S1. fold T in S1.
  pose proof (mark_sum 32 n _ (few_zeros p n) few all HE (few_zeros_tail p n Hp (proj1 Hn))) as S2. fold m T in S2.
  pose proof (pfm_lower 0.2 ltac:(lra)) as S3. pose proof (pfm_lower 0.75 ltac:(lra)) as S4.
  assert (TP : 0 <= T) by apply pos_INR.
  set (c3 := fun hs => 88.3 * mark _ (Rle_dec (y hs) (1 - 0.2)) + 4611686018427387904 * mark _ (Rle_dec (y hs) (1 - 0.75))).
  set (d3 := 88.3 * exp (- (m * (0.2 ^ 2 / 7.2))) + 4611686018427387904 * exp (- (m * (0.75 ^ 2 / 7.2)))).
  assert (S5 : rsum c3 all <= d3 * T).
  { unfold c3, d3. rewrite rsum_plus, !rsum_scal. lra. }
  eapply Rle_trans; [apply (square_split 32 n all HE (fun hs => C hs / INR n) D (fun hs => mark _ (dec hs))
    (fun hs => mark _ (few hs)) c3 0.036 1.4 (2.65 / m) 9.5 459.3 1
    (4 * E) (exp (- (m * 0.0065))) d3
    ltac:(lra) ltac:(lra) V0 ltac:(lra) ltac:(lra) ltac:(lra)); [|exact SD|exact S1|exact S2|exact S5]|].
  - intros hs HH. destruct (PT hs HH) as [D0 PW]. split; [exact D0|].
    pose proof (mark_nonneg _ (dec hs)) as Q1. pose proof (mark_nonneg _ (few hs)) as Q2.
    pose proof (mark_nonneg _ (Rle_dec (y hs) (1 - 0.2))) as Q3. pose proof (mark_nonneg _ (Rle_dec (y hs) (1 - 0.75))) as Q4.
    unfold c3. split; [exact Q1|]. split; [exact Q2|]. split; [lra|].
    destruct (pfm_cases hs HH) as [CB CC]. destruct (pfm_y hs HH) as [Y0 [R0 RY]].
    assert (C0 : 0 <= C hs / INR n) by (apply div_ge; lra).
    destruct (Rle_dec (y hs) (1 - 0.75)) as [L|L].
    + right. replace (mark _ (left L)) with 1 in * by reflexivity.
      assert (W : C hs / INR n <= 2147483648).
      { apply div_le; [lra|]. change (IZR (2 ^ 40)) with 1099511627776 in CB. lra. }
      assert ((C hs / INR n - 1) ^ 2 <= 4611686018427387904) by (apply (cap_square _ _ _ C0 W); lra).
      lra.
    + replace (mark _ (right L)) with 0 in * by reflexivity. apply Rnot_le_lt in L.
      assert (Y4 : 2.5856 / y hs <= 10.3424) by (apply div_le; lra).
      assert (R4 : raw_R p (file_of 32 p hs) <= INR n * 10.3424) by (eapply Rle_trans; [exact RY|apply Rmult_le_compat_l; lra]).
      assert (NR : ~ IZR (2 ^ 32) / 30 < raw_R p (file_of 32 p hs)).
      { change (IZR (2 ^ 32)) with 4294967296. unfold m in M. lra. }
      destruct (few hs) as [B|B].
      * right. replace (mark _ (left B)) with 1 in * by reflexivity.
        assert (W : C hs / INR n <= 22.43).
        { apply div_le; [lra|]. destruct CC as [->|[[K Z]|[K|K]]]; [lra| |tauto|lra].
          pose proof (linear_cap p _ Hp Z). unfold m in M. lra. }
        assert ((C hs / INR n - 1) ^ 2 <= 459.3) by (apply (cap_square _ _ _ C0 W); lra). lra.
      * replace (mark _ (right B)) with 0 in * by reflexivity.
        assert (W0 : C hs <= 4.08 * INR n \/ C hs <= 1.001 * raw_R p (file_of 32 p hs)).
        { destruct CC as [->|[[K Z]|[K|K]]]; [left; lra|left|tauto|right; lra]. pose proof (linear_cap_4 hs Z B). lra. }
        destruct (Rle_dec (y hs) (1 - 0.2)) as [L2|L2].
        -- right. replace (mark _ (left L2)) with 1 in * by reflexivity.
           assert (W : C hs / INR n <= 10.3528) by (apply div_le; lra).
           assert ((C hs / INR n - 1) ^ 2 <= 88.3) by (apply (cap_square _ _ _ C0 W); lra). lra.
        -- replace (mark _ (right L2)) with 0 in * by reflexivity. apply Rnot_le_lt in L2.
           destruct (dec hs) as [B2|B2]; [right|left; now apply PW]. replace (mark _ (left B2)) with 1 in * by reflexivity.
           assert (Y5 : 2.5856 / y hs <= 3.232) by (apply div_le; lra).
           assert (R5 : raw_R p (file_of 32 p hs) <= INR n * 3.232) by (eapply Rle_trans; [exact RY|apply Rmult_le_compat_l; lra]).
           assert (W : C hs / INR n <= 4.08) by (apply div_le; lra).
           assert ((C hs / INR n - 1) ^ 2 <= 9.5) by (apply (cap_square _ _ _ C0 W); lra). lra.
  - apply Rmult_le_compat_r; [exact TP|]. assert (EP : 0 < E) by apply exp_pos.
    assert (G2 : 459.3 * exp (- (m * 0.0065)) <= 2 * E).
    { apply Rle_trans with (2 * exp 5.6 * exp (- (m * 0.0065))).
      - apply Rmult_le_compat_r; [left; apply exp_pos|]. replace 5.6 with (INR 112 * 0.05) by (simpl; lra). rewrite <- exp_pow.
        apply Rle_trans with (2 * 1.05 ^ 112); [|apply Rmult_le_compat_l; [lra|apply pow_incr; pose proof (exp_ineq1_le 0.05); lra]].
        lra.
      - rewrite Rmult_assoc, <- exp_plus. apply Rmult_le_compat_l; [lra|]. apply exp_le. unfold E. lra. }
    assert (G3 : d3 <= 2 * E).
    { assert (K1 : 88.3 * exp (- (m * (0.2 ^ 2 / 7.2))) <= E).
      { apply Rle_trans with (exp 4.6 * exp (- (m * (0.2 ^ 2 / 7.2)))).
        - apply Rmult_le_compat_r; [left; apply exp_pos|]. replace 4.6 with (INR 92 * 0.05) by (simpl; lra). rewrite <- exp_pow.
          apply Rle_trans with (1.05 ^ 92); [lra|]. apply pow_incr. pose proof (exp_ineq1_le 0.05). lra.
        - rewrite <- exp_plus. apply exp_le. lra. }
      assert (K2 : 4611686018427387904 * exp (- (m * (0.75 ^ 2 / 7.2))) <= E).
      { apply Rle_trans with (exp (INR 62) * exp (- (m * (0.75 ^ 2 / 7.2)))).
        - apply Rmult_le_compat_r; [left; apply exp_pos|]. eapply Rle_trans; [|apply exp_big]. right. exact (eq_sym (pow_IZR 2 62)).
        - rewrite <- exp_plus. apply exp_le. replace (INR 62) with 62 by (rewrite INR_IZR_INZ; reflexivity). lra. }
      unfold d3. lra. }
    assert (S : 0 < sqrt m) by (apply sqrt_lt_R0; lra).
    assert (G1 : (0.036 + 1.4 * sqrt (2.65 / m)) ^ 2 <= (0.036 + 2.28 / sqrt m) ^ 2).
    { pose proof (sqrt_pos (2.65 / m)). apply pow_incr. split; [lra|]. apply Rplus_le_compat_l.
      rewrite sqrt_div by lra. assert (sqrt 2.65 <= 1.628).
      { rewrite <- (sqrt_square 1.628) by lra. apply sqrt_le_1; lra. }
      unfold Rdiv. rewrite <- Rmult_assoc. apply Rmult_le_compat_r; [left; now apply Rinv_0_lt_compat|]. lra. }
    lra.
Qed.

Lemma pfm_window : forall hs lo hi t, hash_list 32 n hs -> pf_counts e p (INR n * lo) (INR n * hi) hs ->
  1 - (0.036 + 1.4 * t) <= lo -> hi <= 1 + (0.036 + 1.4 * t) -> Rabs (C hs / INR n - 1) <= 0.036 + 1.4 * t.
Proof.
  intros hs lo hi t HH P Hlo Hhi. pose proof pfm_m as M. assert (N0 : 0 < INR n) by (unfold m in *; lra).
  destruct (HC hs HH) as (V & h & c & Hv & Hnr & Ep & SS & Ec & EC).
  destruct (P V h Hv Hnr Ep SS) as (c' & Ec' & _ & B). rewrite Ec in Ec'. injection Ec' as <-. rewrite <- EC in B.
  apply Rabs_le.
  assert (C hs / INR n <= hi) by (apply div_le; lra).
  assert (lo <= C hs / INR n) by (apply div_ge; lra). lra.
Qed.

Theorem pfm_square : rsum (fun hs => (C hs / INR n - 1) ^ 2) all <= ((0.036 + 2.28 / sqrt m) ^ 2 + 42 * E) * T.
Proof.
  pose proof pfm_m as M. pose proof pfm_n as H0. pose proof (pos_INR (length all)) as TP. fold T in TP.
  assert (I : 0 < / m) by (apply Rinv_0_lt_compat; lra). assert (EP : 0 < E) by apply exp_pos.
  assert (T1000 : m * (/ 10) ^ 2 / 10 = m / 1000) by lra.
  assert (J : 0 < / m_R p <= / 1024) by (split; [apply Rinv_0_lt_compat|apply Rinv_le_contravar]; unfold m in *; lra).
  assert (SZ : INR n <= 2.75 * m_R p -> rsum (fun hs => zero_dev 32 p n hs ^ 2) all <= 1.65 / m * T).
  { intros L. apply zero_dev_square_gen; auto; try lia. now apply zero_variance_3. }
  assert (RZ : INR n <= 2.75 * m_R p -> rare 32 n (2 * E) (fun hs => / 10 <= zero_dev 32 p n hs)).
  { intros L. eapply rare_weaken; [apply (zeros_tail_3 32 p n (/ 10)); try lia; lra| |].
    - fold m. rewrite T1000. apply Rle_refl.
    - intros hs _ H. apply zero_dev_rare; auto. lia. }
  destruct (Rle_or_lt (INR n) (m_R p)) as [L|L].
  - apply (pfm_generic (fun hs => zero_dev 32 p n hs ^ 2) (fun hs => / 10 <= zero_dev 32 p n hs) (fun hs => Rle_dec _ _)).
    + eapply rare_weaken; [apply RZ; unfold m in *; lra|lra|auto].
    + eapply Rle_trans; [apply SZ; unfold m in *; lra|]. apply Rmult_le_compat_r; [exact TP|]. unfold Rdiv. lra.
    + intros hs HH. split; [apply pow2_ge_0|]. intros NB. apply Rnot_le_lt in NB.
      assert (X0 : 0 <= zero_dev 32 p n hs).
      { unfold zero_dev. apply div_ge; [apply zero_scale; auto; lia|]. rewrite Rmult_0_l. apply Rabs_pos. }
      rewrite sqrt_pow2 by exact X0. apply window_limit; [lra|exact NB|]. intros t Ht.
      pose proof (pf_small_point e p n t hs Hb Ha ltac:(lia) ltac:(lra) H0 L HH) as P. rewrite !Rmult_assoc in P.
      change (IZR (2 ^ 28)) with 268435456 in P.
      eapply pfm_window; [exact HH|apply P; apply zero_dev_not; auto; lia || lra| |]; nra.
  - destruct (pf_mean_all p n Hp ltac:(unfold m in *; lra)) as [P V].
    assert (X1 : forall hs, 0 <= ratio_dev 1.06 32 p n hs).
    { intros hs. unfold ratio_dev. apply div_ge; [lra|]. rewrite Rmult_0_l. apply Rabs_pos. }
    pose proof (ratio_dev_square 1.06 32 p n all ltac:(lia) ltac:(lia) ltac:(lra) P V HE) as S1. fold m T in S1.
    assert (R1 : rare 32 n (2 * E) (fun hs => / 10 <= ratio_dev 1.06 32 p n hs)).
    { eapply rare_weaken; [apply (harmonic_tail 32 p n 1.06 (/ 10)); auto; lia || lra| |].
      - apply Rmult_le_compat_l; [lra|]. apply exp_le. fold m. lra.
      - intros hs _ H. apply ratio_dev_rare; auto; lia || lra. }
    assert (NH : forall hs t, ratio_dev 1.06 32 p n hs < t -> ~ rare_harmonic 32 p n (1.06 * t) hs).
    { intros hs t H B. apply ratio_dev_rare in B; [lra|lia|lra|exact P]. }
    destruct (Rle_or_lt (INR n) (2.75 * m_R p)) as [L2|L2].
    + set (bad := fun hs => / 10 <= ratio_dev 1.06 32 p n hs \/ / 10 <= zero_dev 32 p n hs).
      assert (dec : forall hs, {bad hs} + {~ bad hs}).
      { intros hs. unfold bad. destruct (Rle_dec (/ 10) (ratio_dev 1.06 32 p n hs)), (Rle_dec (/ 10) (zero_dev 32 p n hs)); [left|left|left|right]; tauto. }
      apply (pfm_generic (fun hs => ratio_dev 1.06 32 p n hs ^ 2 + zero_dev 32 p n hs ^ 2) bad dec).
      * eapply rare_weaken; [apply (rare_or _ _ _ _ _ _ R1 (RZ L2))|lra|auto].
        intros hs. destruct (Rle_dec (/ 10) (ratio_dev 1.06 32 p n hs)); auto.
      * rewrite rsum_plus. specialize (SZ L2). unfold Rdiv in *. lra.
      * intros hs HH. pose proof (pow2_ge_0 (ratio_dev 1.06 32 p n hs)) as Q1. pose proof (pow2_ge_0 (zero_dev 32 p n hs)) as Q2.
        split; [lra|]. intros NB. unfold bad in NB. specialize (X1 hs).
        set (a := ratio_dev 1.06 32 p n hs) in *. set (z := zero_dev 32 p n hs) in *.
        assert (B1 : a < / 10) by (apply Rnot_le_lt; tauto). assert (B2 : z < / 10) by (apply Rnot_le_lt; tauto).
        pose proof (Rmax_l a z) as Y1. pose proof (Rmax_r a z) as Y2.
        assert (XL : Rmax a z < / 10) by (apply Rmax_lub_lt; lra).
        apply Rle_trans with (0.036 + 1.4 * Rmax a z).
        -- apply window_limit; [lra|exact XL|]. intros t Ht.
           eapply pfm_window; [exact HH|apply (pf_mid_point e p n t); auto; try (unfold m in *; lra)| |]; try lra.
           ++ apply NH. fold a. lra.
           ++ intros _. apply zero_dev_not; auto; [lia|]. fold z. lra.
        -- apply Rplus_le_compat_l, Rmult_le_compat_l; [lra|]. rewrite <- (sqrt_pow2 (Rmax a z)) by lra.
           apply sqrt_le_1; try lra; [apply pow2_ge_0|]. unfold Rmax. destruct (Rle_dec a z); lra.
    + apply (pfm_generic (fun hs => ratio_dev 1.06 32 p n hs ^ 2) (fun hs => / 10 <= ratio_dev 1.06 32 p n hs) (fun hs => Rle_dec _ _)).
      * eapply rare_weaken; [exact R1|lra|auto].
      * eapply Rle_trans; [exact S1|]. apply Rmult_le_compat_r; [exact TP|]. unfold Rdiv. lra.
      * intros hs HH. split; [apply pow2_ge_0|]. intros NB. apply Rnot_le_lt in NB. specialize (X1 hs).
        rewrite sqrt_pow2 by exact X1. apply window_limit; [lra|exact NB|]. intros t Ht.
        eapply pfm_window; [exact HH|apply (pf_mid_point e p n t); auto; try (unfold m in *; lra)| |]; try lra.
        -- apply NH. lra.
Qed.
End Middle.

(** ** Every cardinality *)
Theorem pf_everywhere_square : forall e p n C, build e -> accurate e -> rejects e -> (10 <= p <= 16)%N ->
  (0 < n)%nat -> INR n <= 0.95 * IZR (2 ^ 27) -> pf_program e p n C ->
  forall all, enumerates (hash_list 32 n) all ->
  rsum (fun hs => (C hs / INR n - 1) ^ 2) all
  <= ((0.036 + 2.28 / sqrt (m_R p)) ^ 2 + 42 * exp (- (m_R p / 1000))) * INR (length all).
Proof.
  intros e p n C Hb Ha Hr Hp H0 Hn HC all HE. pose proof (m_10 p (proj1 Hp)) as M.
  assert (S : 0 < sqrt (m_R p)) by (apply sqrt_lt_R0; lra). pose proof (sqrt_sqrt (m_R p) ltac:(lra)) as SS.
  assert (I : 0 < / sqrt (m_R p)) by now apply Rinv_0_lt_compat.
  pose proof (exp_pos (- (m_R p / 1000))) as EP. assert (TP := pos_INR (length all)).
  destruct (Rle_or_lt (INR n) (0.5 * m_R p)) as [L|L]; [|destruct (Rle_or_lt (INR n) (4 * m_R p)) as [L2|L2]].
  - eapply Rle_trans; [apply (pf_linear_square e p n C); auto; lia || lra|]. apply Rmult_le_compat_r; [exact TP|].
    assert (Q1 : 1.13 / m_R p <= (2.28 / sqrt (m_R p)) ^ 2).
    { replace ((2.28 / sqrt (m_R p)) ^ 2) with (5.1984 / (sqrt (m_R p) * sqrt (m_R p))).
      - rewrite SS. unfold Rdiv. apply Rmult_le_compat_r; [left; apply Rinv_0_lt_compat|]; lra.
      - transitivity ((2.28 * / sqrt (m_R p)) ^ 2); [|reflexivity]. unfold Rdiv. rewrite Rinv_mult. lra. }
    set (i := 2.28 / sqrt (m_R p)) in *. assert (0 < i) by (apply Rdiv_lt_0_compat; lra). clearbody i. nra.
  - apply (pfm_square e p n C Hb Ha Hr Hp ltac:(lra) HC all HE).
  - eapply Rle_trans; [apply (square_pf e p n C Hb Ha Hr Hp ltac:(lra) Hn HC all HE (/ 10) ltac:(lra))|]. apply Rmult_le_compat_r; [exact TP|].
    replace (m_R p * (/ 10) ^ 2 / 4.3) with (m_R p / 430) by lra. apply Rplus_le_compat.
    + apply pow_incr. replace (1 - / 10) with 0.9 by lra. unfold Rdiv. lra.
    + assert (exp (- (m_R p / 430)) <= exp (- (m_R p / 1000))) by (apply exp_le; lra). lra.
Qed.
