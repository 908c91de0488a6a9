(** * The harmonic sum is exponentially concentrated *)
From Coq Require Import NArith ZArith Reals List Bool Lia Lra Permutation.
From Verif Require Import ModelRust Spec SpecReal SpecCount SpecDist SpecProb BitFacts CountFacts DistFacts ProbFacts MomentFacts
  HarmonicNum NegFacts ChernoffFacts RawFacts HarmonicMean AccFacts AccSmall.
Import ListNotations.
Local Open Scope R_scope.

(** ** Exponentials *)
Lemma exp_above : forall w, 0 <= w -> 1 + w + w ^ 2 / 2 <= exp w.
Proof.
  intros w Hw. set (f := fun t => exp t - (1 + t + t ^ 2 / 2)).
  destruct (Req_dec w 0) as [->|Nz]; [rewrite exp_0; lra|].
  destruct (MVT_cor2 f (fun u => exp u - (0 + 1 + (2 * u) * / 2)) 0 w) as (c & Ec & Hc); [lra| |].
  - intros c Hc. unfold f. apply derivable_pt_lim_minus; [apply derivable_pt_lim_exp|].
    apply derivable_pt_lim_plus; [apply derivable_pt_lim_plus|].
    + apply derivable_pt_lim_const.
    + apply derivable_pt_lim_id.
    + apply (derivable_pt_lim_scal_right (fun x => x ^ 2) c (2 * c) (/ 2)).
      replace (2 * c) with (INR 2 * c ^ pred 2) by (cbn; ring). apply derivable_pt_lim_pow.
  - unfold f in Ec. rewrite exp_0 in Ec. pose proof (exp_ineq1_le c). nra.
Qed.

Lemma exp_rem1 : forall w, 0 <= w -> exp w <= 1 + w * exp w.
Proof.
  intros w Hw. pose proof (exp_ineq1_le (- w)) as E. rewrite exp_Ropp in E. pose proof (exp_pos w) as P.
  apply (Rmult_le_compat_r (exp w)) in E; [|lra]. rewrite Rinv_l in E by lra. lra.
Qed.

Lemma exp_rem2 : forall w, 0 <= w -> exp w <= 1 + w + w ^ 2 / 2 * exp w.
Proof.
  intros w Hw. set (f := fun t => 1 + t + t ^ 2 * / 2 * exp t - exp t).
  destruct (Req_dec w 0) as [->|Nz]; [rewrite exp_0; lra|].
  destruct (MVT_cor2 f (fun u => 0 + 1 + ((2 * u) * / 2 * exp u + u ^ 2 * / 2 * exp u) - exp u) 0 w) as (c & Ec & Hc); [lra| |].
  - intros c Hc. unfold f. apply derivable_pt_lim_minus; [|apply derivable_pt_lim_exp].
    apply derivable_pt_lim_plus; [apply derivable_pt_lim_plus|].
    + apply derivable_pt_lim_const.
    + apply derivable_pt_lim_id.
    + apply (derivable_pt_lim_mult (fun t => t ^ 2 * / 2) exp); [|apply derivable_pt_lim_exp].
      apply (derivable_pt_lim_scal_right (fun x => x ^ 2) c (2 * c) (/ 2)).
      replace (2 * c) with (INR 2 * c ^ pred 2) by (cbn; ring). apply derivable_pt_lim_pow.
  - unfold f in Ec. rewrite exp_0 in Ec. pose proof (exp_rem1 c ltac:(lra)). pose proof (exp_pos c).
    assert (0 <= c ^ 2 * / 2 * exp c) by (apply Rmult_le_pos; nra). nra.
Qed.

Lemma exp_rem3 : forall w, 0 <= w -> exp w <= 1 + w + w ^ 2 / 2 + w ^ 3 / 6 * exp w.
Proof.
  intros w Hw. set (f := fun t => 1 + t + t ^ 2 * / 2 + t ^ 3 * / 6 * exp t - exp t).
  destruct (Req_dec w 0) as [->|Nz]; [rewrite exp_0; lra|].
  destruct (MVT_cor2 f (fun u => 0 + 1 + (2 * u) * / 2 + ((3 * u ^ 2) * / 6 * exp u + u ^ 3 * / 6 * exp u) - exp u) 0 w) as (c & Ec & Hc); [lra| |].
  - intros c Hc. unfold f. apply derivable_pt_lim_minus; [|apply derivable_pt_lim_exp].
    apply derivable_pt_lim_plus; [apply derivable_pt_lim_plus; [apply derivable_pt_lim_plus|]|].
    + apply derivable_pt_lim_const.
    + apply derivable_pt_lim_id.
    + apply (derivable_pt_lim_scal_right (fun x => x ^ 2) c (2 * c) (/ 2)).
      replace (2 * c) with (INR 2 * c ^ pred 2) by (cbn; ring). apply derivable_pt_lim_pow.
    + apply (derivable_pt_lim_mult (fun t => t ^ 3 * / 6) exp); [|apply derivable_pt_lim_exp].
      apply (derivable_pt_lim_scal_right (fun x => x ^ 3) c (3 * c ^ 2) (/ 6)).
      replace (3 * c ^ 2) with (INR 3 * c ^ pred 3) by (cbn; ring). apply derivable_pt_lim_pow.
  - unfold f in Ec. rewrite exp_0 in Ec. pose proof (exp_rem2 c ltac:(lra)). pose proof (exp_pos c).
    assert (0 <= c ^ 3 * / 6 * exp c) by (apply Rmult_le_pos; [apply Rmult_le_pos; [apply pow_le|]|]; lra). nra.
Qed.

Lemma exp_quadratic : forall y, y <= 1.43 -> exp y <= 1 + y + y ^ 2.
Proof.
  intros y Hy. destruct (Rle_or_lt 0 y) as [H|H]; [apply exp_quad; lra|].
  pose proof (exp_neg_up (- y) ltac:(lra)) as E. rewrite Ropp_involutive in E. nra.
Qed.

Lemma ind_mono : forall (g : N -> R), decreasing g -> forall u v, (u <= v)%N -> g v <= g u.
Proof.
  intros g Hg u v H. remember (N.to_nat (v - u)) as d eqn:E. revert v H E. induction d; intros v H E.
  - replace v with u by lia. apply Rle_refl.
  - apply Rle_trans with (g (v - 1)%N); [|apply IHd; lia]. pose proof (Hg (v - 1)%N) as G.
    replace (v - 1 + 1)%N with v in G by lia. exact G.
Qed.

(** ** Two tails from two moment generating functions *)
Section Tails.
Variables (W p : N) (n : nat) (file : list N -> list N).
Hypothesis HW : (p < W)%N.
Hypothesis HF : register_files W p n file.
Variable g : N -> R.
Hypothesis Hg : decreasing g.
Notation mu := (mean W p n g).
Hypothesis Hmu : 0 < mu.

Theorem two_tails : forall q t, 0 < q -> 0 < t ->
  mean W p n (fun v => exp (t / (2 * q) / mu * g v)) <= exp (t / (2 * q) + t ^ 2 / 4) ->
  mean W p n (fun v => exp (- (t / (2 * q) / mu) * g v)) <= exp (- (t / (2 * q)) + t ^ 2 / 4) ->
  rare W n (2 * exp (- (m_R p * t ^ 2 / 4)))
    (fun hs => q * t * (m_R p * mu) <= Rabs (rsum g (file hs) - m_R p * mu)).
Proof.
  intros q t Hq Ht H1 H2. set (a := t / (2 * q)) in *. pose proof (ind_mono g Hg) as Mono.
  assert (Ha : 0 < a) by (apply Rdiv_lt_0_compat; lra). assert (Ea : a * q = t / 2) by (unfold a; field; lra).
  assert (Hl : 0 < a / mu) by (apply Rdiv_lt_0_compat; lra).
  pose proof (chernoff W p n file g (a / mu) _ (a / mu * (m_R p * mu * (1 + q * t))) HW HF (or_intror Mono) H1) as C1.
  pose proof (chernoff W p n file g (- (a / mu)) _ (- (a / mu) * (m_R p * mu * (1 - q * t))) HW HF (or_intror Mono) H2) as C2.
  fold (m_R p) in C1, C2.
  replace (m_R p * (a + t ^ 2 / 4) - a / mu * (m_R p * mu * (1 + q * t))) with (- (m_R p * t ^ 2 / 4)) in C1.
  2:{ replace (a / mu * (m_R p * mu * (1 + q * t))) with (m_R p * (a + a * q * t)) by (field; lra). rewrite Ea. field. }
  replace (m_R p * (- a + t ^ 2 / 4) - - (a / mu) * (m_R p * mu * (1 - q * t))) with (- (m_R p * t ^ 2 / 4)) in C2.
  2:{ replace (- (a / mu) * (m_R p * mu * (1 - q * t))) with (m_R p * (- a + a * q * t)) by (field; lra). rewrite Ea. field. }
  eapply rare_weaken; [apply (rare_or _ _ _ _ _ _ C1 C2)|right; ring|].
  - intros hs. destruct (Rle_dec (a / mu * (m_R p * mu * (1 + q * t))) (a / mu * rsum g (file hs))); auto.
  - intros hs _ H. cbv beta in *. revert H. unfold Rabs. destruct (Rcase_abs _); intros H; [right|left].
    + assert (G : rsum g (file hs) <= m_R p * mu * (1 - q * t)) by lra. nra.
    + apply Rmult_le_compat_l; lra.
Qed.

(** A bounded variable. *)
Lemma mgf_quadratic : forall q b, mean W p n (fun v => g v * g v) - mu * mu <= q ^ 2 * (mu * mu) ->
  (forall v, (v <= W - p + 1)%N -> b * (g v / mu - 1) <= 1.43) ->
  mean W p n (fun v => exp (b / mu * g v)) <= exp (b + (b * q) ^ 2).
Proof.
  intros q b V B. destruct (hash_lists_exist W n) as (all & E).
  apply Rle_trans with (mean W p n (fun v => exp b * (1 + b ^ 2 - b) + exp b * ((b - 2 * b ^ 2) / mu * g v + b ^ 2 / (mu * mu) * (g v * g v)))).
  - apply (mean_le W p n file all HW HF E). intros v Hv.
    replace (b / mu * g v) with (b + b * (g v / mu - 1)) by (field; lra). rewrite exp_plus, <- Rmult_plus_distr_l.
    apply Rmult_le_compat_l; [left; apply exp_pos|]. eapply Rle_trans; [apply exp_quadratic, B, Hv|].
    right. field. lra.
  - rewrite (mean_ext W p n _ (fun v => (exp b * (1 + b ^ 2 - b)) * 1 + exp b * ((b - 2 * b ^ 2) / mu * g v + b ^ 2 / (mu * mu) * (g v * g v))))
      by (intros; ring).
    rewrite mean_lin, mean_lin, mean_const, exp_plus.
    replace (exp b * (1 + b ^ 2 - b) * 1 + exp b * ((b - 2 * b ^ 2) / mu * mu + b ^ 2 / (mu * mu) * mean W p n (fun v => g v * g v)))
      with (exp b * (1 + b ^ 2 * ((mean W p n (fun v => g v * g v) - mu * mu) / (mu * mu)))) by (field; lra).
    apply Rmult_le_compat_l; [left; apply exp_pos|].
    apply Rle_trans with (1 + (b * q) ^ 2); [|apply exp_ineq1_le].
    apply Rplus_le_compat_l. rewrite Rpow_mult_distr. apply Rmult_le_compat_l; [apply pow2_ge_0|].
    apply div_le; [nra|]. lra.
Qed.

Theorem bounded_tails : forall q t top, 0 < q -> 0 < t ->
  mean W p n (fun v => g v * g v) - mu * mu <= q ^ 2 * (mu * mu) ->
  (forall v, 0 <= g v <= top) -> t * (top - mu) <= 2.86 * q * mu -> t <= 2.86 * q ->
  rare W n (2 * exp (- (m_R p * t ^ 2 / 4)))
    (fun hs => q * t * (m_R p * mu) <= Rabs (rsum g (file hs) - m_R p * mu)).
Proof.
  intros q t top Hq Ht V B T1 T2. set (a := t / (2 * q)). assert (Ha : 0 < a) by (apply Rdiv_lt_0_compat; lra).
  assert (Ea : a * q = t / 2) by (unfold a; field; lra).
  apply two_tails; [exact Hq|exact Ht| |]; fold a.
  - replace (a + t ^ 2 / 4) with (a + (a * q) ^ 2) by (rewrite Ea; field). apply mgf_quadratic; [exact V|].
    intros v _. destruct (B v) as [B0 B1]. apply Rle_trans with (a * (top / mu - 1)).
    + apply Rmult_le_compat_l; [lra|]. apply Rplus_le_compat_r. unfold Rdiv. apply Rmult_le_compat_r; [|exact B1].
      left. now apply Rinv_0_lt_compat.
    + unfold a. replace (t / (2 * q) * (top / mu - 1)) with (t * (top - mu) / (2 * q * mu)) by (field; lra).
      apply div_le; [nra|]. lra.
  - replace (- a + t ^ 2 / 4) with (- a + (- a * q) ^ 2) by (replace (- a * q) with (- (t / 2)) by lra; field).
    rewrite (mean_ext W p n _ (fun v => exp (- a / mu * g v))) by (intros; f_equal; field; lra).
    apply mgf_quadratic; [exact V|]. intros v _. destruct (B v) as [B0 _].
    assert (0 <= g v / mu) by (apply Rmult_le_pos; [exact B0|left; now apply Rinv_0_lt_compat]).
    assert (a <= 1.43) by (unfold a; apply div_le; lra). nra.
Qed.

(** An unbounded one: the remainder of the exponential is given. *)
Theorem remainder_tails : forall q t, 0 < q -> 0 < t -> t <= 2.86 * q -> (forall v, 0 <= g v) ->
  mean W p n (fun v => g v * g v) - mu * mu <= q ^ 2 * (mu * mu) ->
  mean W p n (fun v => (t / (2 * q) / mu * g v) ^ 3 * exp (t / (2 * q) / mu * g v)) <= 3 * q ^ 2 * (t / (2 * q)) ^ 2 ->
  rare W n (2 * exp (- (m_R p * t ^ 2 / 4)))
    (fun hs => q * t * (m_R p * mu) <= Rabs (rsum g (file hs) - m_R p * mu)).
Proof.
  intros q t Hq Ht T2 B V R3. set (a := t / (2 * q)) in *. assert (Ha : 0 < a) by (apply Rdiv_lt_0_compat; lra).
  assert (Ea : a * q = t / 2) by (unfold a; field; lra).
  apply two_tails; [exact Hq|exact Ht| |]; fold a.
  - destruct (hash_lists_exist W n) as (all & E). set (l := a / mu) in *.
    assert (Hl : 0 < l) by (apply Rdiv_lt_0_compat; lra). assert (El : l * mu = a) by (unfold l; field; lra).
    apply Rle_trans with (mean W p n (fun v => 1 * (1 * 1 + l * g v) + 1 * (l ^ 2 / 2 * (g v * g v) + / 6 * ((l * g v) ^ 3 * exp (l * g v))))).
    + apply (mean_le W p n file all HW HF E). intros v _.
      eapply Rle_trans; [apply (exp_rem3 (l * g v)), Rmult_le_pos; [lra|apply B]|]. right. field.
    + rewrite !mean_lin, mean_const. set (e2 := mean W p n (fun v => g v * g v)) in *.
      set (e3 := mean W p n (fun v => (l * g v) ^ 3 * exp (l * g v))) in *.
      eapply Rle_trans; [|apply (exp_above (a + t ^ 2 / 4)); nra].
      replace (t ^ 2 / 4) with (q ^ 2 * a ^ 2) by (rewrite <- Rpow_mult_distr, (Rmult_comm q), Ea; field).
      assert (E2 : l ^ 2 * e2 <= (1 + q ^ 2) * a ^ 2).
      { rewrite <- El, Rpow_mult_distr. replace ((1 + q ^ 2) * (l ^ 2 * mu ^ 2)) with (l ^ 2 * ((1 + q ^ 2) * (mu * mu))) by ring.
        apply Rmult_le_compat_l; [apply pow2_ge_0|lra]. }
      rewrite El. set (Q := q ^ 2) in *. assert (0 <= Q) by apply pow2_ge_0. clearbody e2 e3 Q.
      assert (0 <= Q * a ^ 2) by (apply Rmult_le_pos; [lra|apply pow2_ge_0]).
      assert (0 <= (Q * a ^ 2) ^ 2) by apply pow2_ge_0. nra.
  - replace (- a + t ^ 2 / 4) with (- a + (- a * q) ^ 2) by (replace (- a * q) with (- (t / 2)) by lra; field).
    rewrite (mean_ext W p n _ (fun v => exp (- a / mu * g v))) by (intros; f_equal; field; lra).
    apply mgf_quadratic; [exact V|]. intros v _. specialize (B v).
    assert (0 <= g v / mu) by (apply Rmult_le_pos; [exact B|left; now apply Rinv_0_lt_compat]).
    assert (a <= 1.43) by (unfold a; apply div_le; lra). nra.
Qed.
End Tails.
