(** * Averages of an estimate that follows the harmonic sum *)
From Coq Require Import NArith ZArith Reals List Bool Permutation Lia Lra.
From Flocq Require Import Core BinarySingleNaN.
From Verif Require Import ModelRust ModelF64 ModelEnv ModelConstants ModelHistory Spec SpecReal SpecCount SpecDist
  SpecProb SpecBuild BitFacts EncFacts CodeFacts AbsorbFacts PlusInv DistFacts ProbFacts MomentFacts HarmonicNum BiasFacts ExtremeFacts
  NegFacts ChernoffFacts RawFacts FloatFacts ClaimFloat ClaimDist HarmonicMean AccFacts MeanTable MeanSlope AccSmall BiasCheck BiasSound
  AccMid AccRange TailFacts TailLarge TailMid.
Import ListNotations.
Local Open Scope R_scope.

(** ** The lower tail of the harmonic sum *)
Theorem harmonic_lower : forall W p n u, (10 <= p)%N -> (p < W)%N -> 4 * m_R p <= INR n -> INR n <= IZR (2 ^ Z.of_N W) / 32 ->
  0 < u < 1 ->
  rare W n (exp (- (m_R p * (u ^ 2 / 4.21))))
    (fun hs => inv_sum (file_of W p hs) <= (1 - u) * (m_R p * mean W p n inv_pow2)).
Proof.
  intros W p n u Hp HW H4 Hn Hu. pose proof (m_10 p Hp) as M.
  pose proof (relative_variance W p n ltac:(lia) HW H4 Hn) as V. fold (m_R p) in V.
  pose proof (HarmonicMean.mean_pos W p n ltac:(lia) HW H4) as P. set (mu := mean W p n inv_pow2) in *.
  assert (J : 0 < / m_R p <= / 1024) by (split; [apply Rinv_0_lt_compat|apply Rinv_le_contravar]; lra).
  set (e2 := mean W p n (fun v => inv_pow2 v * inv_pow2 v)) in *.
  assert (V2 : e2 <= 2.105 * (mu * mu)).
  { assert (2.0983 * (1 + / m_R p) ^ 2 <= 2.105) by (set (i := / m_R p) in *; clearbody i; nra).
    assert (0 <= mu * mu) by nra. apply Rle_trans with (2.0983 * (1 + / m_R p) ^ 2 * (mu * mu)); [lra|]. apply Rmult_le_compat_r; lra. }
  set (l := u / (2.105 * mu)). assert (Hl : 0 < l) by (apply Rdiv_lt_0_compat; lra).
  assert (El : l * mu = u / 2.105) by (unfold l; field; lra).
  assert (F : register_files W p n (file_of W p)) by (apply file_of_files; lia).
  destruct (hash_lists_exist W n) as (all & E).
  assert (Mg : mean W p n (fun v => exp (- l * inv_pow2 v)) <= exp (- (l * mu) + l ^ 2 / 2 * (2.105 * (mu * mu)))).
  { apply Rle_trans with (mean W p n (fun v => 1 * 1 + 1 * (- l * inv_pow2 v + l ^ 2 / 2 * (inv_pow2 v * inv_pow2 v)))).
    - apply (ChernoffFacts.mean_le W p n (file_of W p) all HW F E). intros v _.
      replace (- l * inv_pow2 v) with (- (l * inv_pow2 v)) by ring. pose proof (inv_pow2_01 v) as B.
      eapply Rle_trans; [apply exp_neg_up; nra|]. right. field.
    - rewrite mean_lin, mean_const, (mean_lin W p n inv_pow2 (fun v => inv_pow2 v * inv_pow2 v)). fold mu e2.
      eapply Rle_trans; [|apply exp_ineq1_le]. assert (0 <= l ^ 2) by apply pow2_ge_0. nra. }
  pose proof (chernoff W p n (file_of W p) inv_pow2 (- l) _ (- l * ((1 - u) * (m_R p * mu))) HW F (or_intror (ind_mono _ inv_pow2_decreasing)) Mg) as C.
  fold (m_R p) in C. eapply rare_weaken; [exact C| |].
  - apply exp_le. replace (l ^ 2 / 2 * (2.105 * (mu * mu))) with (2.105 / 2 * (l * mu) ^ 2) by field.
    replace (- l * ((1 - u) * (m_R p * mu))) with (- (m_R p * ((1 - u) * (l * mu)))) by ring. rewrite El.
    lra.
  - intros hs _ H. cbv beta. rewrite inv_sum_rsum in H. nra.
Qed.

(** ** Counting bad lists by their indicator *)
Definition mark (P : Prop) (d : {P} + {~ P}) : R := if d then 1 else 0.

Lemma mark_sum : forall W n d (bad : list N -> Prop) (dec : forall hs, {bad hs} + {~ bad hs}) all,
  enumerates (hash_list W n) all -> rare W n d bad ->
  rsum (fun hs => mark _ (dec hs)) all <= d * INR (length all).
Proof.
  intros W n d bad dec all E R.
  assert (S : rsum (fun hs => mark _ (dec hs)) all = INR (length (filter (fun hs => if dec hs then true else false) all))).
  { clear. induction all as [|x l IH]; [reflexivity|]. rewrite rsum_cons, IH. cbn [filter]. unfold mark. destruct (dec x).
    - cbn [length]. rewrite S_INR. lra.
    - lra. }
  rewrite S, (total_R W n all E). apply R; [apply NoDup_filter, E|].
  intros hs Hh. apply filter_In in Hh. destruct Hh as [Hh B]. split; [now apply E|]. now destruct (dec hs).
Qed.

(** The harmonic sum of a list of hashes over its mean. *)
Definition ratio (W p : N) (n : nat) (hs : list N) : R := inv_sum (file_of W p hs) / (m_R p * mean W p n inv_pow2).

(** The raw estimate of the mean harmonic sum, relative to [n]. *)
Definition scaled (W p : N) (n : nat) : R := alpha_R p * m_R p ^ 2 / (m_R p * mean W p n inv_pow2 * INR n).

(** An estimate [C] bounded where the ratio is extreme, close to the raw estimate where it is not. *)
Definition follows (W p : N) (n : nat) (d : R) (C : list N -> R) (ch cl ct : R) : Prop :=
  forall hs, hash_list W n hs ->
  0 <= C hs /\
  (1.106 <= ratio W p n hs -> C hs <= ch * INR n) /\
  (/ 4 < ratio W p n hs <= 1 - d -> C hs <= cl * INR n) /\
  (ratio W p n hs <= / 4 -> C hs <= ct * INR n) /\
  (1 - d < ratio W p n hs < 1.106 ->
    Rabs (C hs - INR n * (scaled W p n / ratio W p n hs)) <= / IZR (2 ^ 33) * (INR n * (scaled W p n / ratio W p n hs))).

Section Ratio.
Variables (W p : N) (n : nat).
Hypothesis Hp : (10 <= p <= 18)%N.
Hypothesis HW : (p < W)%N.
Hypothesis H4 : 4 * m_R p <= INR n.
Hypothesis Hcap : INR n <= IZR (2 ^ Z.of_N W) / 32.

Let mu := m_R p * mean W p n inv_pow2.
Let y := ratio W p n.
Let k := scaled W p n.

Lemma m_big : 1024 <= m_R p.
Proof. exact (m_10 p (proj1 Hp)). Qed.

Lemma mu_pos : 0 < mu.
Proof.
  pose proof m_big as M. unfold mu. apply Rmult_lt_0_compat; [lra|]. apply HarmonicMean.mean_pos; [lia|lia|]. fold (m_R p). lra.
Qed.

Lemma k_bounds : 0.9965 <= k <= 1.0033.
Proof.
  pose proof m_big as M. pose proof mu_pos as P.
  pose proof (mean_up W p n ltac:(lia) ltac:(lia) ltac:(fold (m_R p); lra) Hcap) as U.
  pose proof (mean_lo W p n ltac:(lia) ltac:(lia) ltac:(fold (m_R p); lra)) as L. fold (m_R p) in U, L.
  pose proof (alpha_10 p Hp) as A. pose proof (alpha_ratio p ltac:(lia)) as A2.
  assert (J : 0 < / m_R p) by (apply Rinv_0_lt_compat; lra).
  assert (U' : mu * INR n <= 0.7229 * m_R p ^ 2).
  { unfold mu. apply (Rmult_le_compat_r (m_R p ^ 2)) in U; [|apply pow2_ge_0].
    replace (INR n / m_R p * mean W p n inv_pow2 * m_R p ^ 2) with (m_R p * mean W p n inv_pow2 * INR n) in U by (field; lra). exact U. }
  assert (L' : 0.7190 * m_R p ^ 2 <= mu * INR n * (1 + / m_R p)).
  { unfold mu. apply (Rmult_le_compat_r (m_R p ^ 2)) in L; [|apply pow2_ge_0].
    replace (INR n / m_R p * (1 + / m_R p) * mean W p n inv_pow2 * m_R p ^ 2) with (m_R p * mean W p n inv_pow2 * INR n * (1 + / m_R p)) in L by (field; lra). exact L. }
  assert (D : 0 < mu * INR n) by (apply Rmult_lt_0_compat; lra).
  unfold k, scaled. fold mu. set (w := mu * INR n) in *. set (s := m_R p ^ 2) in *. assert (S : 0 < s) by (apply pow_lt; lra).
  assert (A1 : 0.9965 * 0.7229 <= alpha_R p) by lra.
  assert (A3 : alpha_R p * (1 + / m_R p) <= 1.0033 * 0.7190) by lra.
  set (i := / m_R p) in *. set (a := alpha_R p) in *. clearbody w s i a. split.
  - apply div_ge; [lra|]. apply Rle_trans with (0.9965 * (0.7229 * s)); [lra|]. rewrite <- Rmult_assoc. apply Rmult_le_compat_r; lra.
  - apply div_le; [lra|]. apply Rmult_le_reg_r with (1 + i); [lra|].
    replace (a * s * (1 + i)) with (a * (1 + i) * s) by ring. apply Rle_trans with (1.0033 * 0.7190 * s); [apply Rmult_le_compat_r; lra|]. lra.
Qed.

Lemma y_pos : forall hs, hash_list W n hs -> 0 < y hs.
Proof.
  intros hs HH. apply Rdiv_lt_0_compat; [|exact mu_pos]. eapply file_inv_pos, (file_of_ok W p hs ltac:(lia) (proj2 HH)).
Qed.

Lemma raw_y : forall hs, hash_list W n hs -> raw_R p (file_of W p hs) = INR n * (k / y hs).
Proof.
  intros hs HH. pose proof (y_pos hs HH) as Y. pose proof mu_pos as P. pose proof m_big as M.
  assert (I : 0 < inv_sum (file_of W p hs)) by (eapply file_inv_pos, (file_of_ok W p hs ltac:(lia) (proj2 HH))).
  unfold raw_R, k, y, scaled, ratio. fold mu. field. repeat split; lra.
Qed.

(** ** Sums over all lists of hashes *)
Variable all : list (list N).
Hypothesis HE : enumerates (hash_list W n) all.

Lemma all_pos : 0 < INR (length all).
Proof. exact (count_pos W n all HE). Qed.

Lemma y_mean : rsum y all = INR (length all).
Proof.
  pose proof mu_pos as P.
  pose proof (total_mean W p n (file_of W p) all ltac:(lia) ltac:(apply file_of_files; lia) HE inv_pow2) as TM.
  fold (m_R p) in TM. unfold total in TM. fold mu in TM.
  rewrite (rsum_ext _ (fun hs => / mu * rsum inv_pow2 (file_of W p hs))).
  - rewrite rsum_scal, TM. field. lra.
  - intros hs _. unfold y, ratio. change (m_R p * mean W p n inv_pow2) with mu. rewrite inv_sum_rsum. unfold Rdiv. ring.
Qed.

Lemma y_variance : rsum (fun hs => (y hs - 1) ^ 2) all <= 1.1025 / m_R p * INR (length all).
Proof.
  pose proof mu_pos as P. pose proof m_big as M. pose proof all_pos as A.
  pose proof (total_variance W p n (file_of W p) all ltac:(lia) ltac:(apply file_of_files; lia) HE inv_pow2 inv_pow2_decreasing) as TV.
  pose proof (relative_variance W p n ltac:(lia) ltac:(lia) ltac:(fold (m_R p); lra) Hcap) as V.
  fold (m_R p) in TV, V. unfold total in TV. fold mu in TV.
  assert (J : 0 < / m_R p <= / 1024) by (split; [apply Rinv_0_lt_compat|apply Rinv_le_contravar]; lra).
  set (e1 := mean W p n inv_pow2) in *. set (e2 := mean W p n (fun v => inv_pow2 v * inv_pow2 v)) in *.
  assert (V2 : e2 - e1 * e1 <= 1.1025 * (e1 * e1)).
  { eapply Rle_trans; [exact V|]. apply Rmult_le_compat_r; [nra|]. set (i := / m_R p) in *. clearbody i. nra. }
  rewrite (rsum_ext _ (fun hs => / mu ^ 2 * (rsum inv_pow2 (file_of W p hs) - mu) ^ 2)).
  - rewrite rsum_scal. apply Rmult_le_reg_l with (mu ^ 2); [now apply pow_lt|].
    rewrite <- Rmult_assoc, Rinv_r, Rmult_1_l by (apply pow_nonzero; lra). eapply Rle_trans; [exact TV|].
    replace (mu ^ 2 * (1.1025 / m_R p * INR (length all))) with (INR (length all) * (m_R p * (1.1025 * (e1 * e1)))).
    + apply Rmult_le_compat_l; [lra|]. apply Rmult_le_compat_l; lra.
    + unfold mu. fold e1. field. lra.
  - intros hs _. unfold y, ratio. change (m_R p * mean W p n inv_pow2) with mu. rewrite inv_sum_rsum. field. lra.
Qed.

Variable d : R.
Hypothesis Hd : 0 < d <= / 10.
Let E := exp (- (m_R p * d ^ 2 / 4.3)).

Let is_high (hs : list N) : R := mark _ (Rle_dec 1.106 (y hs)).
Let is_low (hs : list N) : R := mark _ (Rle_dec (y hs) (1 - d)).
Let is_tiny (hs : list N) : R := mark _ (Rle_dec (y hs) (/ 4)).

Lemma high_sum : rsum is_high all <= 2 * E * INR (length all).
Proof.
  apply (mark_sum W n (2 * E) (fun hs => 1.106 <= y hs) (fun hs => Rle_dec 1.106 (y hs)) all HE).
  pose proof m_big as M. pose proof mu_pos as P.
  pose proof (large_tail W p n 0.1 ltac:(lia) ltac:(lia) ltac:(lra) Hcap ltac:(lra)) as R.
  eapply rare_weaken; [exact R| |].
  - apply Rmult_le_compat_l; [lra|]. apply exp_le. assert (d ^ 2 <= 0.01) by nra. nra.
  - intros hs HH Y. unfold rare_harmonic. fold mu. eapply Rle_trans; [|apply Rle_abs].
    unfold y, ratio in Y. fold mu in Y. apply (Rmult_le_compat_r mu) in Y; [|lra]. unfold Rdiv in Y. rewrite Rmult_assoc, Rinv_l in Y by lra. lra.
Qed.

Lemma lower_sum : forall u, 0 < u < 1 -> rsum (fun hs => mark _ (Rle_dec (y hs) (1 - u))) all <= exp (- (m_R p * (u ^ 2 / 4.21))) * INR (length all).
Proof.
  intros u Hu. apply (mark_sum W n _ (fun hs => y hs <= 1 - u) (fun hs => Rle_dec (y hs) (1 - u)) all HE).
  pose proof m_big as M. pose proof mu_pos as P.
  eapply rare_weaken; [apply (harmonic_lower W p n u ltac:(lia) ltac:(lia) ltac:(lra) Hcap Hu)|apply Rle_refl|].
  intros hs HH Y. fold mu. unfold y, ratio in Y. fold mu in Y. apply (Rmult_le_compat_r mu) in Y; [|lra]. unfold Rdiv in Y. rewrite Rmult_assoc, Rinv_l in Y by lra. lra.
Qed.

Lemma low_sum : rsum is_low all <= E * INR (length all).
Proof.
  pose proof all_pos as A. pose proof m_big as M. eapply Rle_trans; [apply (lower_sum d); lra|]. apply Rmult_le_compat_r; [lra|].
  apply exp_le. assert (0 < d ^ 2) by (apply pow_lt; lra). nra.
Qed.

Lemma tiny_sum : IZR (2 ^ 105) * rsum is_tiny all <= E * INR (length all).
Proof.
  pose proof all_pos as A. pose proof m_big as M. pose proof (lower_sum 0.75 ltac:(lra)) as T.
  assert (T' : rsum is_tiny all <= exp (- (m_R p * (0.75 ^ 2 / 4.21))) * INR (length all)).
  { eapply Rle_trans; [|exact T]. apply rsum_le. intros hs _. unfold is_tiny, mark.
    destruct (Rle_dec (y hs) (/ 4)); destruct (Rle_dec (y hs) (1 - 0.75)); lra. }
  assert (B : IZR (2 ^ 105) <= exp (INR 105 * 1)).
  { rewrite <- exp_pow. replace (IZR (2 ^ 105)) with (2 ^ 105) by exact (pow_IZR 2 105).
    apply pow_incr. pose proof (exp_ineq1_le 1). lra. }
  assert (B0 : 0 < IZR (2 ^ 105)) by now apply IZR_lt.
  apply Rle_trans with (exp (INR 105 * 1) * (exp (- (m_R p * (0.75 ^ 2 / 4.21))) * INR (length all))).
  - apply Rmult_le_compat; [lra| |exact B|exact T']. apply rsum_nonneg. intros hs _. unfold is_tiny, mark. destruct (Rle_dec _ _); lra.
  - rewrite <- Rmult_assoc, <- exp_plus. apply Rmult_le_compat_r; [lra|]. apply exp_le.
    replace (INR 105) with 105 by (rewrite INR_IZR_INZ; reflexivity). assert (d ^ 2 <= 0.01) by nra. nra.
Qed.

(** ** An estimate that follows the ratio *)
Variables (C : list N -> R) (ch cl ct z : R).
Hypothesis HF : follows W p n d C ch cl ct.

Lemma Hpos : forall hs, hash_list W n hs -> 0 <= C hs.
Proof. intros hs HH. apply (HF hs HH). Qed.

Lemma Hhigh : forall hs, hash_list W n hs -> 1.106 <= y hs -> C hs <= ch * INR n.
Proof. intros hs HH. apply (HF hs HH). Qed.

Lemma Hlow : forall hs, hash_list W n hs -> / 4 < y hs <= 1 - d -> C hs <= cl * INR n.
Proof. intros hs HH. apply (HF hs HH). Qed.

Lemma Htiny : forall hs, hash_list W n hs -> y hs <= / 4 -> C hs <= ct * INR n.
Proof. intros hs HH. apply (HF hs HH). Qed.

Lemma Hin : forall hs, hash_list W n hs -> 1 - d < y hs < 1.106 ->
  Rabs (C hs - INR n * (k / y hs)) <= / IZR (2 ^ 33) * (INR n * (k / y hs)).
Proof. intros hs HH. apply (HF hs HH). Qed.

Hypothesis Hct : ct ^ 2 <= IZR (2 ^ 105).
Hypothesis Hunder : forall hs, hash_list W n hs -> y hs < 1.106 ->
  0.9964 * / y hs <= C hs / INR n \/ 2 <= z /\ y hs <= 1 - d.
Hypothesis Hz : 0 <= z.

Lemma n_pos : 0 < INR n.
Proof. pose proof m_big. lra. Qed.

Lemma split_cases : forall hs, hash_list W n hs ->
  (1.106 <= y hs /\ is_high hs = 1 /\ 0 <= is_low hs /\ 0 <= is_tiny hs /\ 0 <= C hs / INR n <= ch) \/
  (y hs <= / 4 /\ is_tiny hs = 1 /\ 0 <= is_low hs /\ 0 <= is_high hs /\ 0 <= C hs / INR n <= ct) \/
  (/ 4 < y hs <= 1 - d /\ is_low hs = 1 /\ 0 <= is_high hs /\ 0 <= is_tiny hs /\ 0 <= C hs / INR n <= cl) \/
  (1 - d < y hs < 1.106 /\ 0 <= is_high hs /\ 0 <= is_low hs /\ 0 <= is_tiny hs).
Proof.
  intros hs HH. pose proof n_pos as N0. pose proof (Hpos hs HH) as CP.
  assert (C0 : 0 <= C hs / INR n) by (apply div_ge; lra).
  assert (I : 0 <= is_high hs /\ 0 <= is_low hs /\ 0 <= is_tiny hs).
  { unfold is_high, is_low, is_tiny, mark. destruct (Rle_dec 1.106 (y hs)), (Rle_dec (y hs) (1 - d)), (Rle_dec (y hs) (/ 4)); lra. }
  destruct I as (I1 & I2 & I3).
  destruct (Rle_or_lt 1.106 (y hs)) as [B|B].
  { left. split; [exact B|]. split; [unfold is_high, mark; destruct (Rle_dec 1.106 (y hs)); lra|]. repeat split; try lra.
    apply div_le; [lra|]. now apply Hhigh. }
  right. destruct (Rle_or_lt (y hs) (/ 4)) as [T|T].
  { left. split; [exact T|]. split; [unfold is_tiny, mark; destruct (Rle_dec (y hs) (/ 4)); lra|]. repeat split; try lra.
    apply div_le; [lra|]. now apply Htiny. }
  right. destruct (Rle_or_lt (y hs) (1 - d)) as [L|L].
  { left. split; [lra|]. split; [unfold is_low, mark; destruct (Rle_dec (y hs) (1 - d)); lra|]. repeat split; try lra.
    apply div_le; [lra|]. apply Hlow; auto. }
  right. repeat split; lra.
Qed.

(** The estimate inside the window. *)
Lemma window : forall hs, hash_list W n hs -> 1 - d < y hs < 1.106 ->
  Rabs (C hs / INR n - k / y hs) <= / 8589934592 * (k / y hs).
Proof.
  intros hs HH Y. pose proof (Hin hs HH Y) as N1. pose proof n_pos as N0.
  change (IZR (2 ^ 33)) with 8589934592 in N1.
  replace (C hs / INR n - k / y hs) with ((C hs - INR n * (k / y hs)) * / INR n) by (field; split; lra).
  rewrite Rabs_mult, (Rabs_pos_eq (/ INR n)) by (left; now apply Rinv_0_lt_compat).
  apply Rmult_le_reg_r with (1 := N0). rewrite Rmult_assoc, Rinv_l by lra. lra.
Qed.

Hypothesis Hcc : 0 <= ch /\ 0 <= cl.

Theorem mean_upper : rsum C all <= INR n * (1.0034 * (1 + 1.1025 / (m_R p * (1 - d))) + (2 * ch + cl + 1) * E) * INR (length all).
Proof.
  pose proof m_big as M. pose proof all_pos as A. pose proof y_variance as YV. pose proof k_bounds as KB.
  assert (N0 : 0 < INR n) by lra. set (f := / (1 - d)). assert (F : 0 < f) by (apply Rinv_0_lt_compat; lra).
  set (G := fun hs => 1.0034 * 2 + - 1.0034 * y hs + 1.0034 * f * (y hs - 1) ^ 2 + (ch * is_high hs + (cl * is_low hs + IZR (2 ^ 105) * is_tiny hs))).
  assert (B : forall hs, In hs all -> C hs <= INR n * G hs).
  { intros hs Hh. apply HE in Hh. apply Rmult_le_reg_l with (/ INR n); [now apply Rinv_0_lt_compat|].
    rewrite <- Rmult_assoc, Rinv_l, Rmult_1_l by lra. rewrite Rmult_comm. fold (C hs / INR n).
    assert (Q : 0 <= 1.0034 * 2 + - 1.0034 * y hs + 1.0034 * f * (y hs - 1) ^ 2).
    { assert (F1 : 1 <= f) by (unfold f; rewrite <- Rinv_1; apply Rinv_le_contravar; lra).
      assert ((y hs - 1) ^ 2 <= f * (y hs - 1) ^ 2) by (pose proof (pow2_ge_0 (y hs - 1)); nra).
      pose proof (pow2_ge_0 (y hs - 1.5)). lra. }
    unfold G. set (q := 1.0034 * 2 + - 1.0034 * y hs + 1.0034 * f * (y hs - 1) ^ 2) in *.
    assert (P105 : 0 < IZR (2 ^ 105)) by now apply IZR_lt.
    destruct (split_cases hs Hh) as [(Y & I1 & I2 & I3 & CC)|[(Y & I1 & I2 & I3 & CC)|[(Y & I1 & I2 & I3 & CC)|(Y & I1 & I2 & I3)]]].
    - rewrite I1. assert (0 <= IZR (2 ^ 105) * is_tiny hs) by (apply Rmult_le_pos; lra).
      assert (0 <= cl * is_low hs) by (apply Rmult_le_pos; lra). lra.
    - rewrite I1.
      assert (Z2 : (C hs / INR n) ^ 2 <= IZR (2 ^ 105)) by (eapply Rle_trans; [apply pow_incr; exact CC|exact Hct]).
      assert (0 <= cl * is_low hs) by (apply Rmult_le_pos; lra). assert (0 <= ch * is_high hs) by (apply Rmult_le_pos; lra).
      assert (1 <= IZR (2 ^ 105)) by now apply IZR_le.
      set (w := C hs / INR n) in *. clearbody w. destruct (Rle_or_lt w 1); nra.
    - rewrite I1. assert (0 <= IZR (2 ^ 105) * is_tiny hs) by (apply Rmult_le_pos; lra).
      assert (0 <= ch * is_high hs) by (apply Rmult_le_pos; lra). lra.
    - pose proof (window hs Hh Y) as WD. apply Rabs_le_inv in WD. set (w := C hs / INR n) in *. set (x := y hs) in *.
      assert (F1 : 0 < / x <= f). { split; [apply Rinv_0_lt_compat; lra|]. apply Rinv_le_contravar; lra. }
      assert (Ez : x * / x = 1) by (apply Rinv_r; lra).
      assert (IV : / x = 2 - x + / x * (x - 1) ^ 2) by (replace ((x - 1) ^ 2) with (x * x - 2 * x + 1) by ring; rewrite Rmult_plus_distr_l, Rmult_minus_distr_l, <- Rmult_assoc; rewrite (Rmult_comm (/ x) x), Ez; lra).
      assert (X : / x * (x - 1) ^ 2 <= f * (x - 1) ^ 2) by (apply Rmult_le_compat_r; [apply pow2_ge_0|lra]).
      assert (0 <= IZR (2 ^ 105) * is_tiny hs) by (apply Rmult_le_pos; lra).
      assert (U : w <= 1.0034 * / x) by (unfold Rdiv in WD; nra).
      assert (0 <= cl * is_low hs) by (apply Rmult_le_pos; lra). assert (0 <= ch * is_high hs) by (apply Rmult_le_pos; lra).
      unfold q. lra. }
  eapply Rle_trans; [apply rsum_le; exact B|]. rewrite rsum_scal. rewrite Rmult_assoc. apply Rmult_le_compat_l; [lra|]. unfold G.
  rewrite !rsum_plus, !rsum_scal, rsum_const.
  pose proof high_sum as SH. pose proof low_sum as SL. pose proof tiny_sum as ST. pose proof y_mean as YM.
  change (rsum (fun a => is_high a)) with (rsum is_high). change (rsum (fun a => is_low a)) with (rsum is_low). change (rsum (fun a => is_tiny a)) with (rsum is_tiny).
  change (rsum (fun a => y a)) with (rsum y). rewrite YM.
  assert (EP : 0 < E * INR (length all)) by (apply Rmult_lt_0_compat; [apply exp_pos|exact A]).
  apply (Rmult_le_compat_l f) in YV; [|lra].
  replace (1.1025 / (m_R p * (1 - d))) with (f * (1.1025 / m_R p)) by (unfold f; field; split; lra).
  set (v := 1.1025 / m_R p) in *. set (a3 := IZR (2 ^ 105) * rsum is_tiny all) in *.
  apply (Rmult_le_compat_l ch) in SH; [|lra]. apply (Rmult_le_compat_l cl) in SL; [|lra]. lra.
Qed.

Theorem mean_lower : INR n * (0.9964 - (2 + z) * E) * INR (length all) <= rsum C all.
Proof.
  pose proof m_big as M. pose proof all_pos as A. pose proof n_pos as N0.
  set (G := fun hs => 0.9964 * 2 + - 0.9964 * y hs + (-1 * is_high hs + - z * is_low hs)).
  assert (B : forall hs, In hs all -> INR n * G hs <= C hs).
  { intros hs Hh. apply HE in Hh. apply Rmult_le_reg_l with (/ INR n); [now apply Rinv_0_lt_compat|].
    rewrite <- Rmult_assoc, Rinv_l, Rmult_1_l by lra. rewrite (Rmult_comm _ (C hs)). fold (C hs / INR n).
    assert (Z : 0 <= C hs / INR n). { apply div_ge; [lra|]. pose proof (Hpos hs Hh). lra. }
    assert (IH : 1.106 <= y hs /\ is_high hs = 1 \/ y hs < 1.106 /\ is_high hs = 0).
    { unfold is_high, mark. destruct (Rle_dec 1.106 (y hs)); [left|right]; lra. }
    assert (IL : 0 <= is_low hs /\ (y hs <= 1 - d -> is_low hs = 1)).
    { unfold is_low, mark. destruct (Rle_dec (y hs) (1 - d)); lra. }
    destruct IL as [IL0 IL1]. assert (0 <= z * is_low hs) by (apply Rmult_le_pos; lra).
    pose proof (y_pos hs Hh) as YP.
    unfold G. destruct IH as [[Y I]|[Y I]]; rewrite I; [lra|].
    destruct (Hunder hs Hh Y) as [U|[U1 U2]].
    - fold y in YP. set (x := y hs) in *.
      assert (Ex : x * / x = 1) by (apply Rinv_r; lra).
      assert (IV : 2 - x <= / x).
      { apply Rmult_le_reg_l with (1 := YP). rewrite Ex. pose proof (pow2_ge_0 (x - 1)). lra. }
      lra.
    - rewrite (IL1 U2). fold y in YP. lra. }
  eapply Rle_trans; [|apply rsum_le; exact B]. rewrite rsum_scal, Rmult_assoc. apply Rmult_le_compat_l; [lra|]. unfold G.
  rewrite !rsum_plus, !rsum_scal, rsum_const. pose proof high_sum as SH. pose proof low_sum as SL. pose proof y_mean as YM.
  change (rsum (fun a => is_high a)) with (rsum is_high). change (rsum (fun a => is_low a)) with (rsum is_low).
  change (rsum (fun a => y a)) with (rsum y). rewrite YM.
  apply (Rmult_le_compat_l z) in SL; [|lra]. lra.
Qed.
Variables bh bl : R.
Hypothesis Hch : (ch - 1) ^ 2 <= bh /\ 1 <= bh.
Hypothesis Hcl : (cl - 1) ^ 2 <= bl /\ 1 <= bl.

Lemma square_cap : forall w c b, 0 <= w <= c -> (c - 1) ^ 2 <= b -> 1 <= b -> (w - 1) ^ 2 <= b.
Proof. intros w c b Hw Hc Hb. destruct (Rle_or_lt w 1); nra. Qed.

Theorem mean_square : rsum (fun hs => (C hs / INR n - 1) ^ 2) all
  <= (((0.004 + 1.05 / sqrt (m_R p)) / (1 - d)) ^ 2 + (2 * bh + bl + 1) * E) * INR (length all).
Proof.
  pose proof m_big as M. pose proof all_pos as A. pose proof y_variance as YV. pose proof k_bounds as KB.
  assert (S : 0 < sqrt (m_R p)) by (apply sqrt_lt_R0; lra). pose proof (sqrt_sqrt (m_R p) ltac:(lra)) as SS.
  set (r := 1.05 / sqrt (m_R p)). assert (R0 : 0 < r) by (apply Rdiv_lt_0_compat; lra).
  assert (R2 : r * r = 1.1025 / m_R p). { unfold r. rewrite <- SS at 3. field_simplify; [|lra|lra]. apply f_equal2; [lra|ring]. }
  set (g := 0.004). set (f := / (1 - d)). assert (F : 0 < f) by (apply Rinv_0_lt_compat; lra).
  set (G := fun hs => f ^ 2 * (g ^ 2 + g * r) + f ^ 2 * (1 + g / r) * (y hs - 1) ^ 2 + (bh * is_high hs + (bl * is_low hs + IZR (2 ^ 105) * is_tiny hs))).
  assert (GR : 0 < g / r) by (apply Rdiv_lt_0_compat; unfold g; lra).
  assert (B : forall hs, In hs all -> (C hs / INR n - 1) ^ 2 <= G hs).
  { intros hs Hh. apply HE in Hh. assert (N0 : 0 < INR n) by lra.
    assert (Q : 0 <= f ^ 2 * (g ^ 2 + g * r) + f ^ 2 * (1 + g / r) * (y hs - 1) ^ 2).
    { apply Rplus_le_le_0_compat; apply Rmult_le_pos.
      - apply pow2_ge_0.
      - unfold g. nra.
      - apply Rmult_le_pos; [apply pow2_ge_0|lra].
      - apply pow2_ge_0. }
    unfold G. set (q := f ^ 2 * (g ^ 2 + g * r) + f ^ 2 * (1 + g / r) * (y hs - 1) ^ 2) in *.
    assert (P105 : 0 < IZR (2 ^ 105)) by now apply IZR_lt.
    destruct (split_cases hs Hh) as [(Y & I1 & I2 & I3 & CC)|[(Y & I1 & I2 & I3 & CC)|[(Y & I1 & I2 & I3 & CC)|(Y & I1 & I2 & I3)]]].
    - rewrite I1. assert (0 <= IZR (2 ^ 105) * is_tiny hs) by (apply Rmult_le_pos; lra).
      assert (0 <= bl * is_low hs) by (apply Rmult_le_pos; lra).
      pose proof (square_cap _ _ _ CC (proj1 Hch) (proj2 Hch)). lra.
    - rewrite I1.
      assert (Z2 : (C hs / INR n) ^ 2 <= IZR (2 ^ 105)) by (eapply Rle_trans; [apply pow_incr; exact CC|exact Hct]).
      assert (1 <= IZR (2 ^ 105)) by now apply IZR_le.
      assert (0 <= bl * is_low hs) by (apply Rmult_le_pos; lra). assert (0 <= bh * is_high hs) by (apply Rmult_le_pos; lra).
      set (w := C hs / INR n) in *. clearbody w. destruct (Rle_or_lt w 2); nra.
    - rewrite I1. assert (0 <= IZR (2 ^ 105) * is_tiny hs) by (apply Rmult_le_pos; lra).
      assert (0 <= bh * is_high hs) by (apply Rmult_le_pos; lra).
      pose proof (square_cap _ _ _ CC (proj1 Hcl) (proj2 Hcl)). lra.
    - pose proof (window hs Hh Y) as WD. set (w := C hs / INR n) in *. set (x := y hs) in *.
      assert (F1 : 0 < / x <= f). { split; [apply Rinv_0_lt_compat; lra|]. apply Rinv_le_contravar; lra. }
      assert (F2 : / x <= 1.12). { eapply Rle_trans; [apply F1|]. unfold f. rewrite <- (Rinv_inv 1.12). apply Rinv_le_contravar; lra. }
      assert (Ez : / x * x = 1) by (apply Rinv_l; lra).
      assert (W1 : Rabs (w - 1) <= f * (g + Rabs (x - 1))).
      { apply Rle_trans with (/ x * (g + Rabs (x - 1))).
        - replace (w - 1) with ((w - k / x) + / x * (k - x)) by (unfold Rdiv; rewrite Rmult_minus_distr_l, Ez; ring).
          eapply Rle_trans; [apply Rabs_triang|]. rewrite Rabs_mult, (Rabs_pos_eq (/ x)) by lra.
          assert (T : Rabs (k - x) <= 0.0035 + Rabs (x - 1)).
          { replace (k - x) with ((k - 1) + (1 - x)) by ring. eapply Rle_trans; [apply Rabs_triang|].
            rewrite (Rabs_minus_sym 1 x). apply Rplus_le_compat_r, Rabs_le. lra. }
          assert (T2 : Rabs (w - k / x) <= / x * 0.0001). { eapply Rle_trans; [exact WD|]. unfold Rdiv. nra. }
          apply (Rmult_le_compat_l (/ x)) in T; [|lra]. unfold g. lra.
        - apply Rmult_le_compat_r; [|lra]. pose proof (Rabs_pos (x - 1)). unfold g. lra. }
      rewrite <- (pow2_abs (w - 1)). apply Rle_trans with ((f * (g + Rabs (x - 1))) ^ 2); [apply pow_incr; split; [apply Rabs_pos|exact W1]|].
      assert (AM : 2 * Rabs (x - 1) <= r + / r * (x - 1) ^ 2).
      { rewrite <- (pow2_abs (x - 1)). set (v := Rabs (x - 1)). apply Rmult_le_reg_l with (1 := R0).
        rewrite Rmult_plus_distr_l, <- (Rmult_assoc r (/ r)), Rinv_r by lra.
        pose proof (pow2_ge_0 (r - v)). lra. }
      apply Rle_trans with q; [|assert (0 <= IZR (2 ^ 105) * is_tiny hs) by (apply Rmult_le_pos; lra);
        assert (0 <= bl * is_low hs) by (apply Rmult_le_pos; lra); assert (0 <= bh * is_high hs) by (apply Rmult_le_pos; lra); lra].
      unfold q. rewrite Rpow_mult_distr. rewrite (Rmult_assoc (f ^ 2) (1 + g / r)), <- Rmult_plus_distr_l. apply Rmult_le_compat_l; [apply pow2_ge_0|].
      rewrite <- (pow2_abs (x - 1)) in AM |- *. set (v := Rabs (x - 1)) in *. unfold Rdiv.
      assert (G0 : 0 < g) by (unfold g; lra). apply (Rmult_le_compat_l g) in AM; [|lra]. nra. }
  eapply Rle_trans; [apply rsum_le; exact B|]. unfold G.
  rewrite !rsum_plus, !rsum_scal, rsum_const.
  pose proof high_sum as SH. pose proof low_sum as SL. pose proof tiny_sum as ST.
  assert (EP : 0 < E) by apply exp_pos.
  assert (MAIN : f ^ 2 * (INR (length all) * (g ^ 2 + g * r)) + f ^ 2 * (1 + g / r) * rsum (fun hs => (y hs - 1) ^ 2) all
    <= ((g + r) * f) ^ 2 * INR (length all)).
  { apply Rle_trans with (f ^ 2 * (INR (length all) * (g ^ 2 + g * r)) + f ^ 2 * (1 + g / r) * (r * r * INR (length all))).
    - apply Rplus_le_compat_l, Rmult_le_compat_l; [apply Rmult_le_pos; [apply pow2_ge_0|lra]|]. rewrite R2. exact YV.
    - right. field. lra. }
  change ((g + r) / (1 - d)) with ((g + r) * f).
  change (rsum (fun a => is_high a)) with (rsum is_high). change (rsum (fun a => is_low a)) with (rsum is_low). change (rsum (fun a => is_tiny a)) with (rsum is_tiny).
  set (a1 := f ^ 2 * (INR (length all) * (g ^ 2 + g * r))) in *. set (a2 := f ^ 2 * (1 + g / r) * rsum (fun hs => (y hs - 1) ^ 2) all) in *.
  set (a3 := IZR (2 ^ 105) * rsum is_tiny all) in *. set (a4 := ((g + r) * f) ^ 2) in *.
  assert (0 < E * INR (length all)) by now apply Rmult_lt_0_compat.
  apply (Rmult_le_compat_l bh) in SH; [|lra]. apply (Rmult_le_compat_l bl) in SL; [|lra]. lra.
Qed.
End Ratio.
