(** * The mean of [2^-register] at [n/m = i/2^18], in fixed point

    The mean is [sum_k 2^-(k+1) exp(-x/2^k)] up to [x (1 + 1/m)] for [x]; 17 terms are taken. *)
From Coq Require Import NArith ZArith Reals List Bool Lia Lra.
From Verif Require Import ModelRust Spec SpecDist SpecProb SpecReal CountFacts DistFacts ProbFacts MomentFacts
  HarmonicNum HarmonicMean.
Import ListNotations.
Local Open Scope R_scope.

(** Bounds of [2^60 exp(-i/2^34)]. *)
Definition x_up (i : Z) : Z := (D - i * 2 ^ 26 + (Z.shiftr (i * i) 9 + 1))%Z.
Definition x_lo (i : Z) : Z := (D - i * 2 ^ 26 + (Z.shiftr (i * i) 9 - (Z.shiftr (i * i * i) 44 + 1)))%Z.

Lemma shiftr_bounds : forall a k, (0 <= k)%Z ->
  IZR (Z.shiftr a k) * IZR (2 ^ k) <= IZR a < (IZR (Z.shiftr a k) + 1) * IZR (2 ^ k).
Proof.
  intros a k Hk. rewrite Z.shiftr_div_pow2 by exact Hk.
  assert (P : (0 < 2 ^ k)%Z) by now apply Z.pow_pos_nonneg.
  pose proof (Z.div_mod a (2 ^ k) ltac:(lia)) as E. pose proof (Z.mod_pos_bound a (2 ^ k) P) as B.
  split.
  - rewrite <- mult_IZR. apply IZR_le. lia.
  - rewrite <- plus_IZR, <- mult_IZR. apply IZR_lt. lia.
Qed.

Lemma x_up_ok : forall i, (0 <= i)%Z -> IZR D * exp (- (IZR i / 17179869184)) <= IZR (x_up i).
Proof.
  intros i Hi. unfold x_up. rewrite !plus_IZR, minus_IZR, mult_IZR.
  pose proof (shiftr_bounds (i * i) 9 ltac:(lia)) as [_ S]. rewrite mult_IZR in S. change (IZR (2 ^ 9)) with 512 in S.
  change (IZR (2 ^ 26)) with 67108864. change (IZR D) with 1152921504606846976.
  apply IZR_le in Hi. pose proof (exp_neg_up (IZR i / 17179869184) ltac:(lra)) as E. nra.
Qed.

Lemma x_lo_ok : forall i, (0 <= i)%Z -> IZR (x_lo i) <= IZR D * exp (- (IZR i / 17179869184)).
Proof.
  intros i Hi. unfold x_lo. rewrite plus_IZR, !minus_IZR, plus_IZR, mult_IZR.
  pose proof (shiftr_bounds (i * i) 9 ltac:(lia)) as [S _]. rewrite mult_IZR in S. change (IZR (2 ^ 9)) with 512 in S.
  pose proof (shiftr_bounds (i * i * i) 44 ltac:(lia)) as [_ S3]. rewrite !mult_IZR in S3.
  change (IZR (2 ^ 44)) with 17592186044416 in S3.
  change (IZR (2 ^ 26)) with 67108864. change (IZR D) with 1152921504606846976.
  apply IZR_le in Hi. pose proof (exp_neg_lo (IZR i / 17179869184) ltac:(lra)) as E.
  set (a := IZR (Z.shiftr (i * i) 9)) in *. set (b := IZR (Z.shiftr (i * i * i) 44)) in *. clearbody a b.
  set (x := IZR i) in *. clearbody x.
  assert (X3 : 0 <= x * x * x) by (apply Rmult_le_pos; [apply Rmult_le_pos|]; lra).
  replace ((x / 17179869184) ^ 2) with (x * x / 295147905179352825856) in E by (field).
  replace ((x / 17179869184) ^ 3) with (x * x * x / 5070602400912917605986812821504) in E by (field).
  lra.
Qed.

(** Upper and lower bounds of the mean times [2^77], and an upper bound of the mean of the
    squares times [2^94]. *)
Definition a_up (i : Z) : Z := (D + up_sum 2 17 1 (x_up i))%Z.
Definition a_lo (i : Z) : Z := lo_sum 2 17 1 (x_lo i).
Definition a2_up (i : Z) : Z := (D + 3 * up_sum 4 17 1 (x_up i))%Z.

Lemma expo_16 : forall x, expo x 16 = exp (- (x / 65536)).
Proof. intros x. unfold expo. f_equal. f_equal. cbn [pow]. field. Qed.

Lemma expo_mono : forall x x' k, x <= x' -> expo x' k <= expo x k.
Proof.
  intros x x' k H. unfold expo. assert (P : 0 <= (/ 2) ^ k) by (apply pow_le; lra).
  destruct (Req_dec (x * (/ 2) ^ k) (x' * (/ 2) ^ k)) as [->|]; [lra|]. left. apply exp_increasing. nra.
Qed.

Lemma blend_le_17 : forall c x K, 0 <= c <= 1 -> 0 <= x -> (17 <= K)%nat -> blend c (expo x) K <= blend c (expo x) 17.
Proof.
  intros c x K Hc Hx HK. replace K with (17 + (K - 17))%nat by lia. apply blend_decr; [exact Hc|].
  intros k. apply expo_bounds, Hx.
Qed.

Lemma grid_eq : forall i, IZR i / 262144 / 65536 = IZR i / 17179869184.
Proof. intros. field. Qed.

Lemma blend_up : forall i x K, (0 <= i)%Z -> IZR i / 262144 <= x -> (17 <= K)%nat ->
  blend (/ 2) (expo x) K <= IZR (a_up i) / IZR (2 ^ 77) /\
  blend (/ 4) (expo x) K <= IZR (a2_up i) / IZR (2 ^ 94).
Proof.
  intros i x K Hi Hx HK. pose proof (IZR_le _ _ Hi) as Hi'. change (IZR 0) with 0 in Hi'.
  assert (X0 : 0 <= IZR i / 262144) by lra.
  assert (A : forall c, 0 <= c <= 1 -> blend c (expo x) K <= blend c (expo (IZR i / 262144)) 17).
  { intros c Hc. eapply Rle_trans; [apply blend_le_17; auto; lra|]. apply blend_le; [exact Hc|].
    intros k _. now apply expo_mono. }
  pose proof D_pos as HD. pose proof (x_up_ok i Hi) as XU. rewrite <- grid_eq, <- expo_16 in XU.
  set (e := expo (IZR i / 262144) 16) in *. assert (E0 : 0 <= e) by (left; apply exp_pos).
  pose proof (up_sum_ok 2 17 1 _ e ltac:(lia) ltac:(lia) E0 XU) as U2.
  pose proof (up_sum_ok 4 17 1 _ e ltac:(lia) ltac:(lia) E0 XU) as U4. split.
  - eapply Rle_trans; [apply A; lra|]. rewrite (blend_series 2 _ 16 ltac:(lra)). fold e.
    unfold a_up. rewrite plus_IZR. set (u := IZR (up_sum 2 17 1 (x_up i))) in *. set (s := series 2 17 1 e) in *.
    clearbody u s. change (IZR (2 ^ 77)) with 151115727451828646838272. change (IZR D) with 1152921504606846976 in *.
    cbn [pow]. lra.
  - eapply Rle_trans; [apply A; lra|]. rewrite (blend_series 4 _ 16 ltac:(lra)). fold e.
    unfold a2_up. rewrite plus_IZR, mult_IZR. set (u := IZR (up_sum 4 17 1 (x_up i))) in *. set (s := series 4 17 1 e) in *.
    clearbody u s. change (IZR (2 ^ 94)) with 19807040628566084398385987584. change (IZR D) with 1152921504606846976 in *.
    cbn [pow]. lra.
Qed.

Lemma blend_lo : forall i x K, (0 <= i)%Z -> (0 <= x_lo i)%Z -> 0 <= x <= IZR i / 262144 ->
  IZR (a_lo i) / IZR (2 ^ 77) <= blend (/ 2) (expo x) K.
Proof.
  intros i x K Hi He [X0 Hx]. pose proof (IZR_le _ _ Hi) as Hi'. change (IZR 0) with 0 in Hi'.
  apply Rle_trans with (blend (/ 2) (expo x) (K + 17)).
  2:{ apply blend_decr; [lra|]. intros k. now apply expo_bounds. }
  apply Rle_trans with (psum (fun k => (1 - / 2) * (/ 2) ^ k * expo x k) 17).
  2:{ unfold blend.
      assert (Mono : forall f a b, (forall k, 0 <= f k) -> psum f a <= psum f (b + a)).
      { intros f a b Hf. induction b; [cbn; lra|]. cbn [Nat.add psum]. specialize (Hf (b + a)%nat). lra. }
      assert (P : 0 <= (/ 2) ^ (K + 17)) by (apply pow_le; lra).
      pose proof (Mono (fun k => (1 - / 2) * (/ 2) ^ k * expo x k) 17%nat K) as M.
      enough (psum (fun k => (1 - / 2) * (/ 2) ^ k * expo x k) 17 <= psum (fun k => (1 - / 2) * (/ 2) ^ k * expo x k) (K + 17)) by lra.
      apply M. intros k. apply Rmult_le_pos; [apply Rmult_le_pos; [lra|apply pow_le; lra]|].
      left. now apply expo_bounds. }
  pose proof (blend_series 2 x 16 ltac:(lra)) as B. unfold blend in B. apply Rplus_eq_reg_l in B. rewrite B. clear B.
  pose proof D_pos as HD. pose proof (x_lo_ok i Hi) as XL. rewrite <- grid_eq, <- expo_16 in XL.
  pose proof (expo_mono _ _ 16 Hx) as EM.
  set (e := expo x 16) in *. set (e' := expo (IZR i / 262144) 16) in *.
  pose proof (lo_sum_ok 2 17 1 (x_lo i) e ltac:(lia) ltac:(lia) He ltac:(nra)) as L. unfold a_lo.
  set (u := IZR (lo_sum 2 17 1 (x_lo i))) in *. set (s := series 2 17 1 e) in *. clearbody u s.
  change (IZR (2 ^ 77)) with 151115727451828646838272. change (IZR D) with 1152921504606846976 in *.
  cbn [pow]. lra.
Qed.

(** ** The registers *)
Section Mean.
Variables (W p : N) (n : nat).
Hypothesis Hp : (4 <= p)%N.
Hypothesis HW : (p + 16 <= W)%N.

Lemma x_nonneg : 0 <= INR n / m_R p.
Proof. apply Rmult_le_pos; [apply pos_INR|]. left. apply Rinv_0_lt_compat, pow2_pos. lia. Qed.

Lemma mean_le : forall i, (0 <= i)%Z -> IZR i / 262144 <= INR n / m_R p ->
  mean W p n inv_pow2 <= IZR (a_up i) / IZR (2 ^ 77) /\
  mean W p n (fun v => inv_pow2 v * inv_pow2 v) <= IZR (a2_up i) / IZR (2 ^ 94).
Proof.
  intros i Hi Hx. destruct (blend_up i _ (N.to_nat (W - p + 1)) Hi Hx ltac:(lia)) as [U1 U2]. split.
  - rewrite (mean_blend W p n (/ 2) inv_pow2 inv_pow2_pow). eapply Rle_trans; [|exact U1].
    apply blend_le; [lra|]. intros k _. now apply below_up.
  - rewrite (mean_blend W p n (/ 4)).
    2:{ intros v. rewrite inv_pow2_pow, <- Rpow_mult_distr. f_equal. field. }
    eapply Rle_trans; [|exact U2]. apply blend_le; [lra|]. intros k _. now apply below_up.
Qed.

Lemma mean_ge : forall i, (0 <= i)%Z -> (0 <= x_lo i)%Z -> INR n / m_R p * (1 + / m_R p) <= IZR i / 262144 ->
  IZR (a_lo i) / IZR (2 ^ 77) <= mean W p n inv_pow2.
Proof.
  intros i Hi He Hx. rewrite (mean_blend W p n (/ 2) inv_pow2 inv_pow2_pow).
  assert (Hm : 0 < / m_R p) by (apply Rinv_0_lt_compat, pow2_pos; lia). pose proof x_nonneg as X0.
  eapply Rle_trans; [apply (blend_lo i (INR n / m_R p * (1 + / m_R p))); auto|].
  - split; [apply Rmult_le_pos; lra|exact Hx].
  - apply blend_le; [lra|]. intros k _. now apply below_lo.
Qed.

(** Concentration of the harmonic sum around its mean. *)
Lemma harmonic_spread_q : forall q t, 0 < q -> 0 < t -> 0 < mean W p n inv_pow2 ->
  mean W p n (fun v => inv_pow2 v * inv_pow2 v) <= (1 + q ^ 2) * (mean W p n inv_pow2 * mean W p n inv_pow2) ->
  forall file, register_files W p n file ->
  rare W n (/ (m_R p * t ^ 2))
    (fun hs => q * t * (m_R p * mean W p n inv_pow2) <= Rabs (inv_sum (file hs) - m_R p * mean W p n inv_pow2)).
Proof.
  intros q t Hq Ht P V file F. unfold m_R in *. set (m := IZR (2 ^ Z.of_N p)) in *.
  assert (Hm : 0 < m) by (apply pow2_pos; lia). set (mu := mean W p n inv_pow2) in *.
  destruct (hash_lists_exist W n) as (all & E).
  assert (Ht' : 0 < q * t * (m * mu)) by (apply Rmult_lt_0_compat; [|apply Rmult_lt_0_compat; lra]; apply Rmult_lt_0_compat; lra).
  eapply rare_weaken; [exact (total_rare W p n file all ltac:(lia) F E inv_pow2 _ inv_pow2_decreasing Ht')| |].
  - fold m mu. set (v := mean W p n (fun v => inv_pow2 v * inv_pow2 v)) in *.
    assert (T2 : 0 < (q * t * (m * mu)) ^ 2) by now apply pow_lt.
    apply Rmult_le_reg_r with (1 := T2). unfold Rdiv. rewrite Rmult_assoc, Rinv_l, Rmult_1_r by lra.
    replace (/ (m * t ^ 2) * (q * t * (m * mu)) ^ 2) with (m * (q ^ 2 * (mu * mu))) by (field; lra).
    apply Rmult_le_compat_l; lra.
  - intros hs _ H. exact H.
Qed.
End Mean.
