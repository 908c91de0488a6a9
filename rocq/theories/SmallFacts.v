(** * Counts of a few values: linear counting drops to the number of filled registers *)
From Coq Require Import NArith ZArith Reals List Bool Lia Lra Permutation Sorted.
From Flocq Require Import Core BinarySingleNaN.
From Verif Require Import ModelRust ModelF64 ModelEnv ModelConstants ModelHistory Spec SpecReal SpecCount SpecDist
  SpecProb SpecBuild SpecSmall BitFacts EncFacts CodeFacts AbsorbFacts DistFacts CodeDist ProbFacts MomentFacts HarmonicNum
  PlusInv PFInv LinearFacts RawFacts FloatFacts SparseFacts MonoFacts ExtremeFacts ClaimFloat ClaimFacts ClaimDist
  HarmonicMean AccFacts AccSmall SandwichFacts NarrowFacts.
Import ListNotations.
Local Notation ln := Rpower.ln.
Local Open Scope R_scope.

(** ** The series of ln (1 - x) *)
Definition series (a x : R) : R := x + (x ^ 2 / 2 + x ^ 3 / 3 + x ^ 4 / 4 + a * x ^ 5).

Lemma series_deriv : forall a c, c < 1 ->
  derivable_pt_lim (fun x => series a x + ln (1 - x)) c (1 + c + c ^ 2 + c ^ 3 + 5 * a * c ^ 4 - / (1 - c)).
Proof.
  intros a c Hc.
  assert (P : forall k n, derivable_pt_lim (fun x => k * x ^ n) c (k * (INR n * c ^ Nat.pred n))).
  { intros k n. apply (derivable_pt_lim_scal (fun x => x ^ n)). apply derivable_pt_lim_pow. }
  assert (L : derivable_pt_lim (fun x => ln (1 - x)) c (/ (1 - c) * (0 - 1))).
  { apply (derivable_pt_lim_comp (fun x => 1 - x) ln).
    - apply (derivable_pt_lim_minus (fun _ => 1) (fun x => x)); [apply derivable_pt_lim_const|apply derivable_pt_lim_id].
    - apply derivable_pt_lim_ln. lra. }
  assert (X : derivable_pt_lim (fun x => (1 * x ^ 1 + (/ 2 * x ^ 2 + (/ 3 * x ^ 3 + (/ 4 * x ^ 4 + (a * x ^ 5 + ln (1 - x))))))) c
    (1 * (INR 1 * c ^ 0) + (/ 2 * (INR 2 * c ^ 1) + (/ 3 * (INR 3 * c ^ 2) + (/ 4 * (INR 4 * c ^ 3) +
      (a * (INR 5 * c ^ 4) + / (1 - c) * (0 - 1))))))).
  { repeat (refine (derivable_pt_lim_plus (fun x => _ * x ^ _) _ _ _ _ (P _ _) _)). exact L. }
  replace (1 + c + c ^ 2 + c ^ 3 + 5 * a * c ^ 4 - / (1 - c)) with
    (1 * (INR 1 * c ^ 0) + (/ 2 * (INR 2 * c ^ 1) + (/ 3 * (INR 3 * c ^ 2) + (/ 4 * (INR 4 * c ^ 3) +
      (a * (INR 5 * c ^ 4) + / (1 - c) * (0 - 1)))))) by (cbn [INR pow]; field; lra).
  intros eps He. destruct (X eps He) as (delta & D). exists delta. intros h H1 H2. specialize (D h H1 H2).
  cbv beta in D |- *. unfold series.
  match goal with |- Rabs ?u < _ => match type of D with Rabs ?v < _ => replace u with v; [exact D|] end end.
  f_equal. f_equal. field.
Qed.

Lemma series_at_0 : forall a, series a 0 + ln (1 - 0) = 0.
Proof. intros a. unfold series. rewrite Rminus_0_r, ln_1. field. Qed.

Lemma series_lower : forall x, 0 <= x < 1 -> series 0 x <= - ln (1 - x).
Proof.
  intros x [[H0|<-] H1].
  2:{ pose proof (series_at_0 0). lra. }
  destruct (MVT_cor2 (fun x => series 0 x + ln (1 - x)) _ 0 x H0
    (fun c Hc => series_deriv 0 c ltac:(lra))) as (c & E & C).
  rewrite series_at_0 in E.
  assert (1 + c + c ^ 2 + c ^ 3 + 5 * 0 * c ^ 4 - / (1 - c) <= 0).
  { replace (1 + c + c ^ 2 + c ^ 3 + 5 * 0 * c ^ 4 - / (1 - c)) with (- (c ^ 4 * / (1 - c))) by (field; lra).
    assert (0 < / (1 - c)) by (apply Rinv_0_lt_compat; lra). pose proof (pow_lt c 4 ltac:(lra)). nra. }
  nra.
Qed.

Lemma series_upper : forall x, 0 <= x <= 0.4 -> - ln (1 - x) <= series (/ 3) x.
Proof.
  intros x [[H0|<-] H1].
  2:{ pose proof (series_at_0 (/ 3)). lra. }
  destruct (MVT_cor2 (fun x => series (/ 3) x + ln (1 - x)) _ 0 x H0
    (fun c Hc => series_deriv (/ 3) c ltac:(lra))) as (c & E & C).
  rewrite series_at_0 in E.
  assert (0 <= 1 + c + c ^ 2 + c ^ 3 + 5 * / 3 * c ^ 4 - / (1 - c)).
  { replace (1 + c + c ^ 2 + c ^ 3 + 5 * / 3 * c ^ 4 - / (1 - c)) with (c ^ 4 * (5 / 3 - / (1 - c))) by (field; lra).
    apply Rmult_le_pos; [apply pow_le; lra|].
    assert (/ (1 - c) <= 5 / 3); [|lra].
    replace (5 / 3) with (/ (3 / 5)) by field. apply Rinv_le_contravar; lra. }
  nra.
Qed.

(** ** Linear counting over [2^p] registers of which [d] are filled *)
Lemma linear_1x : forall p d, (d < 2 ^ p)%N ->
  linear_R (2 ^ p) (2 ^ p - d) = m_R p * - ln (1 - IZR (Z.of_N d) / m_R p).
Proof.
  intros p d Hd. unfold linear_R. rewrite N2Z.inj_sub, minus_IZR, m_R_N by lia.
  assert (D : IZR (Z.of_N d) < m_R p) by (rewrite <- m_R_N; apply IZR_lt; lia).
  assert (M : 0 < m_R p) by (apply MomentFacts.pow2_pos; lia).
  rewrite <- ln_Rinv.
  - f_equal. f_equal. field. lra.
  - assert (IZR (Z.of_N d) / m_R p < 1); [|lra].
    apply Rmult_lt_reg_r with (m_R p); [exact M|]. unfold Rdiv. rewrite Rmult_assoc, Rinv_l by lra. lra.
Qed.

Lemma limit_cases : forall (P : N -> N -> Prop),
  P 4%N 5%N -> P 5%N 7%N -> P 6%N 10%N -> P 7%N 15%N -> P 8%N 21%N -> P 9%N 31%N -> P 10%N 44%N ->
  P 11%N 63%N -> P 12%N 89%N -> P 13%N 127%N -> P 14%N 180%N -> P 15%N 255%N -> P 16%N 361%N ->
  P 17%N 511%N -> P 18%N 723%N -> forall p, (4 <= p <= 18)%N -> P p (exact_limit p).
Proof.
  intros P H4 H5 H6 H7 H8 H9 H10 H11 H12 H13 H14 H15 H16 H17 H18 p Hp.
  assert (C : (p = 4 \/ p = 5 \/ p = 6 \/ p = 7 \/ p = 8 \/ p = 9 \/ p = 10 \/ p = 11 \/ p = 12 \/ p = 13 \/
    p = 14 \/ p = 15 \/ p = 16 \/ p = 17 \/ p = 18)%N) by lia.
  repeat (destruct C as [-> |C]); try assumption. subst p. assumption.
Qed.

Definition limit_ok (p d : N) : Prop :=
  (d + 1 < 2 ^ p)%N /\ IZR (Z.of_N (d + 1)) <= 0.4 * m_R p /\ IZR (Z.of_N d) <= 723 /\
  m_R p * (series (/ 3) (IZR (Z.of_N d) / m_R p)) <= IZR (Z.of_N d) + 0.999 /\
  IZR (Z.of_N (d + 1)) + 1.001 <= m_R p * series 0 (IZR (Z.of_N (d + 1)) / m_R p) /\
  m_R p * series (/ 3) (IZR (Z.of_N (d + 1)) / m_R p) <= IZR (Z.of_N (d + 1)) + 1.6 /\
  IZR (Z.of_N (d + 1)) + 1.7 <= threshold_R p.

Lemma limit_numbers : forall p, (4 <= p <= 18)%N -> limit_ok p (exact_limit p).
Proof.
  apply limit_cases; unfold limit_ok, m_R, series, threshold_R; simpl; repeat split; try lia; try lra.
Qed.

Lemma series_shift : forall m d, 0 < m -> m * series (/ 3) (d / m) = d + m * (series (/ 3) (d / m) - d / m).
Proof. intros m d M. field. lra. Qed.

Lemma linear_near : forall p d, (4 <= p <= 18)%N -> (1 <= d)%N -> (d <= exact_limit p + 1)%N ->
  let y := linear_R (2 ^ p) (2 ^ p - d) in let x := IZR (Z.of_N d) in
  x * (1 + / 524288) <= y /\ m_R p * series 0 (x / m_R p) <= y /\ y <= m_R p * series (/ 3) (x / m_R p).
Proof.
  intros p d Hp H1 Hd. cbv zeta. destruct (limit_numbers p Hp) as (A & B & _).
  assert (M : 0 < m_R p) by (apply MomentFacts.pow2_pos; lia).
  assert (M18 : m_R p <= 262144).
  { rewrite <- m_R_N. change 262144 with (IZR (Z.of_N (2 ^ 18))). apply IZR_le, N2Z.inj_le. apply N.pow_le_mono_r; lia. }
  assert (X : IZR (Z.of_N d) <= IZR (Z.of_N (exact_limit p + 1))) by (apply IZR_le; lia).
  assert (X1 : 1 <= IZR (Z.of_N d)) by (apply IZR_le; lia).
  rewrite linear_1x by lia. set (m := m_R p) in *. set (x := IZR (Z.of_N d)) in *.
  assert (Q : 0 <= x / m <= 0.4) by (split; [apply div_ge|apply div_le]; lra).
  pose proof (series_lower (x / m) ltac:(lra)) as SL. pose proof (series_upper (x / m) Q) as SU.
  apply (Rmult_le_compat_l m) in SL; [|lra]. apply (Rmult_le_compat_l m) in SU; [|lra].
  split; [|split; assumption]. eapply Rle_trans; [|exact SL].
  assert (E : x = m * (x / m)) by (field; lra). assert (Q2 : / 262144 <= x / m).
  { apply div_ge; [exact M|]. lra. }
  rewrite E at 1. unfold series. set (q := x / m) in *. clearbody q. clear - Q Q2 M.
  rewrite Rmult_assoc. apply Rmult_le_compat_l; [lra|].
  assert (0 <= q ^ 3) by (apply pow_le; lra). assert (0 <= q ^ 4) by (apply pow_le; lra). nra.
Qed.

Lemma approx_28 : forall c y, 0 <= y -> y <= 1000 -> approx (/ IZR (2 ^ 28)) c y ->
  y * (1 - / 268435456) <= c <= y + 0.0001.
Proof.
  intros c y H0 H1 A. unfold approx in A. rewrite (Rabs_pos_eq y) in A by lra. apply Rabs_le_inv in A.
  change (IZR (2 ^ 28)) with 268435456 in A. lra.
Qed.

Lemma linear_trunc : forall p d c, (4 <= p <= 18)%N -> (d <= exact_limit p)%N ->
  approx (/ IZR (2 ^ 28)) c (linear_R (2 ^ p) (2 ^ p - d)) -> Ztrunc c = Z.of_N d.
Proof.
  intros p d c Hp Hd A. destruct (limit_numbers p Hp) as (L1 & L2 & L3 & L4 & _).
  assert (M : 0 < m_R p) by (apply MomentFacts.pow2_pos; lia).
  destruct (N.eq_dec d 0) as [->|Z].
  { rewrite linear_1x in A by lia. change (IZR (Z.of_N 0)) with 0 in A.
    replace (1 - 0 / m_R p) with 1 in A by (field; lra). rewrite ln_1 in A.
    unfold approx in A. rewrite Ropp_0, Rmult_0_r, Rabs_R0, Rmult_0_r, Rminus_0_r in A.
    assert (c = 0) as ->; [|now rewrite Ztrunc_IZR].
    apply Rabs_le_inv in A. lra. }
  destruct (linear_near p d Hp ltac:(lia) ltac:(lia)) as (B1 & _ & B2).
  assert (X1 : 1 <= IZR (Z.of_N d)) by (apply IZR_le; lia).
  assert (X : IZR (Z.of_N d) <= IZR (Z.of_N (exact_limit p))) by (apply IZR_le; lia).
  assert (U : m_R p * series (/ 3) (IZR (Z.of_N d) / m_R p) <= IZR (Z.of_N d) + 0.999).
  { rewrite series_shift in L4 |- * by exact M. apply Rplus_le_compat_l. apply Rplus_le_reg_l in L4.
    eapply Rle_trans; [|exact L4]. apply Rmult_le_compat_l; [lra|].
    assert (Q : 0 <= IZR (Z.of_N d) / m_R p <= IZR (Z.of_N (exact_limit p)) / m_R p).
    { split; [apply div_ge; lra|]. unfold Rdiv. apply Rmult_le_compat_r; [left; now apply Rinv_0_lt_compat|exact X]. }
    unfold series. set (a := IZR (Z.of_N d) / m_R p) in *. set (b := IZR (Z.of_N (exact_limit p)) / m_R p) in *.
    pose proof (pow_incr a b 2 Q). pose proof (pow_incr a b 3 Q). pose proof (pow_incr a b 4 Q). pose proof (pow_incr a b 5 Q). lra. }
  set (y := linear_R _ _) in *. set (x := IZR (Z.of_N d)) in *.
  destruct (approx_28 c y ltac:(lra) ltac:(lra) A) as [C1 C2].
  assert (x <= c) by nra.
  rewrite Ztrunc_floor by lra. apply Zfloor_imp. rewrite plus_IZR. fold x. lra.
Qed.

Lemma linear_trunc_next : forall p c, (4 <= p <= 18)%N ->
  approx (/ IZR (2 ^ 28)) c (linear_R (2 ^ p) (2 ^ p - (exact_limit p + 1))) ->
  Ztrunc c = (Z.of_N (exact_limit p) + 2)%Z.
Proof.
  intros p c Hp A. destruct (limit_numbers p Hp) as (L1 & L2 & L3 & _ & L5 & L6 & _).
  destruct (linear_near p (exact_limit p + 1) Hp ltac:(lia) ltac:(lia)) as (_ & B1 & B2).
  assert (E : IZR (Z.of_N (exact_limit p + 1)) = IZR (Z.of_N (exact_limit p)) + 1).
  { rewrite <- plus_IZR. f_equal. lia. }
  rewrite E in *. assert (X0 : 0 <= IZR (Z.of_N (exact_limit p))) by (apply IZR_le; lia).
  set (y := linear_R _ _) in *. set (x := IZR (Z.of_N (exact_limit p))) in *.
  destruct (approx_28 c y ltac:(lra) ltac:(lra) A) as [C1 C2].
  rewrite Ztrunc_floor by nra. apply Zfloor_imp. rewrite !plus_IZR. fold x. split; nra.
Qed.

Lemma linear_below : forall p d, (4 <= p <= 18)%N -> (d <= exact_limit p + 1)%N ->
  linear_R (2 ^ p) (2 ^ p - d) <= threshold_R p.
Proof.
  intros p d Hp Hd. destruct (limit_numbers p Hp) as (L1 & L2 & L3 & _ & L5 & L6 & L7).
  destruct (linear_near p (exact_limit p + 1) Hp ltac:(lia) ltac:(lia)) as (_ & _ & B2).
  apply Rle_trans with (linear_R (2 ^ p) (2 ^ p - (exact_limit p + 1))); [|lra].
  unfold linear_R. assert (M : 0 < IZR (Z.of_N (2 ^ p))) by (apply IZR_lt; lia).
  apply Rmult_le_compat_l; [lra|]. assert (V : 0 < IZR (Z.of_N (2 ^ p - (exact_limit p + 1)))) by (apply IZR_lt; lia).
  apply LinearFacts.ln_le; [apply Rdiv_lt_0_compat; [lra|apply IZR_lt; lia]|].
  apply Rmult_le_compat_l; [lra|]. apply Rinv_le_contravar; [exact V|apply IZR_le; lia].
Qed.

(** ** Filled registers *)
Lemma hit_lt : forall W p H b, (p <= W)%N -> Forall (fun h => (h < 2 ^ W)%N) H -> hit W p H b -> (b < 2 ^ p)%N.
Proof.
  intros W p H b HW F (h & Hh & <-). rewrite Forall_forall in F. specialize (F h Hh). unfold bucket.
  apply N.div_lt_upper_bound; [apply N.pow_nonzero; discriminate|]. rewrite <- N.pow_add_r.
  replace (W - p + p)%N with W by lia. exact F.
Qed.

Lemma zeros_exact : forall W p H l B, (p < W)%N -> Forall (fun h => (h < 2 ^ W)%N) H ->
  is_register_file W p H l -> enumerates (hit W p H) B ->
  (zero_count l + N.of_nat (length B) = 2 ^ p)%N.
Proof.
  intros W p H l B HW HF RF [ND EB]. apply N.le_antisymm.
  - apply (zeros_le W p H l B HW RF ND). intros b Hb. apply EB in Hb.
    split; [apply (hit_lt W p H); auto; lia|exact Hb].
  - destruct RF as [EL R]. rewrite <- EL. unfold zero_count.
    pose proof (filter_length _ (N.eqb 0) l) as F.
    assert (K : (length (filter (fun v => negb (N.eqb 0 v)) l) <= length B)%nat); [|lia].
    rewrite <- (map_nth_seq l) at 1. rewrite filter_map_length.
    rewrite <- (map_length N.to_nat B). apply NoDup_incl_length.
    + apply NoDup_filter, seq_NoDup.
    + intros i Hi. apply filter_In in Hi. destruct Hi as [S Z]. apply in_seq in S.
      assert (E : nth_error l i = Some (nth i l 0%N)) by (apply nth_error_nth'; lia).
      rewrite <- (Nat2N.id i) in E at 1. destruct (R _ _ E) as [_ [Q|(h & Hh & Bk & _)]].
      * rewrite Q in Z. discriminate.
      * apply in_map_iff. exists (N.of_nat i). split; [apply Nat2N.id|]. apply EB. exists h. auto.
Qed.

Lemma hits_exist : forall W p H, exists B, enumerates (hit W p H) B.
Proof.
  intros W p H. exists (nodup N.eq_dec (map (bucket W p) H)). split; [apply NoDup_nodup|].
  intros b. rewrite nodup_In, in_map_iff. unfold hit. split; intros (h & ? & ?); exists h; auto.
Qed.

Lemma mod_lt_32 : forall H, Forall (fun h => (h < 2 ^ 32)%N) (map (fun x => x mod 2 ^ 32)%N H).
Proof.
  intros H. apply Forall_forall. intros h Hh. apply in_map_iff in Hh. destruct Hh as (x & <- & _).
  apply N.mod_lt. discriminate.
Qed.

(** ** HyperLogLogPF *)
Lemma pf_linear : forall (V : Type) e (h : hist V) B,
  build e -> accurate e -> valid MAX_PF h -> narrow (usize_bits e) h ->
  enumerates (hit 32 (hist_precision h) (map (fun x => x mod 2 ^ 32)%N (hist_hashes h))) B ->
  (5 * N.of_nat (length B) <= 2 * 2 ^ hist_precision h)%N ->
  exists c, count_pf e h = Ret c /\ is_finite c = true /\
    approx (/ IZR (2 ^ 28)) (B2R c) (linear_R (2 ^ hist_precision h) (2 ^ hist_precision h - N.of_nat (length B))).
Proof.
  intros V e h B Hb Ha Hv Hn HB H5.
  pose proof (hist_prec V _ h Hv) as Hp. unfold MAX_PF in Hp.
  assert (M : 0 < m_R (hist_precision h)) by (apply MomentFacts.pow2_pos; lia).
  assert (RW : forall l, is_register_file 32 (hist_precision h) (map (fun x => x mod 2 ^ 32)%N (hist_hashes h)) l ->
    (zero_count l + N.of_nat (length B) = 2 ^ hist_precision h)%N /\ raw_R (hist_precision h) l <= 1.25 * m_R (hist_precision h)).
  { intros l RF. pose proof (zeros_exact 32 (hist_precision h) _ l B ltac:(lia) (mod_lt_32 _) RF HB) as ZG. split; [exact ZG|].
    pose proof (zero_inv_sum l) as ZS.
    assert (Z5 : 3 * m_R (hist_precision h) <= 5 * IZR (Z.of_N (zero_count l))).
    { rewrite <- m_R_N, <- !mult_IZR. apply IZR_le. lia. }
    pose proof (alpha_upper (hist_precision h) ltac:(lia) ltac:(lia)) as AU. unfold raw_R.
    pose proof (file_inv_pos _ _ _ _ RF) as SP. apply div_le; [exact SP|].
    set (m := m_R (hist_precision h)) in *. set (S := inv_sum l) in *. clearbody S.
    apply Rle_trans with (0.75 * (m * m)); [apply Rmult_le_compat_r; nra|]. nra. }
  assert (BL : below_2_32 (hist_precision h) (hist_hashes h)).
  { intros l RF. destruct (RW l RF) as [_ RU]. eapply Rle_lt_trans; [exact RU|].
    assert (m_R (hist_precision h) <= 65536).
    { rewrite <- m_R_N. change 65536 with (IZR (Z.of_N (2 ^ 16))). apply IZR_le. apply N2Z.inj_le. apply N.pow_le_mono_r; lia. }
    change (IZR (2 ^ 32)) with 4294967296. lra. }
  destruct (pf_value_R V e h Hb Ha Hv Hn BL) as (c & E & F & (l & RF & P) & _).
  exists c. split; [exact E|]. split; [exact F|]. destruct (RW l RF) as [ZG RU].
  pose proof (N.pow_nonzero 2 (hist_precision h) ltac:(discriminate)) as P0.
  assert (Z0 : (zero_count l <> 0)%N) by lia.
  destruct P as [(_ & _ & P)|([P|P] & _)]; [|contradiction|lra].
  replace (2 ^ hist_precision h - N.of_nat (length B))%N with (zero_count l) by lia. exact P.
Qed.

Lemma limit_two : forall p d, (4 <= p <= 18)%N -> (d <= exact_limit p + 1)%N -> (5 * d <= 2 * 2 ^ p)%N.
Proof.
  intros p d Hp Hd. destruct (limit_numbers p Hp) as (_ & L & _).
  assert (X : 5 * IZR (Z.of_N (exact_limit p + 1)) <= 2 * m_R p) by lra.
  rewrite <- m_R_N, <- !mult_IZR in X. apply le_IZR in X. lia.
Qed.

Theorem pf_exact_small : forall (V : Type) e (h : hist V) B,
  build e -> accurate e -> valid MAX_PF h -> narrow (usize_bits e) h ->
  enumerates (hit 32 (hist_precision h) (map (fun x => x mod 2 ^ 32)%N (hist_hashes h))) B ->
  (N.of_nat (length B) <= exact_limit (hist_precision h))%N ->
  exists c, count_pf e h = Ret c /\ is_finite c = true /\ Ztrunc (B2R c) = Z.of_nat (length B).
Proof.
  intros V e h B Hb Ha Hv Hn HB HL. pose proof (hist_prec V _ h Hv) as Hp. unfold MAX_PF in Hp.
  destruct (pf_linear V e h B Hb Ha Hv Hn HB) as (c & E & F & A); [apply limit_two; lia|].
  exists c. split; [exact E|]. split; [exact F|].
  rewrite (linear_trunc (hist_precision h) _ _ ltac:(lia) HL A). lia.
Qed.

Theorem pf_exact_sharp : forall (V : Type) e (h : hist V) B,
  build e -> accurate e -> valid MAX_PF h -> narrow (usize_bits e) h ->
  enumerates (hit 32 (hist_precision h) (map (fun x => x mod 2 ^ 32)%N (hist_hashes h))) B ->
  (N.of_nat (length B) = exact_limit (hist_precision h) + 1)%N ->
  exists c, count_pf e h = Ret c /\ is_finite c = true /\ Ztrunc (B2R c) = (Z.of_nat (length B) + 1)%Z.
Proof.
  intros V e h B Hb Ha Hv Hn HB HL. pose proof (hist_prec V _ h Hv) as Hp. unfold MAX_PF in Hp.
  destruct (pf_linear V e h B Hb Ha Hv Hn HB) as (c & E & F & A); [apply limit_two; lia|].
  exists c. split; [exact E|]. split; [exact F|]. rewrite HL in A.
  rewrite (linear_trunc_next (hist_precision h) _ ltac:(lia) A). lia.
Qed.

(** ** HyperLogLogPlus with the codes given up *)
Lemma plus_linear : forall (V : Type) e ord (h : hist V) B,
  build_std e -> accurate e -> valid MAX_PLUS h -> narrow (usize_bits e) h -> is_order ord ->
  ~ fits (hist_precision h) (hist_hashes h) ->
  enumerates (hit 64 (hist_precision h) (hist_hashes h)) B ->
  (N.of_nat (length B) <= exact_limit (hist_precision h) + 1)%N ->
  exists c, count_plus e ord h = Ret c /\ is_finite c = true /\
    approx (/ IZR (2 ^ 28)) (B2R c) (linear_R (2 ^ hist_precision h) (2 ^ hist_precision h - N.of_nat (length B))).
Proof.
  intros V e ord h B Hb Ha Hv Hn Ho NF HB HL.
  destruct (plus_value V e ord h Hb Ha Hv Hn Ho) as (c & E & F & L & CL & P).
  exists c. split; [exact E|]. split; [exact F|].
  pose proof (hist_prec V _ h Hv) as Hp. unfold MAX_PLUS in Hp. set (p := hist_precision h) in *.
  destruct P as [[G _]|[_ (l & RF & P)]].
  { exfalso. apply NF. intros L' CL'. now rewrite (code_list_unique _ _ _ _ CL' CL). }
  pose proof (zeros_exact 64 p _ l B ltac:(lia) (hashes_lt V h) RF HB) as ZE.
  pose proof (linear_below p _ ltac:(lia) HL) as LB. destruct (limit_numbers p Hp) as (L1 & _).
  replace (2 ^ p - N.of_nat (length B))%N with (zero_count l) in * by lia.
  destruct P as [(_ & _ & P)|([P|P] & _)]; [exact P|lia|lra].
Qed.

Theorem plus_exact_small : forall (V : Type) e ord (h : hist V) B,
  build_std e -> accurate e -> valid MAX_PLUS h -> narrow (usize_bits e) h -> is_order ord ->
  ~ fits (hist_precision h) (hist_hashes h) ->
  enumerates (hit 64 (hist_precision h) (hist_hashes h)) B ->
  (N.of_nat (length B) <= exact_limit (hist_precision h))%N ->
  exists c, count_plus e ord h = Ret c /\ is_finite c = true /\ Ztrunc (B2R c) = Z.of_nat (length B).
Proof.
  intros V e ord h B Hb Ha Hv Hn Ho NF HB HL. pose proof (hist_prec V _ h Hv) as Hp. unfold MAX_PLUS in Hp.
  destruct (plus_linear V e ord h B Hb Ha Hv Hn Ho NF HB) as (c & E & F & A); [lia|].
  exists c. split; [exact E|]. split; [exact F|].
  rewrite (linear_trunc (hist_precision h) _ _ ltac:(lia) HL A). lia.
Qed.

(** ** Most hash assignments hit a bucket per value *)
Definition shared (W p : N) (n : nat) (hs : list N) : R :=
  INR n - m_R p + IZR (Z.of_N (zero_count (file_of W p hs))).

Lemma shared_rare : forall W p n, (4 <= p < W)%N -> (INR n <= m_R p) ->
  rare W n (INR n ^ 2 / (2 * m_R p)) (fun hs => 1 <= shared W p n hs).
Proof.
  intros W p n HW Hn. destruct (hash_lists_exist W n) as (all & E).
  assert (F : register_files W p n (file_of W p)) by (apply file_of_files; lia).
  assert (M : 0 < m_R p) by (apply MomentFacts.pow2_pos; lia).
  replace (INR n ^ 2 / (2 * m_R p)) with (INR n ^ 2 / (2 * m_R p) / 1) by (field; lra).
  apply (markov W n all (shared W p n)); [exact E|lra| |].
  - intros hs Hh. apply E in Hh. unfold shared.
    pose proof (nonzero_le W p hs hs _ (F hs Hh) (fun x => iff_refl _)) as N1.
    destruct Hh as [Hl _]. rewrite Hl in N1. apply N2Z.inj_le, IZR_le in N1.
    rewrite N2Z.inj_add, plus_IZR, nat_N_Z, <- INR_IZR_INZ, m_R_N in N1. lra.
  - rewrite (rsum_ext _ (fun hs => (INR n - m_R p) + total (file_of W p) (ind 0) hs)).
    2:{ intros hs _. unfold shared, total. now rewrite rsum_zero. }
    rewrite rsum_plus, rsum_const, (total_mean W p n (file_of W p) all ltac:(lia) F E), mean_zero.
    rewrite <- Rmult_plus_distr_l, Rmult_comm. apply Rmult_le_compat_r; [apply pos_INR|].
    change (IZR (2 ^ Z.of_N p)) with (m_R p).
    destruct (below_exp p n ltac:(lia)) as [_ B].
    pose proof (pos_INR n) as P. set (x := INR n) in *. set (m := m_R p) in *. clearbody x m.
    assert (Q : 0 <= x / m <= 1) by (split; [apply div_ge|apply div_le]; lra).
    pose proof (exp_neg_up (x / m) ltac:(lra)) as U.
    assert (B' : m * below p n 0 <= m * (1 - x / m + (x / m) ^ 2 / 2)).
    { apply Rmult_le_compat_l; [lra|]. lra. }
    replace (m * (1 - x / m + (x / m) ^ 2 / 2)) with (m - x + x ^ 2 / (2 * m)) in B' by (field; lra). lra.
Qed.

Theorem pf_exact_rare : forall e p n, build e -> accurate e -> (4 <= p <= 16)%N ->
  (N.of_nat n <= exact_limit p)%N ->
  rare 32 n (INR n ^ 2 / (2 * m_R p)) (fun hs => ~ pf_counts_int e p (Z.of_nat n) hs).
Proof.
  intros e p n Hb Ha Hp Hn. destruct (limit_numbers p ltac:(lia)) as (L1 & _).
  assert (NM : INR n <= m_R p).
  { rewrite INR_IZR_INZ, <- m_R_N. apply IZR_le. lia. }
  eapply rare_weaken; [apply (shared_rare 32 p n); [lia|exact NM]|lra|].
  intros hs HH NC. apply Rnot_lt_le. intros S. apply NC. clear NC. intros V h Hv Hnr Ep SS.
  destruct (hits_exist 32 p (map (fun x => x mod 2 ^ 32)%N (hist_hashes h))) as (B & HB).
  pose proof (file_of_ok 32 p hs ltac:(lia) (proj2 HH)) as RF.
  pose proof (register_file_same 32 p hs _ _ (fun x => iff_sym (SS x)) RF) as RF'.
  pose proof (zeros_exact 32 p _ _ B ltac:(lia) (mod_lt_32 _) RF' HB) as ZE.
  pose proof (nonzero_le 32 p hs hs _ RF (fun x => iff_refl _)) as N1. destruct HH as [Hl _]. rewrite Hl in N1.
  assert (EB : length B = n).
  { unfold shared in S. rewrite INR_IZR_INZ, <- m_R_N, <- minus_IZR, <- plus_IZR in S. apply lt_IZR in S. lia. }
  subst p. destruct (pf_exact_small V e h B Hb Ha Hv Hnr HB) as (c & E & F & T); [lia|].
  exists c. rewrite EB in T. auto.
Qed.

(** ** The example of the documentation *)
Local Open Scope N_scope.
Lemma doc_valid : forall (V : Type) max ord (b : V -> N) x y, 16 <= max -> is_order ord -> valid max (doc_program ord b x y).
Proof. intros V max ord b x y Hm Ho. cbn. repeat split; auto; lia. Qed.

Lemma code_list_two : forall p a b, exists L, is_code_list p [a; b] L /\
  N.of_nat (length L) = if sparse_code p a =? sparse_code p b then 1 else 2.
Proof.
  intros p a b. destruct (code_list_exists p [a; b]) as (L & HL). exists L. split; [exact HL|].
  destruct HL as [SS HL].
  assert (ND : NoDup L) by now apply sorted_nodup.
  assert (E : enumerates (fun c => In c [sparse_code p a; sparse_code p b]) L) by (split; [exact ND|exact HL]).
  destruct (N.eqb_spec (sparse_code p a) (sparse_code p b)) as [Q|Q].
  - rewrite (enum_length _ _ _ [sparse_code p a] E); [reflexivity|].
    split; [repeat constructor; auto|]. intros c. rewrite Q. cbn. tauto.
  - rewrite (enum_length _ _ _ [sparse_code p a; sparse_code p b] E); [reflexivity|].
    split; [|reflexivity]. repeat constructor; cbn; intuition.
Qed.

(** Sparse sketches count exactly whatever the width of usize. *)
Theorem sparse_exact : forall (V : Type) e ord (h : hist V) L,
  build_std e -> accurate e -> valid MAX_PLUS h -> countable (usize_bits e) h -> is_order ord ->
  is_code_list (hist_precision h) (hist_hashes h) L ->
  gap_len 0 L <= sparse_limit (hist_precision h) -> N.of_nat (length L) <= 5791 ->
  exists c, count_plus e ord h = Ret c /\ is_finite c = true /\ Ztrunc (B2R c) = Z.of_nat (length L).
Proof.
  intros V e ord h L Hb Ha Hv Hc Ho HL HG H5.
  assert (Hc' : countable (usize_bits e) (HCount ord h)).
  { split; [right|exact Hc]. intros L' HL'. now rewrite (code_list_unique _ _ _ _ HL' HL). }
  destruct (count_plus_gen V e ord h Hb Hv Hc' Ho) as (_ & _ & c & _ & _ & E & _ & _ & L' & HL' & HV).
  rewrite (code_list_unique _ _ _ _ HL' HL) in *.
  destruct HV as [[_ HV]|[HV _]]; [|lia].
  destruct (sparse_trunc e (N.of_nat (length L)) c Ha H5 HV) as [F T].
  exists c. split; [auto|]. split; [exact F|]. unfold F64Facts.val in T. rewrite T. lia.
Qed.

Theorem doc_plus_value : forall (V : Type) e ord (b : V -> N) x y, build_std e -> accurate e -> is_order ord ->
  exists c, count_plus e ord (doc_program ord b x y) = Ret c /\ is_finite c = true /\
    Ztrunc (B2R c) = if sparse_code 16 (hash64 b x) =? sparse_code 16 (hash64 b y) then 1%Z else 2%Z.
Proof.
  intros V e ord b x y Hb Ha Ho.
  destruct (code_list_two 16 (hash64 b y) (hash64 b x)) as (L & HL & EL).
  assert (H5 : N.of_nat (length L) <= 5791) by (rewrite EL; destruct (_ =? _); lia).
  destruct (sparse_exact V e ord (doc_program ord b x y) L Hb Ha) as (c & E & F & T);
    [now apply doc_valid|cbn; auto|exact Ho|exact HL| |exact H5|].
  { apply (small_fits 16 (hist_hashes (doc_program ord b x y)) L); auto; [cbn; lia|apply hashes_lt]. }
  exists c. split; [exact E|]. split; [exact F|]. rewrite T, <- nat_N_Z, EL, (N.eqb_sym (sparse_code 16 (hash64 b y))). destruct (sparse_code 16 (hash64 b x) =? sparse_code 16 (hash64 b y)); reflexivity.
Qed.

Theorem doc_plus_iff : forall (V : Type) e ord (b : V -> N) x y, build_std e -> accurate e -> is_order ord ->
  (doc_plus e ord b x y <-> sparse_code 16 (hash64 b x) <> sparse_code 16 (hash64 b y)).
Proof.
  intros V e ord b x y Hb Ha Ho. destruct (doc_plus_value V e ord b x y Hb Ha Ho) as (c & E & F & T).
  unfold doc_plus. split.
  - intros (c' & E' & _ & T') Q. rewrite E in E'. injection E' as <-. rewrite T' in T.
    apply N.eqb_eq in Q. rewrite Q in T. discriminate.
  - intros Q. apply N.eqb_neq in Q. rewrite Q in T. exists c. auto.
Qed.

Theorem doc_pf_value : forall (V : Type) e (b : V -> N) x y, build e -> accurate e -> 32 < usize_bits e ->
  exists c, count_pf e (doc_program (fun l => l) b x y) = Ret c /\ is_finite c = true /\
    Ztrunc (B2R c) = if bucket 32 16 (hash64 b x mod 2 ^ 32) =? bucket 32 16 (hash64 b y mod 2 ^ 32) then 1%Z else 2%Z.
Proof.
  intros V e b x y Hb Ha Hu. set (h := doc_program (fun l => l) b x y).
  set (u := bucket 32 16 (hash64 b x mod 2 ^ 32)). set (v := bucket 32 16 (hash64 b y mod 2 ^ 32)).
  assert (Ho : is_order (fun l => l)) by (intros l; apply Permutation_refl).
  assert (Hv : valid MAX_PF h) by (apply doc_valid; [unfold MAX_PF; lia|exact Ho]).
  assert (Hn : narrow (usize_bits e) h) by (cbn; repeat split; lia).
  assert (X : exists B, enumerates (hit 32 16 (map (fun x => x mod 2 ^ 32) (hist_hashes h))) B /\
    Z.of_nat (length B) = if u =? v then 1%Z else 2%Z).
  { exists (if u =? v then [u] else [u; v]).
    assert (I : forall z, hit 32 16 (map (fun x => x mod 2 ^ 32) (hist_hashes h)) z <-> z = u \/ z = v).
    { intros z. unfold hit. change (map (fun x => x mod 2 ^ 32) (hist_hashes h))
        with [hash64 b y mod 2 ^ 32; hash64 b x mod 2 ^ 32]. split.
      - intros (k & [<-|[<-|[]]] & <-); auto.
      - intros [->| ->]; [exists (hash64 b x mod 2 ^ 32)|exists (hash64 b y mod 2 ^ 32)]; split; auto; [right; now left|now left]. }
    destruct (N.eqb_spec u v) as [Q|Q]; (split; [split|reflexivity]).
    - repeat constructor; auto.
    - intros z. rewrite I, Q. cbn. intuition.
    - repeat constructor; cbn; intuition.
    - intros z. rewrite I. cbn. intuition. }
  destruct X as (B & HB & EB).
  destruct (pf_exact_small V e h B Hb Ha Hv Hn HB) as (c & E & F & T).
  { change (exact_limit (hist_precision h)) with 361. destruct (u =? v); lia. }
  exists c. rewrite T, EB. auto.
Qed.

Theorem doc_pf_iff : forall (V : Type) e (b : V -> N) x y, build e -> accurate e -> 32 < usize_bits e ->
  (doc_pf e b x y <-> bucket 32 16 (hash64 b x mod 2 ^ 32) <> bucket 32 16 (hash64 b y mod 2 ^ 32)).
Proof.
  intros V e b x y Hb Ha Hu. destruct (doc_pf_value V e b x y Hb Ha Hu) as (c & E & F & T).
  unfold doc_pf. split.
  - intros (c' & E' & _ & T') Q. rewrite E in E'. injection E' as <-. rewrite T' in T.
    apply N.eqb_eq in Q. rewrite Q in T. discriminate.
  - intros Q. apply N.eqb_neq in Q. rewrite Q in T. exists c. auto.
Qed.

(** On 32-bit targets it panics when overflow is checked. *)
Theorem doc_pf_32 : forall (V : Type) e (b : V -> N) x y, build e -> overflow_checks e = true ->
  usize_bits e = 32 -> count_pf e (doc_program (fun l => l) b x y) = Panic.
Proof.
  intros V e b x y Hb Hc Hu. apply pf_narrow_panics; auto.
  - apply doc_valid; [unfold MAX_PF; lia|]. intros l. apply Permutation_refl.
  - cbn. auto.
  - cbn. lia.
Qed.

(** ** How many pairs of hashes make it fail *)
Lemma sum_le_const : forall (A : Type) k (l : list A), sum (map (fun _ => k) l) = k * N.of_nat (length l).
Proof.
  intros A k. induction l as [|x l IH]; [cbn; lia|]. cbn [map sum fold_right length]. unfold sum in IH. rewrite IH. lia.
Qed.

Definition pair_of (hs : list N) : N * N := (nth 0 hs 0, nth 1 hs 0).

Lemma pair_list : forall W hs, hash_list W 2 hs -> exists a b, hs = [a; b] /\ a < 2 ^ W /\ b < 2 ^ W.
Proof.
  intros W hs [HL HF]. destruct hs as [|a [|b [|]]]; try discriminate. exists a, b. split; [reflexivity|].
  inversion HF as [|? ? Ha HF']; subst. inversion HF' as [|? ? Hb _]; subst. auto.
Qed.

Definition code_failures : N := (2 ^ 25 - 2 ^ 16) * 2 ^ 78 + 2 ^ 16 * ((4 ^ 39 - 1) / 3 + 1).

Lemma pairs_size : forall W (bad : N -> N -> bool) k,
  (forall all, enumerates (hash_list W 2) all ->
     sum (map (fun hs => N.b2n (bad (nth 0 hs 0) (nth 1 hs 0))) all) = k) ->
  size_of (fun hs => exists a b, hs = [a; b] /\ hash_list W 2 hs /\ bad a b = true) k.
Proof.
  intros W bad k H. destruct (hash_lists_exist W 2) as (all & E).
  exists (filter (fun hs => bad (nth 0 hs 0) (nth 1 hs 0)) all). split.
  - pose proof (enum_filter _ _ (fun hs => bad (nth 0 hs 0) (nth 1 hs 0)) all E) as [N1 E1]. split; [exact N1|].
    intros hs. rewrite E1. split.
    + intros [Hh B]. destruct (pair_list W hs Hh) as (a & b & -> & _). exists a, b. auto.
    + intros (a & b & -> & Hh & B). auto.
  - rewrite <- sum_indicator. now apply H.
Qed.

Lemma same_code_size :
  size_of (fun hs => exists a b, hs = [a; b] /\ hash_list 64 2 hs /\ (sparse_code 16 a =? sparse_code 16 b) = true) code_failures.
Proof.
  apply (pairs_size 64 (fun a b => sparse_code 16 a =? sparse_code 16 b)). intros all E.
  set (bad := fun hs : list N => N.b2n (sparse_code 16 (nth 0 hs 0) =? sparse_code 16 (nth 1 hs 0))).
  pose proof (expected_codes 16 2 (fun hs => 2 - bad hs) all ltac:(discriminate) E) as S.
  assert (B1 : forall hs, bad hs <= 1) by (intros hs; unfold bad; destruct (_ =? _); cbn; lia).
  assert (X : forall hs, hash_list 64 2 hs -> exists L, is_code_list 16 hs L /\ 2 - bad hs = N.of_nat (length L)).
  { intros hs Hh. destruct (pair_list 64 hs Hh) as (a & b & -> & _).
    destruct (code_list_two 16 a b) as (L & HL & EL). exists L. split; [exact HL|]. rewrite EL. unfold bad. cbn [nth].
    destruct (_ =? _); reflexivity. }
  specialize (S X).
  pose proof (sum_map_add _ (fun hs => 2 - bad hs) bad all) as A.
  rewrite (sum_map_ext _ (fun hs => 2 - bad hs + bad hs) (fun _ => 2)) in A by (intros hs _; specialize (B1 hs); lia).
  rewrite sum_le_const in A.
  assert (L : N.of_nat (length all) = 2 ^ (64 * N.of_nat 2)).
  { refine (size_of_unique _ (hash_list 64 2) _ _ _ (all_size 64 2)). exists all. auto. }
  rewrite L, S in A. clear - A.
  change (sum (map (fun hs => N.b2n (sparse_code 16 (nth 0 hs 0) =? sparse_code 16 (nth 1 hs 0))) all))
    with (sum (map bad all)).
  assert (V : 2 * 2 ^ (64 * N.of_nat 2) = (2 ^ 25 - 2 ^ 16) * (2 ^ (64 * N.of_nat 2) - (2 ^ 64 - 2 ^ 39) ^ N.of_nat 2)
    + 2 ^ 16 * sum (map (fun r => 2 ^ (64 * N.of_nat 2) - (2 ^ 64 - weight r) ^ N.of_nat 2) ranks) + code_failures)
    by (vm_compute; reflexivity).
  rewrite V in A. apply N.add_cancel_l in A. now symmetry.
Qed.

Lemma same_bucket_size :
  size_of (fun hs => exists a b, hs = [a; b] /\ hash_list 32 2 hs /\ (bucket 32 16 a =? bucket 32 16 b) = true) (2 ^ 48).
Proof.
  apply (pairs_size 32 (fun a b => bucket 32 16 a =? bucket 32 16 b)). intros all E.
  set (bad := fun hs : list N => N.b2n (bucket 32 16 (nth 0 hs 0) =? bucket 32 16 (nth 1 hs 0))).
  assert (F : register_files 32 16 2 (file_of 32 16)) by (apply file_of_files; discriminate).
  pose proof (expected_zeros 32 16 2 (file_of 32 16) all eq_refl F E) as S.
  assert (X : forall hs, In hs all -> zero_count (file_of 32 16 hs) = 65534 + bad hs).
  { intros hs Hh. apply E in Hh. pose proof (F hs Hh) as RF.
    destruct (pair_list 32 hs Hh) as (a & b & -> & _).
    assert (EN : enumerates (hit 32 16 [a; b])
      (if bucket 32 16 a =? bucket 32 16 b then [bucket 32 16 a] else [bucket 32 16 a; bucket 32 16 b])).
    { assert (I : forall z, hit 32 16 [a; b] z <-> z = bucket 32 16 a \/ z = bucket 32 16 b).
      { intros z. unfold hit. split.
        - intros (k & [<-|[<-|[]]] & <-); auto.
        - intros [->| ->]; [exists a|exists b]; split; auto; [now left|right; now left]. }
      destruct (N.eqb_spec (bucket 32 16 a) (bucket 32 16 b)) as [Q|Q]; split.
      - repeat constructor; auto.
      - intros z. rewrite I, Q. cbn. intuition.
      - repeat constructor; cbn; intuition.
      - intros z. rewrite I. cbn. intuition. }
    pose proof (zeros_exact 32 16 _ _ _ eq_refl (proj2 Hh) RF EN) as Z. unfold bad. cbn [nth].
    change (2 ^ 16) with 65536 in Z. destruct (_ =? _); cbn [length N.of_nat N.b2n] in *; lia. }
  rewrite (sum_map_ext _ _ _ all X), sum_map_add, sum_le_const in S.
  assert (L : N.of_nat (length all) = 2 ^ (32 * N.of_nat 2)).
  { refine (size_of_unique _ (hash_list 32 2) _ _ _ (all_size 32 2)). exists all. auto. }
  rewrite L in S. clear - S.
  change (sum (map (fun hs => N.b2n (bucket 32 16 (nth 0 hs 0) =? bucket 32 16 (nth 1 hs 0))) all))
    with (sum (map bad all)).
  assert (V : 2 ^ 16 * (2 ^ 32 - 2 ^ (32 - 16)) ^ N.of_nat 2 = 65534 * 2 ^ (32 * N.of_nat 2) + 2 ^ 48)
    by (vm_compute; reflexivity).
  rewrite V in S. now apply N.add_cancel_l in S.
Qed.

Lemma hash64_small : forall a, a < 2 ^ 64 -> hash64 (fun x => x) a = a.
Proof. intros a Ha. unfold hash64. now apply N.mod_small. Qed.

Theorem doc_plus_failures : forall e ord, build_std e -> accurate e -> is_order ord ->
  size_of (fun hs => exists a b, hs = [a; b] /\ hash_list 64 2 hs /\ ~ doc_plus e ord (fun x => x) a b) code_failures.
Proof.
  intros e ord Hb Ha Ho. eapply size_of_ext; [|exact same_code_size]. intros hs.
  split; intros (a & b & E & Hh & Q); exists a, b; (split; [exact E|split; [exact Hh|]]);
    destruct (pair_list 64 hs Hh) as (a' & b' & E' & La & Lb); rewrite E in E'; injection E' as <- <-;
    pose proof (doc_plus_iff N e ord (fun x => x) a b Hb Ha Ho) as I; rewrite !hash64_small in I by assumption.
  - apply N.eqb_eq in Q. tauto.
  - apply N.eqb_eq. destruct (N.eq_dec (sparse_code 16 a) (sparse_code 16 b)); tauto.
Qed.

Theorem doc_pf_failures : forall e, build e -> accurate e -> 32 < usize_bits e ->
  size_of (fun hs => exists a b, hs = [a; b] /\ hash_list 32 2 hs /\ ~ doc_pf e (fun x => x) a b) (2 ^ 48).
Proof.
  intros e Hb Ha Hu. eapply size_of_ext; [|exact same_bucket_size]. intros hs.
  split; intros (a & b & E & Hh & Q); exists a, b; (split; [exact E|split; [exact Hh|]]);
    destruct (pair_list 32 hs Hh) as (a' & b' & E' & La & Lb); rewrite E in E'; injection E' as <- <-;
    pose proof (doc_pf_iff N e (fun x => x) a b Hb Ha Hu) as I;
    (rewrite !hash64_small in I by (change (2 ^ 32) with 4294967296 in *; change (2 ^ 64) with 18446744073709551616; lia));
    rewrite !(N.mod_small _ (2 ^ 32)) in I by assumption.
  - apply N.eqb_eq in Q. tauto.
  - apply N.eqb_eq. destruct (N.eq_dec (bucket 32 16 a) (bucket 32 16 b)); tauto.
Qed.
