(** * Accuracy of the corrected estimate between 0.54m and 6.06m *)
From Coq Require Import NArith ZArith Reals List Bool Lia Lra.
From Flocq Require Import Core BinarySingleNaN.
From Verif Require Import ModelRust ModelF64 ModelEnv ModelConstants ModelHistory Spec SpecReal SpecCount SpecDist
  SpecProb SpecBuild BitFacts EncFacts CodeFacts AbsorbFacts DistFacts ProbFacts MomentFacts HarmonicNum
  PlusInv PFInv LinearFacts RawFacts FloatFacts SparseFacts MonoFacts ExtremeFacts ClaimFloat ClaimFacts ClaimDist
  BiasFacts BiasMono HarmonicMean AccFacts MeanTable MeanRows MeanSlope BiasCheck BiasSound.
Import ListNotations.
Local Open Scope R_scope.

Lemma zdiv_up : forall a b, (0 < b)%Z -> IZR a / IZR b <= IZR (a / b + 1).
Proof.
  intros a b Hb. pose proof (Z.div_mod a b ltac:(lia)) as E. pose proof (Z.mod_pos_bound a b Hb) as B.
  apply div_le; [now apply IZR_lt|]. rewrite <- mult_IZR. apply IZR_le. lia.
Qed.
Lemma zdiv_lo : forall a b, (0 < b)%Z -> IZR (a / b) <= IZR a / IZR b.
Proof.
  intros a b Hb. pose proof (Z.div_mod a b ltac:(lia)) as E. pose proof (Z.mod_pos_bound a b Hb) as B.
  apply div_ge; [now apply IZR_lt|]. rewrite <- mult_IZR. apply IZR_le. lia.
Qed.

Lemma alpha_frac : forall p, (10 <= p)%N -> alpha_R p = 7213 * m_R p / (10000 * m_R p + 10790).
Proof.
  intros p Hp. unfold alpha_R. destruct (N.eqb_spec p 4); [lia|]. destruct (N.eqb_spec p 5); [lia|].
  destruct (N.eqb_spec p 6); [lia|]. assert (0 < m_R p) by (apply pow2_pos; lia).
  replace 0.7213 with (7213 / 10000) by lra. replace 1.079 with (1079 / 1000) by lra. field. lra.
Qed.

(** Bounds of the raw estimate for a harmonic mean [mu], with the rounding of the code. *)
Lemma c_al_ok : forall p, (10 <= p)%N -> IZR (c_al p) <= alpha_R p * IZR (2 ^ 92) <= IZR (c_al p + 1).
Proof.
  intros p Hp. rewrite (alpha_frac p Hp). assert (P : (0 < 2 ^ Z.of_N p)%Z) by (apply Z.pow_pos_nonneg; lia).
  assert (D : (0 < 10000 * 2 ^ Z.of_N p + 10790)%Z) by lia. unfold c_al.
  pose proof (zdiv_up (7213 * 2 ^ Z.of_N p * 2 ^ 92) _ D) as A. pose proof (zdiv_lo (7213 * 2 ^ Z.of_N p * 2 ^ 92) _ D) as B.
  rewrite !mult_IZR, plus_IZR, mult_IZR in A, B. fold (m_R p) in A, B. apply IZR_lt in P. fold (m_R p) in P. change (IZR 0) with 0 in P.
  replace (7213 * m_R p / (10000 * m_R p + 10790) * IZR (2 ^ 92)) with (7213 * m_R p * IZR (2 ^ 92) / (10000 * m_R p + 10790)) by (field; lra).
  lra.
Qed.

Lemma scale_36 : IZR (2 ^ 92) = IZR U * IZR (2 ^ 36).
Proof. rewrite <- mult_IZR. reflexivity. Qed.

Lemma r_hi_ok : forall p a mu, (10 <= p)%N -> (0 < a)%Z -> IZR a / IZR (2 ^ 36) <= mu ->
  IZR U * alpha_R p / mu * (1 + / IZR (2 ^ 33)) <= IZR (r_hi (c_al p) a).
Proof.
  intros p a mu Hp Ha Hm. unfold r_hi. cbv zeta. set (r := ((c_al p + 1) / a + 1)%Z).
  pose proof (zdiv_up (c_al p + 1) a Ha) as R. fold r in R. destruct (c_al_ok p Hp) as [_ C]. rewrite scale_36 in C.
  assert (T : 0 < IZR (2 ^ 36)) by now apply IZR_lt. assert (U0 : 0 < IZR U) by now apply IZR_lt.
  assert (A0 : 0 < IZR a) by now apply IZR_lt.
  assert (A1 : 0 < IZR a / IZR (2 ^ 36)) by now apply Rdiv_lt_0_compat.
  assert (AL : 0 < alpha_R p) by (rewrite alpha_frac by exact Hp; assert (0 < m_R p) by (apply pow2_pos; lia); apply Rdiv_lt_0_compat; lra).
  assert (Q : IZR U * alpha_R p / mu <= IZR r).
  { eapply Rle_trans; [|exact R]. apply Rle_trans with (IZR U * alpha_R p / (IZR a / IZR (2 ^ 36))).
    - unfold Rdiv at 1 2. apply Rmult_le_compat_l; [apply Rmult_le_pos; lra|]. now apply Rinv_le_contravar.
    - replace (IZR U * alpha_R p / (IZR a / IZR (2 ^ 36))) with (alpha_R p * (IZR U * IZR (2 ^ 36)) / IZR a) by (field; lra).
      unfold Rdiv. apply Rmult_le_compat_r; [left; now apply Rinv_0_lt_compat|exact C]. }
  pose proof (shiftr_bounds r 33 ltac:(lia)) as [_ S]. rewrite !plus_IZR.
  change (IZR (2 ^ 33)) with 8589934592 in *. set (s := IZR (Z.shiftr r 33)) in *. clearbody s. clearbody r. lra.
Qed.

Lemma r_lo_ok : forall p a mu, (10 <= p)%N -> 0 < mu <= IZR a / IZR (2 ^ 36) ->
  IZR (r_lo (c_al p) a) <= IZR U * alpha_R p / mu * (1 - / IZR (2 ^ 33)).
Proof.
  intros p a mu Hp Hm. unfold r_lo. cbv zeta. set (r := (c_al p / a)%Z).
  assert (T : 0 < IZR (2 ^ 36)) by now apply IZR_lt. assert (U0 : 0 < IZR U) by now apply IZR_lt.
  assert (A1 : 0 < IZR a).
  { apply Rmult_lt_reg_r with (/ IZR (2 ^ 36)); [now apply Rinv_0_lt_compat|]. rewrite Rmult_0_l. unfold Rdiv in Hm. lra. }
  assert (Ha : (0 < a)%Z) by now apply lt_IZR.
  pose proof (zdiv_lo (c_al p) a Ha) as R. fold r in R. destruct (c_al_ok p Hp) as [C _]. rewrite scale_36 in C.
  assert (AL : 0 < alpha_R p) by (rewrite alpha_frac by exact Hp; assert (0 < m_R p) by (apply pow2_pos; lia); apply Rdiv_lt_0_compat; lra).
  assert (Q : IZR r <= IZR U * alpha_R p / mu).
  { eapply Rle_trans; [exact R|]. apply Rle_trans with (IZR U * alpha_R p / (IZR a / IZR (2 ^ 36))).
    - replace (IZR U * alpha_R p / (IZR a / IZR (2 ^ 36))) with (alpha_R p * (IZR U * IZR (2 ^ 36)) / IZR a) by (field; lra).
      unfold Rdiv. apply Rmult_le_compat_r; [left; now apply Rinv_0_lt_compat|exact C].
    - unfold Rdiv at 1 3. apply Rmult_le_compat_l; [apply Rmult_le_pos; lra|]. now apply Rinv_le_contravar. }
  pose proof (shiftr_bounds r 33 ltac:(lia)) as [_ S]. rewrite minus_IZR, plus_IZR.
  change (IZR (2 ^ 33)) with 8589934592 in *. set (s := IZR (Z.shiftr r 33)) in *. clearbody s. clearbody r. lra.
Qed.

Lemma spread_cell : forall c b a q mu, (0 < c)%Z -> (0 < a)%Z -> (b * 2 ^ 60 * c ^ 2 <= (c ^ 2 + q ^ 2) * a ^ 2)%Z ->
  IZR a / IZR (2 ^ 77) <= mu -> IZR b / IZR (2 ^ 94) <= (1 + (IZR q / IZR c) ^ 2) * (mu * mu).
Proof.
  intros c b a q mu C0 A0 A2 L. apply IZR_lt in A0, C0. change (IZR 0) with 0 in A0, C0. apply IZR_le in A2.
  rewrite !Z.pow_2_r in A2. repeat rewrite ?mult_IZR, ?plus_IZR in A2.
  set (x := IZR a) in *. set (y := IZR b) in *. set (w := IZR q) in *. set (k := IZR c) in *. clearbody x y w k.
  assert (E94 : IZR (2 ^ 94) * IZR (2 ^ 60) = IZR (2 ^ 77) * IZR (2 ^ 77)) by (rewrite <- !mult_IZR; reflexivity).
  assert (P94 : 0 < IZR (2 ^ 94)) by now apply IZR_lt. assert (P77 : 0 < IZR (2 ^ 77)) by now apply IZR_lt.
  assert (P60 : 0 < IZR (2 ^ 60)) by now apply IZR_lt.
  set (S := IZR (2 ^ 94)) in *. set (T := IZR (2 ^ 77)) in *. set (Q := IZR (2 ^ 60)) in *. clearbody S T Q.
  apply Rle_trans with ((1 + (w / k) ^ 2) * (x / T * (x / T))).
  - apply div_le; [exact P94|]. apply Rmult_le_reg_r with (Q * (k * k)); [apply Rmult_lt_0_compat; [lra|nra]|].
    replace ((1 + (w / k) ^ 2) * (x / T * (x / T)) * S * (Q * (k * k)))
      with ((k * k + w * w) * (x * x) * ((S * Q) / (T * T))) by (field; lra).
    rewrite E94. unfold Rdiv. rewrite Rinv_r by nra. lra.
  - apply Rmult_le_compat_l; [pose proof (pow2_ge_0 (w / k)); lra|].
    assert (0 < x / T) by (apply Rdiv_lt_0_compat; lra). nra.
Qed.

(** ** The tables *)
Section Tables.
Variable p : N.
Hypothesis Hp : (10 <= p <= 18)%N.
Hypothesis Hc : table_check p = true.
Variable K : nat.
Hypothesis HK : (17 <= K)%nat.
Let xs := reals (est_table p).
Let ys := reals (bias_table p).
Let k := scale p.

(** The raw estimate expected for [z] values per register. *)
Definition expected (z : R) : R := IZR U * alpha_R p / curve K z.

Lemma row_bounds : forall i a0 a1 z, row_ok (i, a0, a1) = true ->
  (IZR i / 262144 <= z -> curve K z <= IZR a1 / IZR (2 ^ 36)) /\
  (0 <= z <= IZR i / 262144 -> (0 < a0)%Z /\ IZR a0 / IZR (2 ^ 36) <= curve K z).
Proof.
  intros i a0 a1 z R. unfold row_ok in R. apply andb_true_iff in R. destruct R as [R R5].
  apply andb_true_iff in R. destruct R as [R R4]. apply andb_true_iff in R. destruct R as [R R3].
  apply andb_true_iff in R. destruct R as [R1 R2]. apply Z.ltb_lt in R1, R2. apply Z.leb_le in R3, R4, R5.
  assert (T : 0 < IZR (2 ^ 36)) by now apply IZR_lt.
  assert (T77 : IZR (2 ^ 77) = IZR (2 ^ 36) * IZR (2 ^ 41)) by (rewrite <- mult_IZR; reflexivity).
  assert (T41 : 0 < IZR (2 ^ 41)) by now apply IZR_lt. split.
  - intros L. destruct (blend_up i z K ltac:(lia) L HK) as [B _]. eapply Rle_trans; [exact B|].
    apply IZR_le in R5. rewrite mult_IZR in R5. rewrite T77. apply div_le; [nra|].
    replace (IZR a1 / IZR (2 ^ 36) * (IZR (2 ^ 36) * IZR (2 ^ 41))) with (IZR a1 * IZR (2 ^ 41)) by (field; lra). exact R5.
  - intros L. split; [exact R2|]. pose proof (blend_lo i z K ltac:(lia) R3 L) as B. eapply Rle_trans; [|exact B].
    apply IZR_le in R4. rewrite mult_IZR in R4. rewrite T77. apply div_ge; [nra|].
    replace (IZR a0 / IZR (2 ^ 36) * (IZR (2 ^ 36) * IZR (2 ^ 41))) with (IZR a0 * IZR (2 ^ 41)) by (field; lra). exact R4.
Qed.

Lemma rows_ok : forall r, In r rows -> row_ok r = true.
Proof. pose proof rows_run as R. rewrite forallb_forall in R. exact R. Qed.

(** The parts of the check. *)
Lemma table_parts : exists l, points p (est_table p) (bias_table p) = Some l /\ forallb seg_ok (track l) = true /\
  existsb top_at (track l) = true /\ (5 * U < r_lo (c_al p) (snd (last rows (0, 0, 0))))%Z /\
  exists i a0 a1 rs, rows = (i, a0, a1) :: rs /\ walk (c_al p) i a1 rs (track l) (track l) = true.
Proof.
  unfold table_check in Hc. destruct (points p (est_table p) (bias_table p)) as [l|]; [|discriminate].
  generalize dependent rows. intros rw H. destruct rw as [|[[i a0] a1] rs]; [discriminate|]. cbv zeta in H.
  apply andb_true_iff in H. destruct H as [H H4]. apply andb_true_iff in H. destruct H as [H H3].
  apply andb_true_iff in H. destruct H as [H1 H2]. apply Z.ltb_lt in H3.
  exists l. split; [reflexivity|]. split; [exact H1|]. split; [exact H2|]. split; [exact H3|]. exists i, a0, a1, rs. auto.
Qed.

Lemma rows_ends : exists i a0 a1, hd (0, 0, 0)%Z rows = (i, a0, a1) /\ IZR i / 262144 <= 0.4439 /\
  IZR (fst (fst (last rows (0, 0, 0)%Z))) / 262144 = 5.0927734375.
Proof. eexists _, _, _. split; [reflexivity|]. cbn [rows last fst]. split; lra. Qed.

Lemma rows_long : forall r rs, rows = r :: rs -> rs <> [] /\ last rows (0, 0, 0)%Z = last rs (0, 0, 0)%Z.
Proof.
  intros r rs E. assert (L : (2 <= length rows)%nat) by (vm_compute; lia). rewrite E in L. cbn [length] in L.
  rewrite E. destruct rs as [|a rs]; [cbn in L; lia|]. split; [discriminate|reflexivity].
Qed.

Lemma expected_pos : forall z, 0 < expected z.
Proof.
  intros z. unfold expected. apply Rdiv_lt_0_compat; [|apply curve_pos].
  apply Rmult_lt_0_compat; [now apply IZR_lt|]. pose proof (alpha_lower p ltac:(lia)). lra.
Qed.

(** Corrected, it is [z] up to 1%. *)
Lemma table_cell : forall z, 0.4439 <= z <= 5.0927734375 ->
  (forall r y, r * k <= expected z * (1 + / IZR (2 ^ 33)) -> interpolated xs ys r y -> (r - y) * k <= 1.01 * z * IZR U) /\
  (forall r y, expected z * (1 - / IZR (2 ^ 33)) <= r * k -> interpolated xs ys r y -> 0.99 * z * IZR U <= (r - y) * k) /\
  (z <= 4.695 -> expected z * (1 + / IZR (2 ^ 33)) < 5 * IZR U).
Proof.
  intros z Hz. destruct table_parts as (l & Hl & Hs & _ & _ & i & a0 & a1 & rs & Er & W).
  destruct rows_ends as (i' & a0' & a1' & E0 & B0 & B1). destruct (rows_long _ _ Er) as [N0 L0].
  pose proof rows_ok as RO. rewrite L0 in B1. rewrite Er in E0, RO. cbn [hd] in E0. injection E0 as <- <- <-.
  destruct (walk_ok l (c_al p) rs i a0 a1 (track l) (track l) (z * 262144) W (fun s H => H) (fun s H => H) N0 ltac:(lra))
    as (c & c0 & c1 & d & d0 & d1 & s & s' & Ic & Id & Hx & L1 & UN & Is & US & Is' & LS).
  assert (U0 : 0 < IZR U) by now apply IZR_lt.
  destruct (row_bounds c c0 c1 z (RO _ Ic)) as [RC _]. specialize (RC ltac:(lra)).
  destruct (row_bounds d d0 d1 z (RO _ (or_intror Id))) as [_ RD]. destruct (RD ltac:(lra)) as [D0 RD']. clear RD.
  pose proof (r_hi_ok p d0 (curve K z) ltac:(lia) D0 RD') as RH. fold (expected z) in RH.
  pose proof (r_lo_ok p c1 (curve K z) ltac:(lia) (conj (curve_pos K z) RC)) as RL. fold (expected z) in RL.
  assert (Hp' : (7 <= p <= 18)%N) by lia. split; [|split].
  - intros r y Hr I. eapply Rle_trans; [apply (up_at_ok p Hp' l Hl Hs c _ s r y Is US); [fold k; lra|exact I]|].
    apply Rmult_le_compat_r; lra.
  - intros r y Hr I. eapply Rle_trans; [|apply (lo_at_ok p Hp' l Hl Hs d _ s' r y Is' LS); [fold k; lra|exact I]].
    apply Rmult_le_compat_r; lra.
  - intros Z4. unfold under in UN. apply orb_true_iff in UN. destruct UN as [UN|UN].
    + apply Z.ltb_lt, IZR_lt in UN. rewrite mult_IZR in UN. lra.
    + apply Z.ltb_lt, IZR_lt in UN. lra.
Qed.

Lemma expected_mono : forall z z', z <= z' -> expected z <= expected z'.
Proof.
  intros z z' H. unfold expected, Rdiv. apply Rmult_le_compat_l.
  - apply Rmult_le_pos; [left; now apply IZR_lt|]. pose proof (alpha_lower p ltac:(lia)). lra.
  - apply Rinv_le_contravar; [apply curve_pos|now apply curve_decr].
Qed.

Lemma table_up : forall z r y, 0.4439 <= z -> r * k <= expected z * (1 + / IZR (2 ^ 33)) -> r * k <= 5 * IZR U ->
  interpolated xs ys r y -> (r - y) * k <= 1.01 * z * IZR U.
Proof.
  intros z r y Hz Hr R5 I. destruct (Rle_or_lt z 5.0927734375) as [L|L].
  - destruct (table_cell z (conj Hz L)) as [A _]. now apply A.
  - destruct table_parts as (l & Hl & Hs & HT & _). assert (Hp' : (7 <= p <= 18)%N) by lia.
    pose proof (top_at_ok p Hp' l Hl Hs r y HT R5 I) as T. fold k in T. assert (U0 : 0 < IZR U) by now apply IZR_lt.
    eapply Rle_trans; [exact T|]. apply Rmult_le_compat_r; lra.
Qed.

Lemma table_lo : forall z r y, 0.4439 <= z -> expected z * (1 - / IZR (2 ^ 33)) <= r * k -> r * k <= 5 * IZR U ->
  interpolated xs ys r y -> 0.99 * z * IZR U <= (r - y) * k.
Proof.
  intros z r y Hz Hr R5 I. destruct (Rle_or_lt z 5.0927734375) as [L|L].
  - destruct (table_cell z (conj Hz L)) as (_ & A & _). now apply A.
  - exfalso. destruct table_parts as (l & Hl & Hs & _ & T5 & i & a0 & a1 & rs & Er & _).
    destruct rows_ends as (_ & _ & _ & _ & _ & B1).
    assert (IL : In (last rows (0, 0, 0)%Z) rows).
    { destruct (rows_long _ _ Er) as [N0 L0]. rewrite L0, Er. right. clear - N0.
      induction rs as [|a rs IH]; [contradiction|]. destruct rs as [|b rs]; [now left|]. right. apply IH. discriminate. }
    pose proof (rows_ok _ IL) as RO. destruct (last rows (0, 0, 0)%Z) as [[e e0] e1]. cbn [fst snd] in *.
    destruct (row_bounds e e0 e1 z RO) as [RC _]. specialize (RC ltac:(lra)).
    pose proof (r_lo_ok p e1 (curve K z) ltac:(lia) (conj (curve_pos K z) RC)) as RL. fold (expected z) in RL.
    apply IZR_lt in T5. rewrite mult_IZR in T5. lra.
Qed.
End Tables.

(** ** The spread of the raw estimate *)
Lemma mean_curve : forall W p n, (4 <= p)%N -> let K := N.to_nat (W - p + 1) in
  curve K (INR n / m_R p * (1 + / m_R p)) <= mean W p n inv_pow2 <= curve K (INR n / m_R p).
Proof.
  intros W p n Hp K. rewrite (mean_blend W p n (/ 2) inv_pow2 inv_pow2_pow). split; apply blend_le; try lra; intros k _.
  - now apply below_lo.
  - now apply below_up.
Qed.

Lemma c_q_bounds : forall j, (100000 <= j)%Z -> (40000 <= c_q j <= 108544)%Z.
Proof.
  intros j Hj. unfold c_q. assert (390 <= j / 256)%Z by (apply Z.div_le_lower_bound; lia). lia.
Qed.

Lemma turn_test_ok : forall a x b c q, turn_test a x b c q = true ->
  (0 < a)%Z /\ (0 <= x)%Z /\ (b * 1024000 <= a * (1024000 - q))%Z /\
  (c * 2 ^ 60 * 102400 ^ 2 <= (102400 ^ 2 + q ^ 2) * a ^ 2)%Z.
Proof.
  intros a x b c q H. unfold turn_test in H. apply andb_true_iff in H. destruct H as [H H4]. apply andb_true_iff in H.
  destruct H as [H H3]. apply andb_true_iff in H. destruct H as [H1 H2]. apply Z.ltb_lt in H1. apply Z.leb_le in H2, H3, H4. auto.
Qed.

Lemma turn_arith : forall a b q T, 0 < T -> b * 1024000 <= a * (1024000 - q) -> b / T <= a / T * (1 - q / 102400 / 10).
Proof.
  intros a b q T HT H. apply div_le; [exact HT|].
  replace (a / T * (1 - q / 102400 / 10) * T) with (a * (1024000 - q) / 1024000) by (field; lra). lra.
Qed.

Lemma turn_parts : forall i j, turn_ok i j = true ->
  (0 < a_lo (c_next j))%Z /\ (0 <= x_lo (c_next j))%Z /\
  (a_up (i * 469 / 400) * 1024000 <= a_lo (c_next j) * (1024000 - c_q j))%Z /\
  (a2_up i * 2 ^ 60 * 102400 ^ 2 <= (102400 ^ 2 + c_q j ^ 2) * a_lo (c_next j) ^ 2)%Z.
Proof.
  intros i j. exact (turn_test_ok _ _ _ _ _).
Qed.

Section Cell.
Variable p : N.
Hypothesis Hp : (10 <= p <= 18)%N.
Variable n : nat.
Variables i j : Z.
Hypothesis Hi : (100000 <= i)%Z.
Hypothesis Hj : (100000 <= j <= 2000000)%Z.
Hypothesis HT : turn_ok i j = true.
Hypothesis Hx : IZR i / 262144 <= INR n / m_R p <= IZR j / 262144.
Variable t : R.
Hypothesis Ht0 : 0 < t <= / 10.
Variables q x y : R.
Hypothesis Eq : q = IZR (c_q j) / 102400.
Hypothesis Ex : x = INR n / m_R p.
Hypothesis Ey : y = x * (1 + / m_R p).

Lemma m_1024 : 1024 <= m_R p.
Proof. unfold m_R. rewrite two_pow. change 1024 with (bpow radix2 10). apply bpow_le. lia. Qed.

Lemma q_bounds : 0.39 <= q <= 1.06.
Proof. rewrite Eq. pose proof (c_q_bounds j (proj1 Hj)) as [A B]. apply IZR_le in A, B. lra. Qed.

Lemma qt_bounds : 0 < q * t <= 0.106.
Proof.
  pose proof q_bounds as Q. split; [apply Rmult_lt_0_compat; lra|].
  apply Rle_trans with (1.06 * / 10); [apply Rmult_le_compat; lra|lra].
Qed.

Variable K : nat.
Hypothesis EK : K = N.to_nat (64 - p + 1).

Lemma x_pos : 0.38 <= x /\ x <= y.
Proof.
  pose proof m_1024 as M. assert (0 < / m_R p) by (apply Rinv_0_lt_compat; lra).
  apply IZR_le in Hi. rewrite <- Ex in Hx. assert (0.38 <= x) by lra. split; [exact H0|]. rewrite Ey. nra.
Qed.

Lemma y_next : y <= IZR (c_next j) / 262144.
Proof.
  pose proof m_1024 as M. pose proof (Rinv_le_contravar 1024 (m_R p) ltac:(lra) M) as J.
  unfold c_next. pose proof (zdiv_up j 1024 ltac:(lia)) as Z. rewrite plus_IZR.
  pose proof x_pos as [X _]. rewrite <- Ex in Hx. rewrite Ey.
  apply Rle_trans with (x * (1 + / 1024)); [apply Rmult_le_compat_l; lra|]. lra.
Qed.

Lemma curve_above : forall z, x <= z <= y -> IZR (a_lo (c_next j)) / IZR (2 ^ 77) <= curve K z.
Proof.
  intros z Hz. destruct (turn_parts i j HT) as (A0 & XL & _). pose proof y_next as Y. pose proof x_pos as [X _].
  apply blend_lo; [unfold c_next; assert (0 <= j / 1024)%Z by (apply Z.div_pos; lia); lia|exact XL|lra].
Qed.

Lemma mean_above : IZR (a_lo (c_next j)) / IZR (2 ^ 77) <= mean 64 p n inv_pow2.
Proof.
  destruct (mean_curve 64 p n ltac:(lia)) as [L _]. eapply Rle_trans; [|exact L].
  rewrite <- EK, <- Ex, <- Ey. apply curve_above. pose proof x_pos. lra.
Qed.

(** The curve falls fast enough. *)
Lemma curve_turn : forall z, x <= z <= y -> curve K (z * 1.1725) <= curve K z * (1 - q / 10).
Proof.
  intros z Hz. destruct (turn_parts i j HT) as (A0 & _ & A1 & _). pose proof (curve_above z Hz) as L. pose proof q_bounds as Q.
  assert (D : IZR (i * 469 / 400) / 262144 <= z * 1.1725).
  { pose proof (zdiv_lo (i * 469) 400 ltac:(lia)) as Z. rewrite mult_IZR in Z. rewrite <- Ex in Hx. lra. }
  assert (D0 : (0 <= i * 469 / 400)%Z) by (apply Z.div_pos; lia).
  destruct (blend_up _ _ K D0 D ltac:(lia)) as [B _]. fold (curve K (z * 1.1725)) in B.
  eapply Rle_trans; [exact B|].
  apply Rle_trans with (IZR (a_lo (c_next j)) / IZR (2 ^ 77) * (1 - q / 10)); [|apply Rmult_le_compat_r; lra].
  assert (T : 0 < IZR (2 ^ 77)) by now apply IZR_lt. apply IZR_le in A1. rewrite !mult_IZR, minus_IZR in A1.
  rewrite Eq. exact (turn_arith _ _ _ _ T A1).
Qed.

Lemma mean_pos : 0 < mean 64 p n inv_pow2.
Proof.
  eapply Rlt_le_trans; [|exact mean_above]. destruct (turn_parts i j HT) as (A0 & _).
  apply Rdiv_lt_0_compat; apply IZR_lt; [exact A0|reflexivity].
Qed.

Lemma spread_bound : mean 64 p n (fun v => inv_pow2 v * inv_pow2 v) <=
  (1 + q ^ 2) * (mean 64 p n inv_pow2 * mean 64 p n inv_pow2).
Proof.
  destruct (turn_parts i j HT) as (A0 & _ & _ & A2). pose proof mean_above as L.
  destruct (mean_le 64 p n ltac:(lia) ltac:(lia) i ltac:(lia) (proj1 Hx)) as [_ U2].
  eapply Rle_trans; [exact U2|]. rewrite Eq. exact (spread_cell 102400 _ _ _ _ ltac:(lia) A0 A2 L).
Qed.

(** The raw estimate lies between those expected for [x (1 - 1.725 t)] and [y (1 + 1.725 t)] values per register. *)
Lemma raw_range : forall hs fl raw, hash_list 64 n hs -> is_register_file 64 p hs fl -> ~ rare_harmonic 64 p n (q * t) hs ->
  approx (/ IZR (2 ^ 33)) raw (raw_R p fl) ->
  expected p K (x * (1 - 1.725 * t)) * (1 - / IZR (2 ^ 33)) <= raw * scale p <=
  expected p K (y * (1 + 1.725 * t)) * (1 + / IZR (2 ^ 33)).
Proof.
  intros hs fl raw HH RF NF A. pose proof mean_pos as M. pose proof q_bounds as Q. pose proof x_pos as [X0 XY].
  unfold rare_harmonic in NF.
  rewrite (is_register_file_unique 64 p hs _ fl ltac:(lia) (file_of_ok 64 p hs ltac:(lia) (proj2 HH)) RF) in NF.
  apply Rnot_le_lt, Rabs_lt_inv in NF. pose proof (file_inv_pos _ _ _ _ RF) as P.
  destruct (mean_curve 64 p n ltac:(lia)) as [ML MU]. rewrite <- EK, <- Ex in ML, MU. rewrite <- Ey in ML.
  pose proof (turn_down K x q (curve_turn x ltac:(lra)) t ltac:(lra)) as TD.
  pose proof (turn_up K y q (curve_turn y ltac:(lra)) t ltac:(lra)) as TU.
  pose proof (curve_pos K (x * (1 - 1.725 * t))) as C1. pose proof (curve_pos K (y * (1 + 1.725 * t))) as C2.
  unfold expected. set (mu := mean 64 p n inv_pow2) in *.
  set (cl := curve K (x * (1 - 1.725 * t))) in *. set (cu := curve K (y * (1 + 1.725 * t))) in *.
  assert (AL : 0 < alpha_R p) by (pose proof (alpha_lower p ltac:(lia)); lra).
  pose proof qt_bounds as QT. set (d := q * t) in *.
  assert (Hm : 0 < m_R p) by (apply pow2_pos; lia).
  assert (ER : raw_R p fl * scale p = IZR U * alpha_R p / (inv_sum fl / m_R p)).
  { unfold raw_R. rewrite <- (scale_m p). field. lra. }
  assert (Rp : 0 < raw_R p fl) by (unfold raw_R; apply Rdiv_lt_0_compat; [repeat apply Rmult_lt_0_compat|]; assumption).
  unfold approx in A. rewrite (Rabs_pos_eq (raw_R p fl)) in A by lra. apply Rabs_le_inv in A.
  assert (SK : 0 < scale p) by apply scale_pos.
  assert (S1 : inv_sum fl / m_R p <= cl).
  { apply div_le; [exact Hm|]. apply Rle_trans with (m_R p * (mu * (1 + d))); [lra|]. rewrite (Rmult_comm cl). apply Rmult_le_compat_l; [lra|].
    eapply Rle_trans; [|exact TD]. apply Rmult_le_compat_r; lra. }
  assert (S2 : cu <= inv_sum fl / m_R p).
  { apply div_ge; [exact Hm|]. apply Rle_trans with (m_R p * (mu * (1 - d))); [|lra]. rewrite (Rmult_comm cu). apply Rmult_le_compat_l; [lra|].
    eapply Rle_trans; [exact TU|]. apply Rmult_le_compat_r; lra. }
  assert (S0 : 0 < inv_sum fl / m_R p) by (apply Rdiv_lt_0_compat; assumption).
  assert (UA : 0 < IZR U * alpha_R p) by (apply Rmult_lt_0_compat; [now apply IZR_lt|exact AL]).
  set (e := / IZR (2 ^ 33)) in *. assert (E : 0 < e < 0.001) by (unfold e; change (IZR (2 ^ 33)) with 8589934592; lra).
  assert (R1 : IZR U * alpha_R p / cl <= raw_R p fl * scale p).
  { rewrite ER. unfold Rdiv at 1 2. apply Rmult_le_compat_l; [lra|]. now apply Rinv_le_contravar. }
  assert (R2 : raw_R p fl * scale p <= IZR U * alpha_R p / cu).
  { rewrite ER. unfold Rdiv at 1 3. apply Rmult_le_compat_l; [lra|]. now apply Rinv_le_contravar. }
  set (r := raw_R p fl) in *. set (L := IZR U * alpha_R p / cl) in *. set (H := IZR U * alpha_R p / cu) in *.
  set (sc := scale p) in *. clearbody e r L H sc. split.
  - apply Rle_trans with (r * sc * (1 - e)); [apply Rmult_le_compat_r; lra|].
    replace (r * sc * (1 - e)) with (r * (1 - e) * sc) by ring. apply Rmult_le_compat_r; lra.
  - apply Rle_trans with (r * sc * (1 + e)); [|apply Rmult_le_compat_r; lra].
    replace (r * sc * (1 + e)) with (r * (1 + e) * sc) by ring. apply Rmult_le_compat_r; lra.
Qed.
End Cell.

(** ** The corrected estimate *)
Theorem corrected_q : forall p n, (10 <= p <= 18)%N -> table_check p = true -> 0.5391 * m_R p <= INR n <= 6.06 * m_R p ->
  exists q, 0.39 <= q <= 1.06 /\ 0 < mean 64 p n inv_pow2 /\
  mean 64 p n (fun v => inv_pow2 v * inv_pow2 v) <= (1 + q ^ 2) * (mean 64 p n inv_pow2 * mean 64 p n inv_pow2) /\
  forall t hs fl c, 0 < t <= / 10 -> hash_list 64 n hs -> is_register_file 64 p hs fl -> ~ rare_harmonic 64 p n (q * t) hs ->
  corrected_R (reals (est_table p)) (reals (bias_table p)) p fl c ->
  INR n * (0.989 - 1.75 * t) <= c <= INR n * (1.011 + 1.75 * t).
Proof.
  intros p n Hp TC Hn. pose proof (m_1024 p Hp) as M.
  set (x := INR n / m_R p). assert (Ex : INR n = m_R p * x) by (unfold x; field; lra).
  assert (Hx : 0.5391 <= x <= 6.06) by (unfold x; split; [apply div_ge|apply div_le]; lra).
  destruct (turns_cover x ltac:(lra)) as (i & j & HT & Hi & Hj & Hij).
  set (q := IZR (c_q j) / 102400). pose proof (q_bounds j Hj q eq_refl) as Q.
  exists q. split; [exact Q|].
  split; [apply (mean_pos p Hp n i j Hi Hj HT Hij x _ eq_refl eq_refl _ eq_refl)|].
  split; [apply (spread_bound p Hp n i j Hi Hj HT Hij q x _ eq_refl eq_refl eq_refl _ eq_refl)|].
  intros t hs fl c Ht HH RF NF (raw & A & C).
  pose proof (raw_range p Hp n i j Hi Hj HT Hij t Ht q x _ eq_refl eq_refl eq_refl _ eq_refl hs fl raw HH RF NF A) as RR.
  set (K := N.to_nat (64 - p + 1)) in *. assert (HK : (17 <= K)%nat) by (unfold K; lia).
  set (y := x * (1 + / m_R p)) in *.
  assert (J : 0 < / m_R p <= / 1024) by (split; [apply Rinv_0_lt_compat|apply Rinv_le_contravar]; lra).
  assert (Y : x <= y <= x * (1 + / 1024)) by (unfold y; split; [|apply Rmult_le_compat_l; lra]; nra).
  assert (K0 : 0 < scale p) by apply scale_pos. pose proof (scale_m p) as SM.
  destruct C as [[C ->]|(C & y0 & I & D)].
  - assert (C' : 5 * IZR U < raw * scale p) by (rewrite <- SM; nra).
    assert (H4 : 4 * m_R p <= INR n).
    { apply Rnot_lt_le. intros L. assert (x < 4).
      { unfold x. apply Rmult_lt_reg_r with (m_R p); [lra|]. unfold Rdiv. rewrite Rmult_assoc, Rinv_l by lra. lra. }
      assert (Z : 0.4439 <= y * (1 + 1.725 * t) <= 4.695) by (split; nra).
      destruct (table_cell p Hp TC K HK (y * (1 + 1.725 * t)) ltac:(lra)) as (_ & _ & TL). specialize (TL (proj2 Z)). lra. }
    pose proof (qt_bounds j Hj t Ht q eq_refl) as QT.
    pose proof (raw_bounds 64 p n (q * t) hs fl ltac:(lia) ltac:(lia) H4) as RB.
    pose proof (m_R_bounds p ltac:(lia) ltac:(lia)) as MB.
    assert (B : INR n <= IZR (2 ^ Z.of_N 64) / 32).
    { change (IZR (2 ^ Z.of_N 64)) with 18446744073709551616. lra. }
    specialize (RB B ltac:(lra) HH RF NF).
    assert (T2 : q * t <= 1.06 * t) by (apply Rmult_le_compat_r; lra).
    set (d := q * t) in *. clearbody d.
    pose proof (within_10 p (INR n) d (/ 1000000) Hp ltac:(lra) (pos_INR n) ltac:(lra)) as [W1 W2].
    unfold approx in A. assert (R0 : 0 < raw_R p fl).
    { unfold raw_R. pose proof (alpha_lower p ltac:(lia)). pose proof (file_inv_pos _ _ _ _ RF).
      apply Rdiv_lt_0_compat; [repeat apply Rmult_lt_0_compat; lra|assumption]. }
    rewrite (Rabs_pos_eq (raw_R p fl)) in A by lra. apply Rabs_le_inv in A. change (IZR (2 ^ 33)) with 8589934592 in A.
    assert (N0 : 0 < INR n) by nra.
    assert (I1 : 1 - d <= / (1 + d)).
    { apply Rmult_le_reg_r with (1 + d); [lra|]. rewrite Rinv_l by lra. nra. }
    assert (I2 : / (1 - d) <= 1 + 1.12 * d).
    { apply Rmult_le_reg_r with (1 - d); [lra|]. rewrite Rinv_l by lra. nra. }
    assert (B1 : INR n * (0.996 * (1 - d)) <= 0.996 * INR n / (1 + d)).
    { unfold Rdiv. replace (0.996 * INR n * / (1 + d)) with (INR n * (0.996 * / (1 + d))) by ring.
      apply Rmult_le_compat_l; lra. }
    assert (B2 : 1.004 * INR n / (1 - d) <= INR n * (1.004 * (1 + 1.12 * d))).
    { unfold Rdiv. replace (1.004 * INR n * / (1 - d)) with (INR n * (1.004 * / (1 - d))) by ring.
      apply Rmult_le_compat_l; lra. }
    set (lo := alpha_R p / 0.7229 * INR n / (1 + d)) in *.
    set (hi := alpha_R p * (1 + / m_R p) / 0.7190 * INR n / (1 - d)) in *.
    set (N := INR n) in *. set (r := raw_R p fl) in *. clearbody lo hi N r. split.
    + apply Rle_trans with (N * (0.996 * (1 - d))); [apply Rmult_le_compat_l; lra|]. lra.
    + apply Rle_trans with (N * (1.004 * (1 + 1.12 * d))); [lra|]. apply Rmult_le_compat_l; lra.
  - assert (C' : raw * scale p <= 5 * IZR U) by (rewrite <- SM; nra).
    assert (R0 : 0 <= raw).
    { unfold approx in A. assert (R0 : 0 < raw_R p fl).
      { unfold raw_R. pose proof (alpha_lower p ltac:(lia)). pose proof (file_inv_pos _ _ _ _ RF).
        apply Rdiv_lt_0_compat; [repeat apply Rmult_lt_0_compat; lra|assumption]. }
      rewrite (Rabs_pos_eq (raw_R p fl)) in A by lra. apply Rabs_le_inv in A. change (IZR (2 ^ 33)) with 8589934592 in A. lra. }
    assert (LZ : 0.4439 <= x * (1 - 1.725 * t)).
    { apply Rle_trans with (0.5391 * (1 - 1.725 * / 10)); [lra|]. apply Rmult_le_compat; lra. }
    assert (UZ : 0.4439 <= y * (1 + 1.725 * t)) by nra.
    pose proof (table_up p Hp TC K HK _ raw y0 UZ (proj2 RR) C' I) as UP.
    pose proof (table_lo p Hp TC K HK _ raw y0 LZ (proj1 RR) C' I) as LO.
    assert (U0 : 0 < IZR U) by now apply IZR_lt.
    assert (UP2 : (raw - y0) * scale p <= IZR U * x * (1.01099 + 1.745 * t)).
    { eapply Rle_trans; [exact UP|]. replace (1.01 * (y * (1 + 1.725 * t)) * IZR U) with (IZR U * (y * (1.01 * (1 + 1.725 * t)))) by ring.
      rewrite Rmult_assoc. apply Rmult_le_compat_l; [lra|].
      apply Rle_trans with (x * (1 + / 1024) * (1.01 * (1 + 1.725 * t))); [apply Rmult_le_compat_r; lra|].
      rewrite Rmult_assoc. apply Rmult_le_compat_l; lra. }
    assert (LO2 : IZR U * x * (0.99 - 1.725 * t) <= (raw - y0) * scale p).
    { eapply Rle_trans; [|exact LO]. replace (0.99 * (x * (1 - 1.725 * t)) * IZR U) with (IZR U * x * (0.99 * (1 - 1.725 * t))) by ring.
      apply Rmult_le_compat_l; [apply Rmult_le_pos; lra|]. lra. }
    rewrite <- SM in UP2, LO2. clear UP LO.
    assert (UP' : raw - y0 <= INR n * (1.01099 + 1.745 * t)).
    { apply Rmult_le_reg_r with (1 := K0). rewrite Ex. lra. }
    assert (LO' : INR n * (0.99 - 1.725 * t) <= raw - y0).
    { apply Rmult_le_reg_r with (1 := K0). rewrite Ex. lra. }
    apply Rabs_le_inv in D. change (IZR (2 ^ 28)) with 268435456 in D.
    assert (N0 : 500 <= INR n) by lra. set (N := INR n) in *. clearbody N.
    assert (NT : 0 <= N * t) by (apply Rmult_le_pos; lra). split; lra.
Qed.

Theorem corrected_accurate : forall p n t, (10 <= p <= 18)%N -> table_check p = true -> 0 < t <= / 10 ->
  0.5391 * m_R p <= INR n <= 6.06 * m_R p ->
  exists q, 0.34 <= q <= 1.06 /\ rare 64 n (/ (m_R p * t ^ 2)) (rare_harmonic 64 p n (q * t)) /\
  forall hs fl c, hash_list 64 n hs -> is_register_file 64 p hs fl -> ~ rare_harmonic 64 p n (q * t) hs ->
  corrected_R (reals (est_table p)) (reals (bias_table p)) p fl c ->
  INR n * (0.989 - 1.75 * t) <= c <= INR n * (1.011 + 1.75 * t).
Proof.
  intros p n t Hp TC Ht Hn. destruct (corrected_q p n Hp TC Hn) as (q & Q & P & V & C). exists q. split; [lra|]. split.
  - apply (harmonic_spread_q 64 p n ltac:(lia) ltac:(lia) q t ltac:(lra) ltac:(lra) P V). apply file_of_files. lia.
  - intros hs fl c. apply (C t hs fl c Ht).
Qed.
