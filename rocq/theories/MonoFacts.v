(** * Monotonicity of the estimates *)
From Coq Require Import NArith ZArith Reals Lra Lia List Bool Sorted.
From Flocq Require Import Core BinarySingleNaN.
From Verif Require Import IntervalZ.
From Verif Require Import ModelRust ModelF64 ModelEnv ModelRegisters ModelCommon ModelPF ModelPlus
  ModelHistory Spec SpecReal SpecCount SpecBuild BitFacts RegFacts EncFacts CodeFacts AbsorbFacts
  F64Facts LogAccuracy LinearFacts RawFacts BiasFacts PFInv PlusInv FloatFacts PFFloat PFExact ClaimFloat.
Import ListNotations.
Local Open Scope R_scope.
Local Notation ln := Rpower.ln.

(** ** Linear counting *)
Lemma linear_gap : forall m v w, (1 <= v)%N -> (v < w)%N -> (w <= m)%N ->
  linear_R m w + 1 <= linear_R m v.
Proof.
  intros m v w Hv Hw Hm. unfold linear_R.
  assert (V : 1 <= IZR (Z.of_N v)) by (apply N_R; lia).
  assert (W : IZR (Z.of_N v) + 1 <= IZR (Z.of_N w)).
  { rewrite <- plus_IZR. apply IZR_le. lia. }
  assert (M : IZR (Z.of_N w) <= IZR (Z.of_N m)) by (apply IZR_le; lia).
  set (a := IZR (Z.of_N v)) in *. set (b := IZR (Z.of_N w)) in *. set (c := IZR (Z.of_N m)) in *.
  clearbody a b c.
  assert (L : ln (c / a) = ln (c / b) + ln (b / a)).
  { rewrite <- ln_mult by (apply Rdiv_lt_0_compat; lra). f_equal. field. lra. }
  pose proof (ln_low b a ltac:(lra) ltac:(lra)) as B. rewrite L, Rmult_plus_distr_l.
  apply Rplus_le_compat_l. apply Rle_trans with (c * / b).
  - apply Rmult_le_reg_r with b; [lra|]. rewrite Rmult_assoc, Rinv_l; lra.
  - apply Rmult_le_compat_l; lra.
Qed.

Lemma linear_R_max : forall m v, (1 <= v)%N -> (v <= m)%N -> (m <= 2 ^ 24)%N ->
  0 <= linear_R m v <= 16777216 * 17.
Proof.
  intros m v Hv Hm H24. split.
  - apply Rle_trans with (linear_R m m); [|apply linear_mono; lia].
    unfold linear_R, Rdiv. assert (1 <= IZR (Z.of_N m)) by (apply N_R; lia).
    rewrite Rinv_r, ln_1 by lra. lra.
  - apply Rle_trans with (linear_R m 1); [apply linear_mono; lia|].
    unfold linear_R. change (IZR (Z.of_N 1)) with 1. unfold Rdiv. rewrite Rinv_1, Rmult_1_r.
    assert (1 <= IZR (Z.of_N m)) by (apply N_R; lia).
    assert (IZR (Z.of_N m) <= 16777216).
    { apply IZR_le. change (2 ^ 24)%N with 16777216%N in H24. lia. }
    assert (U : ln (IZR (Z.of_N m)) <= ln 16777216) by (apply LinearFacts.ln_le; lra).
    assert (ln 16777216 <= 17) by (bound_const 60%Z).
    assert (0 <= ln (IZR (Z.of_N m))) by (rewrite <- ln_1; apply LinearFacts.ln_le; lra). nra.
Qed.

Lemma linear_count_mono : forall e m v w c d, accurate e ->
  (1 <= v)%N -> (v <= w)%N -> (w <= m)%N -> (m <= 2 ^ 24)%N ->
  linear_count e m w = Ret c -> linear_count e m v = Ret d ->
  fin c /\ fin d /\ val c <= val d.
Proof.
  intros e m v w c d Ha Hv Hw Hm H24 Ec Ed.
  destruct (linear_ok e m w Ha ltac:(lia) Hm H24) as (c' & Ec' & Fc & _ & _ & Bc & _).
  destruct (linear_ok e m v Ha Hv ltac:(lia) H24) as (d' & Ed' & Fd & _ & _ & Bd & _).
  rewrite Ec in Ec'. injection Ec' as <-. rewrite Ed in Ed'. injection Ed' as <-.
  split; [auto|]. split; [auto|].
  destruct (N.eq_dec v w) as [->|Ne]. { rewrite Ec in Ed. injection Ed as ->. lra. }
  pose proof (linear_gap m v w Hv ltac:(lia) Hm) as G.
  pose proof (linear_R_max m w ltac:(lia) Hm H24). pose proof (linear_R_max m v Hv ltac:(lia) H24).
  assert (1 <= IZR (Z.of_N m) <= 16777216).
  { split; [apply N_R; lia|]. apply IZR_le. change (2 ^ 24)%N with 16777216%N in H24. lia. }
  rewrite u_val in *. change (bpow radix2 (-49)) with (/ 562949953421312) in *.
  apply Rabs_le_inv in Bc. apply Rabs_le_inv in Bd. lra.
Qed.

(** ** The raw estimate *)
Lemma invf_mono : forall v w, (v <= w)%N -> (w <= 1000)%N -> val (invf w) <= val (invf v).
Proof.
  intros v w Hv Hw. destruct (invf_is v ltac:(lia)) as [_ ->]. destruct (invf_is w Hw) as [_ ->].
  rewrite !two_pow, <- !bpow_opp. apply bpow_le. lia.
Qed.

Lemma fsum_bounded : forall l k acc, Forall (fun v => (v < 64)%N) l -> fin acc ->
  (Z.of_nat k + Z.of_nat (length l) <= 2 ^ 53)%Z -> 0 <= val acc <= INR k ->
  fin (fsum acc l) /\ 0 <= val (fsum acc l) <= INR (k + length l).
Proof.
  induction l as [|v l IH]; intros k acc Hl Hf Hk Hr.
  - simpl. rewrite Nat.add_0_r. auto.
  - apply Forall_cons_iff in Hl. destruct Hl as [Hv Hl]. cbn [length fsum fold_left].
    fold (fsum (fadd acc (invf v)) l). cbn [length] in Hk.
    destruct (invf_is v ltac:(lia)) as [Fx Vx].
    pose proof (inv_pow_pos v) as Px. pose proof (inv_pow_le1 v) as P1. rewrite <- Vx in Px, P1.
    assert (Hfm : INR (S k) <= bpow radix2 53).
    { rewrite INR_IZR_INZ. rewrite <- (IZR_Zpower radix2 53) by lia. apply IZR_le. cbn [radix_val radix2].
      lia. }
    rewrite S_INR in Hfm.
    destruct (fadd_is acc (invf v) Hf Fx) as [Fa Va].
    { rewrite Rabs_pos_eq by lra. apply Rle_trans with (bpow radix2 53); [lra|]. apply bpow_le. lia. }
    destruct (IH (S k) (fadd acc (invf v)) Hl Fa ltac:(lia)) as [A B].
    { rewrite Va. split.
      - rewrite <- rnd_0. apply rnd_le. lra.
      - rewrite <- (rnd_generic (INR (S k))).
        + apply rnd_le. rewrite S_INR. lra.
        + rewrite INR_IZR_INZ. apply int_generic. rewrite Z.abs_eq; lia. }
    split; [auto|]. replace (k + S (length l))%nat with (S k + length l)%nat by lia. exact B.
Qed.

Lemma fsum_mono : forall l l' k acc acc', Forall2 N.le l l' -> Forall (fun v => (v < 64)%N) l' ->
  fin acc -> fin acc' -> (Z.of_nat k + Z.of_nat (length l) <= 2 ^ 53)%Z ->
  0 <= val acc <= INR k -> 0 <= val acc' <= INR k -> val acc' <= val acc ->
  val (fsum acc' l') <= val (fsum acc l).
Proof.
  intros l l' k acc acc' H. revert k acc acc'.
  induction H as [|v w l l' Hv HH IH]; intros k acc acc' Hl Hf Hf' Hk Hr Hr' Hle; [auto|].
  apply Forall_cons_iff in Hl. destruct Hl as [Hw Hl]. cbn [fsum fold_left].
  fold (fsum (fadd acc (invf v)) l). fold (fsum (fadd acc' (invf w)) l'). cbn [length] in Hk.
  pose proof (invf_mono v w Hv ltac:(lia)) as IM.
  destruct (invf_is v ltac:(lia)) as [Fx Vx]. destruct (invf_is w ltac:(lia)) as [Fy Vy].
  pose proof (inv_pow_pos v) as Px. pose proof (inv_pow_le1 v) as P1. rewrite <- Vx in Px, P1.
  pose proof (inv_pow_pos w) as Qx. pose proof (inv_pow_le1 w) as Q1. rewrite <- Vy in Qx, Q1.
  destruct (fsum_bounded [v] k acc) as [Fa Ba]; auto; [repeat constructor; lia|cbn [length]; lia|].
  destruct (fsum_bounded [w] k acc') as [Fb Bb]; auto; [cbn [length]; lia|].
  cbn [fsum fold_left length] in Fa, Ba, Fb, Bb. rewrite Nat.add_1_r in Ba, Bb.
  apply (IH (S k)); auto; [lia|].
  assert (Hfm : INR (S k) <= bpow radix2 53).
  { rewrite INR_IZR_INZ. rewrite <- (IZR_Zpower radix2 53) by lia. apply IZR_le. cbn [radix_val radix2].
    lia. }
  rewrite S_INR in Hfm.
  destruct (fadd_is acc (invf v) Hf Fx) as [_ Va].
  { rewrite Rabs_pos_eq by lra. apply Rle_trans with (bpow radix2 53); [lra|]. apply bpow_le. lia. }
  destruct (fadd_is acc' (invf w) Hf' Fy) as [_ Vb].
  { rewrite Rabs_pos_eq by lra. apply Rle_trans with (bpow radix2 53); [lra|]. apply bpow_le. lia. }
  rewrite Va, Vb. apply rnd_le. lra.
Qed.

Lemma num_is : forall p, (4 <= p <= 18)%N ->
  fin (fmul (alpha (2 ^ p)) (of_N (2 ^ p * 2 ^ p))) /\
  0 < val (fmul (alpha (2 ^ p)) (of_N (2 ^ p * 2 ^ p))) <= bpow radix2 40.
Proof.
  intros p [H4 H18]. destruct (alpha_pow2 p H4 H18) as (FA & RA & HA).
  pose proof (m_R_bounds p H4 H18) as Hm.
  assert (E2 : is (of_N (2 ^ p * 2 ^ p)) (m_R p * m_R p)).
  { rewrite <- N.pow_add_r. unfold m_R. rewrite two_pow, <- bpow_plus.
    replace (Z.of_N p + Z.of_N p)%Z with (Z.of_N (p + p)) by lia. apply of_N_pow2. lia. }
  destruct E2 as [F2 V2].
  pose proof (rel_bounds _ _ _ RA ltac:(lra)) as BA. rewrite u_val in BA.
  assert (Hmm : 256 <= m_R p * m_R p <= 68719476736) by nra.
  assert (B1 : 64 <= val (alpha (2 ^ p)) * val (of_N (2 ^ p * 2 ^ p)) <= bpow radix2 38).
  { rewrite V2. change (bpow radix2 38) with 274877906944. nra. }
  destruct (fmul_is (alpha (2 ^ p)) (of_N (2 ^ p * 2 ^ p))) as [F3 V3]; auto.
  { rewrite Rabs_pos_eq by lra. apply Rle_trans with (bpow radix2 38); [lra|]. apply bpow_le. lia. }
  split; [exact F3|]. rewrite V3. split.
  - apply Rlt_le_trans with (bpow radix2 5); [apply bpow_gt_0|]. apply rnd_ge_bpow; [lia|].
    change (bpow radix2 5) with 32. lra.
  - apply Rle_trans with (bpow radix2 38); [|apply bpow_le; lia]. apply rnd_le_bpow; [lia|]. lra.
Qed.

Lemma raw_f_mono : forall e p l l', build e -> (4 <= p <= 18)%N ->
  N.of_nat (length l) = (2 ^ p)%N -> N.of_nat (length l') = (2 ^ p)%N ->
  Forall2 N.le l l' -> Forall (fun v => (v < 64)%N) l' ->
  val (raw_f e p l) <= val (raw_f e p l').
Proof.
  intros e p l l' Hb Hp HL HL' H2 Hl'.
  assert (Hl : Forall (fun v => (v < 64)%N) l).
  { clear - H2 Hl'. induction H2; constructor; inversion Hl'; subst; auto. lia. }
  assert (L18 : (Z.of_nat (length l) <= 2 ^ 18)%Z).
  { pose proof (pow2_le p 18 (proj2 Hp)). change (2 ^ 18)%N with 262144%N in *.
    change (2 ^ 18)%Z with 262144%Z. lia. }
  assert (E0 : fin (sum_init e) /\ val (sum_init e) = 0).
  { destruct (proj1 (proj2 Hb)) as [-> | ->]; split; reflexivity. }
  destruct E0 as [F0 V0].
  assert (SM : val (fsum (sum_init e) l') <= val (fsum (sum_init e) l)).
  { apply (fsum_mono l l' 0); auto; rewrite ?V0; simpl INR; try lra. lia. }
  assert (POS : forall k, N.of_nat (length k) = (2 ^ p)%N -> Forall (fun v => (v < 64)%N) k ->
    fin (fsum (sum_init e) k) /\ 0 < val (fsum (sum_init e) k) /\
    raw_f e p k = fdiv (fmul (alpha (2 ^ p)) (of_N (2 ^ p * 2 ^ p))) (fsum (sum_init e) k)).
  { intros k Hk Fk.
    destruct (fsum_rel e k Hb Fk) as [FS RS]; [lia|].
    destruct (raw_R_bounds p k (proj1 Hp) (proj2 Hp) Hk Fk) as [PS _].
    pose proof (rel_bounds _ _ _ RS (Rlt_le _ _ PS)) as BS.
    change (bpow radix2 (-34)) with (/ 17179869184) in BS.
    split; [auto|]. split; [nra|reflexivity]. }
  destruct (POS l HL Hl) as (FS & PS & E). destruct (POS l' HL' Hl') as (FS' & PS' & E').
  destruct (raw_f_rel e p l Hb (proj1 Hp) (proj2 Hp) HL Hl) as (Fr & _ & Br).
  destruct (raw_f_rel e p l' Hb (proj1 Hp) (proj2 Hp) HL' Hl') as (Fr' & _ & Br').
  destruct (num_is p Hp) as (FN & BN).
  set (num := fmul (alpha (2 ^ p)) (of_N (2 ^ p * 2 ^ p))) in *.
  assert (B82 : forall s, 0 < s -> bpow radix2 (-63) <= s -> Rabs (val num / s) <= bpow radix2 1023).
  { intros s Ps Hs. rewrite Rabs_pos_eq by (apply Rlt_le, Rdiv_lt_0_compat; lra).
    apply Rmult_le_reg_r with s; [auto|]. unfold Rdiv. rewrite Rmult_assoc, Rinv_l by lra.
    rewrite Rmult_1_r. apply Rle_trans with (bpow radix2 40); [apply BN|].
    apply Rle_trans with (bpow radix2 1023 * bpow radix2 (-63)).
    - rewrite <- bpow_plus. apply bpow_le. lia.
    - apply Rmult_le_compat_l; [apply bpow_ge_0|auto]. }
  assert (LOW : forall k, N.of_nat (length k) = (2 ^ p)%N -> Forall (fun v => (v < 64)%N) k ->
    bpow radix2 (-63) <= val (fsum (sum_init e) k)).
  { intros k Hk Fk. destruct (fsum_rel e k Hb Fk) as [_ RS]; [lia|].
    destruct (raw_R_bounds p k (proj1 Hp) (proj2 Hp) Hk Fk) as [PS0 _].
    pose proof (rel_bounds _ _ _ RS (Rlt_le _ _ PS0)) as BS.
    change (bpow radix2 (-34)) with (/ 17179869184) in BS.
    assert (G : INR (length k) * bpow radix2 (- Z.of_N 63) <= inv_sum k).
    { apply (inv_sum_ge k 63). eapply Forall_impl; [|exact Fk]. intros v Hv. cbv beta in Hv. lia. }
    rewrite (len_m p k Hk) in G. pose proof (m_R_bounds p (proj1 Hp) (proj2 Hp)).
    change (- Z.of_N 63)%Z with (-63)%Z in G. pose proof (bpow_gt_0 radix2 (-63)). nra. }
  pose proof (LOW l HL Hl) as LO. pose proof (LOW l' HL' Hl') as LO'.
  rewrite E, E'.
  destruct (fdiv_is num (fsum (sum_init e) l) FN FS) as [_ V]; [lra|now apply B82|].
  destruct (fdiv_is num (fsum (sum_init e) l') FN FS') as [_ V']; [lra|now apply B82|].
  rewrite V, V'. apply rnd_le. unfold Rdiv. apply Rmult_le_compat_l; [lra|].
  apply Rinv_le_contravar; auto.
Qed.

(** ** More hashes: larger registers, fewer zeros *)
Lemma rf_mono : forall W p H H' l l', (p <= W)%N -> incl H H' ->
  is_register_file W p H l -> is_register_file W p H' l' -> Forall2 N.le l l'.
Proof.
  intros W p H H' l l' Hp HI [HL HR] [HL' HR'].
  assert (A : forall i v w, nth_error l i = Some v -> nth_error l' i = Some w -> (v <= w)%N).
  { intros i v w Hv Hw.
    destruct (HR (N.of_nat i) v) as [_ R]; [now rewrite Nnat.Nat2N.id|].
    destruct (HR' (N.of_nat i) w) as [R' _]; [now rewrite Nnat.Nat2N.id|].
    destruct R as [->|(h & Hh & Hb & <-)]; [lia|]. apply R'; auto. }
  assert (E : length l = length l') by lia. clear HL HR HL' HR'. revert l' A E.
  induction l as [|v l IH]; intros [|w l'] A E; try discriminate; constructor.
  - apply (A 0%nat); reflexivity.
  - apply IH; [|now injection E]. intros i. apply (A (S i)).
Qed.

Lemma zero_count_mono : forall l l', Forall2 N.le l l' -> (zero_count l' <= zero_count l)%N.
Proof.
  unfold zero_count. induction 1 as [|v w l l' Hv HH IH]; cbn; [lia|].
  destruct v as [|v], w as [|w]; cbn; lia.
Qed.

Lemma zero_count_le : forall l, (zero_count l <= N.of_nat (length l))%N.
Proof. intros l. unfold zero_count. pose proof (filter_length_le' l). lia. Qed.

Lemma low32_incl : forall H H', incl H H' -> incl (low32 H) (low32 H').
Proof.
  intros H H' I x Hx. apply in_map_iff in Hx. destruct Hx as (y & <- & Hy).
  apply (in_map (fun h => (h mod 2 ^ 32)%N)). auto.
Qed.

(** ** The large-range correction *)
Lemma large_ge : forall x, 0 <= x < IZR (2 ^ 32) -> x <= large_R x.
Proof.
  intros x Hx. unfold large_R. change (IZR (2 ^ 32)) with 4294967296 in *.
  assert (P : 0 < 1 - x / 4294967296) by lra.
  pose proof (exp_ineq1_le (ln (1 - x / 4294967296))) as I. rewrite exp_ln in I by auto. lra.
Qed.

Lemma large_ge' : forall x, IZR (2 ^ 32) / 30 <= x < IZR (2 ^ 32) -> x * (1 + / 200) <= large_R x.
Proof.
  intros x Hx. unfold large_R. change (IZR (2 ^ 32)) with 4294967296 in *.
  set (q := x / 4294967296). assert (Q : / 30 <= q < 1) by (unfold q; lra).
  assert (P : 0 < 1 - q) by lra.
  (* ln (1-q) = 2 ln (1-q/2) + ln ((1-q) / (1-q/2)^2) *)
  assert (L : ln (1 - q) <= - q - q * q / 4).
  { assert (B : ln (1 - q / 2) <= - (q / 2)).
    { pose proof (exp_ineq1_le (ln (1 - q / 2))) as I. rewrite exp_ln in I by lra. lra. }
    assert (S : 0 < (1 - q / 2) * (1 - q / 2)) by (apply Rmult_lt_0_compat; lra).
    assert (T : 0 < (1 - q) / ((1 - q / 2) * (1 - q / 2))) by (apply Rdiv_lt_0_compat; lra).
    pose proof (exp_ineq1_le (ln ((1 - q) / ((1 - q / 2) * (1 - q / 2))))) as I.
    rewrite exp_ln in I by auto.
    assert (D : ln (1 - q) = ln (1 - q / 2) + ln (1 - q / 2) + ln ((1 - q) / ((1 - q / 2) * (1 - q / 2)))).
    { rewrite <- ln_mult by lra. rewrite <- ln_mult by lra. f_equal. field. lra. }
    assert (F : (1 - q) / ((1 - q / 2) * (1 - q / 2)) - 1 <= - (q * q / 4)).
    { apply Rmult_le_reg_r with ((1 - q / 2) * (1 - q / 2)); [auto|].
      replace (((1 - q) / ((1 - q / 2) * (1 - q / 2)) - 1) * ((1 - q / 2) * (1 - q / 2)))
        with (- (q * q / 4)) by (field; lra).
      assert (S1 : (1 - q / 2) * (1 - q / 2) <= 1) by nra.
      assert (Q2 : 0 <= q * q / 4) by nra. nra. }
    lra. }
  replace x with (4294967296 * q) by (unfold q; lra).
  assert (QQ : / 30 * q <= q * q) by (apply Rmult_le_compat_r; lra). lra.
Qed.

(** Convexity: a larger argument by a factor gives a larger value by that factor. *)
Lemma large_scale : forall x y k, 0 <= x -> 0 <= k -> x * (1 + k) <= y -> y < IZR (2 ^ 32) ->
  large_R x * (1 + k) <= large_R y.
Proof.
  intros x y k Hx Hk Hy H32. unfold large_R. change (IZR (2 ^ 32)) with 4294967296 in *.
  set (q := x / 4294967296). set (r := y / 4294967296).
  assert (Q : 0 <= q) by (unfold q; lra). assert (R : q * (1 + k) <= r) by (unfold q, r; lra).
  assert (R1 : r < 1) by (unfold r; lra).
  assert (Qk : 0 <= q * k) by nra.
  (* ln (1-r) <= (1+k) ln (1-q) : Bernoulli *)
  assert (B : ln (1 - r) <= (1 + k) * ln (1 - q)).
  { apply Rle_trans with (ln (1 - q * (1 + k))); [apply LinearFacts.ln_le; lra|].
    assert (E : ln (1 - q * (1 + k)) - ln (1 - q) <= k * ln (1 - q)).
    { replace (ln (1 - q * (1 + k)) - ln (1 - q)) with (ln ((1 - q * (1 + k)) / (1 - q))).
      2:{ unfold Rdiv. rewrite ln_mult, ln_Rinv; try lra. apply Rinv_0_lt_compat. lra. }
      (* ln (1 - t k) <= - t k with t = q / (1-q) ; and k ln (1-q) >= - k q / (1-q) *)
      assert (T : (1 - q * (1 + k)) / (1 - q) = 1 - k * (q / (1 - q))) by (field; lra).
      assert (TP : 0 < (1 - q * (1 + k)) / (1 - q)) by (apply Rdiv_lt_0_compat; lra).
      pose proof (exp_ineq1_le (ln ((1 - q * (1 + k)) / (1 - q)))) as I. rewrite exp_ln in I by auto.
      assert (J : - (q / (1 - q)) <= ln (1 - q)).
      { replace (ln (1 - q)) with (- ln (/ (1 - q))) by (rewrite ln_Rinv; lra).
        assert (IP : 0 < / (1 - q)) by (apply Rinv_0_lt_compat; lra).
        pose proof (exp_ineq1_le (ln (/ (1 - q)))) as I2. rewrite exp_ln in I2 by auto.
        replace (q / (1 - q)) with (/ (1 - q) - 1) by (field; lra). lra. }
      assert (k * - (q / (1 - q)) <= k * ln (1 - q)) by (apply Rmult_le_compat_l; auto). lra. }
    lra. }
  apply Rmult_le_compat_l with (r := 4294967296) in B; lra.
Qed.

(** ** HyperLogLogPF *)
Lemma pf_cases : forall e p H l c, build e -> accurate e -> (4 <= p <= 16)%N ->
  is_register_file 32 p H l -> Forall (fun v => (v < 32)%N) l -> raw_R p l < IZR (2 ^ 32) ->
  pf_value e p l (zero_count l) = Ret c ->
  fin (raw_f e p l) /\ approx (/ IZR (2 ^ 49)) (val (raw_f e p l)) (raw_R p l) /\
  val (raw_f e p l) < IZR (2 ^ 32) /\
  ((zero_count l <> 0)%N /\ raw_R p l <= 2.5 * m_R p /\ linear_count e (2 ^ p) (zero_count l) = Ret c \/
   ((zero_count l = 0)%N \/ 2.5 * m_R p < raw_R p l) /\
     (raw_R p l <= IZR (2 ^ 32) / 30 /\ c = raw_f e p l \/
      IZR (2 ^ 32) / 30 < val (raw_f e p l) /\ IZR (2 ^ 32) / 30 < raw_R p l /\
      fin c /\ approx (/ IZR (2 ^ 46)) (val c) (large_R (val (raw_f e p l))))).
Proof.
  intros e p H l c Hb Ha Hp HR Hl Hs Ec.
  destruct (raw_f_rel_pf e p l Hb (proj1 Hp) (proj2 Hp) (proj1 HR) Hl) as (Fr & Rr & Br).
  pose proof (raw_pos p _ l Hp HR) as P.
  assert (AP : approx (/ IZR (2 ^ 49)) (val (raw_f e p l)) (raw_R p l)).
  { unfold approx. rewrite (inv_pow2 49) by lia. now apply rel_abs. }
  pose proof (near_25 p _ l _ Hp HR AP) as N25. pose proof (near_30 p _ l _ Hp HR AP) as N30.
  pose proof (rel_bounds _ _ _ Rr P) as B. change (bpow radix2 (-49)) with (/ 562949953421312) in B.
  assert (L32 : val (raw_f e p l) < IZR (2 ^ 32)).
  { destruct (far_32 p _ l Hp HR) as [F|F].
    - change (/ IZR (2 ^ 19)) with (/ 524288) in F. change (IZR (2 ^ 32)) with 4294967296 in *. lra.
    - change (/ IZR (2 ^ 24)) with (/ 16777216) in F. change (IZR (2 ^ 32)) with 4294967296 in *. lra. }
  split; [auto|]. split; [auto|]. split; [auto|].
  unfold pf_value in Ec. set (raw := raw_f e p l) in *.
  destruct (linear_cut p Hp) as [Ft Vt]. rewrite fle_spec, Vt in Ec by auto.
  destruct cut_30 as (t & Et & Ft2 & Ct). rewrite Et in Ec. rewrite flt_spec, Ct in Ec by auto.
  assert (REST : (if Rlt_bool (IZR (2 ^ 32) / 30) (val raw) then
        let* l0 := ModelCommon.ln e (fsub (of_Z 1) (fdiv raw (of_N (N.shiftl 1 32)))) in
        Ret (fmul (fmul (of_Z (-1)) (of_N (N.shiftl 1 32))) l0)
     else Ret raw) = Ret c ->
     raw_R p l <= IZR (2 ^ 32) / 30 /\ c = raw \/
      IZR (2 ^ 32) / 30 < val raw /\ IZR (2 ^ 32) / 30 < raw_R p l /\
      fin c /\ approx (/ IZR (2 ^ 46)) (val c) (large_R (val raw))).
  { clear Ec. case Rlt_bool_spec; intros C E.
    - right. split; [auto|]. split; [apply Rnot_le_lt; intros X; apply N30 in X; lra|].
      destruct (large_ok e raw Ha Fr ltac:(lra)) as (y & Ey & Hc).
      rewrite Ey, bind_ret in E. cbv zeta in Hc.
      set (c0 := fmul (fmul (of_Z (-1)) (of_N (N.shiftl 1 32))) y) in *. clearbody c0.
      injection E as <-. destruct Hc as (Fc & Ac & Bc). auto.
    - left. injection E as <-. split; [now apply N30|reflexivity]. }
  revert Ec. destruct (N.eqb_spec (zero_count l) 0) as [Z|Z]; cbn [negb].
  - rewrite andb_false_r. intros Ec. right. split; [now left|auto].
  - rewrite andb_true_r. case Rle_bool_spec; intros C Ec.
    + left. split; [auto|]. split; [now apply N25|auto].
    + right. split; [|auto]. right. apply Rnot_le_lt. intros X. apply N25 in X. lra.
Qed.

Lemma raw_R_step : forall p H H' l l', (4 <= p <= 16)%N -> Forall2 N.le l l' ->
  is_register_file 32 p H l -> is_register_file 32 p H' l' ->
  l = l' \/ raw_R p l * (1 + / IZR (2 ^ 34)) <= raw_R p l'.
Proof.
  intros p H H' l l' Hp H2 HR HR'.
  pose proof (rf_le 32 p _ l ltac:(lia) HR) as HL. pose proof (rf_le 32 p _ l' ltac:(lia) HR') as HL'.
  replace (32 - p + 1)%N with (33 - p)%N in HL, HL' by lia.
  destruct (inv_sum_mono (33 - p) l l' H2 HL') as [E|S]; [now left|right].
  assert (F : forall k, Forall (fun v => (v <= 33 - p)%N) k -> Forall (fun v => (v < 64)%N) k).
  { intros k Hk. eapply Forall_impl; [|exact Hk]. intros v Hv. cbv beta in Hv. lia. }
  destruct (raw_R_bounds p l (proj1 Hp) ltac:(lia) (proj1 HR) (F _ HL)) as (IS & RB).
  destruct (raw_R_bounds p l' (proj1 Hp) ltac:(lia) (proj1 HR') (F _ HL')) as (IS' & RB').
  destruct (alpha_pow2 p ltac:(lia) ltac:(lia)) as (_ & _ & HA).
  pose proof (m_R_bounds p ltac:(lia) ltac:(lia)) as Hm.
  assert (U : inv_sum l <= m_R p).
  { rewrite <- (len_m p l (proj1 HR)). apply inv_sum_le. }
  set (s := inv_sum l) in *. set (s' := inv_sum l') in *.
  assert (G : m_R p * / IZR (2 ^ 34) <= / IZR (2 ^ Z.of_N (33 - p))).
  { unfold m_R. rewrite !two_pow. rewrite (pow_bpow 34) by lia. rewrite <- !bpow_opp, <- bpow_plus.
    apply bpow_le. lia. }
  assert (G' : s' * (1 + / IZR (2 ^ 34)) <= s).
  { change (/ IZR (2 ^ 34)) with (/ 17179869184) in *. nra. }
  unfold raw_R. fold s s'. set (a := alpha_R p * (m_R p * m_R p)).
  assert (A : 0 < a) by (unfold a; apply Rmult_lt_0_compat; nra).
  unfold Rdiv. rewrite Rmult_assoc. apply Rmult_le_compat_l; [lra|].
  apply Rmult_le_reg_l with s; [auto|]. rewrite <- Rmult_assoc, Rinv_r, Rmult_1_l by lra.
  apply Rmult_le_reg_r with s'; [auto|]. rewrite Rmult_assoc, Rinv_l by lra. lra.
Qed.

Theorem pf_value_mono : forall e p H H' l l' c c', build e -> accurate e -> (4 <= p <= 16)%N ->
  incl H H' -> is_register_file 32 p H l -> is_register_file 32 p H' l' ->
  Forall (fun v => (v < 32)%N) l -> Forall (fun v => (v < 32)%N) l' ->
  raw_R p l' < IZR (2 ^ 32) ->
  (zero_count l' <> 0%N /\ raw_R p l' <= 2.5 * m_R p) \/
    ~ (zero_count l <> 0%N /\ raw_R p l <= 2.5 * m_R p) ->
  pf_value e p l (zero_count l) = Ret c -> pf_value e p l' (zero_count l') = Ret c' ->
  val c <= val c'.
Proof.
  intros e p H H' l l' c c' Hb Ha Hp HI HR HR' Hl Hl' H32 HB Ec Ec'.
  pose proof (rf_mono 32 p H H' l l' ltac:(lia) HI HR HR') as H2.
  pose proof (zero_count_mono l l' H2) as HZ.
  assert (F64' : Forall (fun v => (v < 64)%N) l').
  { eapply Forall_impl; [|exact Hl']. intros v Hv. cbv beta in Hv. lia. }
  pose proof (raw_f_mono e p l l' Hb ltac:(lia) (proj1 HR) (proj1 HR') H2 F64') as RM.
  pose proof (raw_R_step p H H' l l' Hp H2 HR HR') as ST.
  pose proof (raw_pos p _ l Hp HR) as P. pose proof (raw_pos p _ l' Hp HR') as P'.
  destruct ST as [->|ST]; [rewrite Ec in Ec'; injection Ec' as ->; lra|].
  change (/ IZR (2 ^ 34)) with (/ 17179869184) in ST.
  assert (RR : raw_R p l <= raw_R p l') by lra.
  destruct (pf_cases e p H l c Hb Ha Hp HR Hl ltac:(lra) Ec) as (Fr & Ar & Lr & C).
  destruct (pf_cases e p H' l' c' Hb Ha Hp HR' Hl' H32 Ec') as (Fr' & Ar' & Lr' & C').
  unfold approx in Ar, Ar'. rewrite (Rabs_pos_eq (raw_R p l)) in Ar by auto.
  rewrite (Rabs_pos_eq (raw_R p l')) in Ar' by auto. apply Rabs_le_inv in Ar, Ar'.
  set (x := val (raw_f e p l)) in *. set (x' := val (raw_f e p l')) in *.
  change (/ IZR (2 ^ 49)) with (/ 562949953421312) in *.
  assert (SX : x * (1 + / 20000000000) <= x') by lra.
  assert (X0 : 0 <= x) by lra.
  assert (SMALL : forall d, (zero_count l' <> 0)%N -> linear_count e (2 ^ p) (zero_count l') = Ret d ->
     linear_count e (2 ^ p) (zero_count l) = Ret c -> val c <= val d).
  { intros d Z Ed Ec0. apply (linear_count_mono e (2 ^ p) (zero_count l') (zero_count l) c d Ha); auto; try lia.
    - rewrite <- (proj1 HR). apply zero_count_le.
    - apply pow2_le. lia. }
  assert (LGE : IZR (2 ^ 32) / 30 < x' -> fin c' -> approx (/ IZR (2 ^ 46)) (val c') (large_R x') ->
     x' <= val c').
  { intros A1 A2 A3. pose proof (large_ge' x' ltac:(lra)) as G. unfold approx in A3.
    rewrite (Rabs_pos_eq (large_R x')) in A3 by lra. apply Rabs_le_inv in A3.
    change (/ IZR (2 ^ 46)) with (/ 70368744177664) in A3. lra. }
  destruct C as [(Z & C1 & C2)|(Z & C)].
  - destruct HB as [(Z' & B')|HB]; [|tauto].
    destruct C' as [(_ & _ & C')|(Z2 & _)]; [|exfalso; destruct Z2; [contradiction|lra]].
    now apply SMALL.
  - assert (NL : ~ (zero_count l' <> 0%N /\ raw_R p l' <= 2.5 * m_R p)).
    { intros [A B]. destruct Z as [Z|Z]; [lia|lra]. }
    destruct C' as [(A & B & _)|(_ & C')]; [tauto|].
    destruct C as [(C1 & ->)|(C1 & C2 & Fc & C3)]; fold x.
    + destruct C' as [(_ & ->)|(D1 & D2 & Fd & D3)]; fold x'; [auto|].
      specialize (LGE D1 Fd D3). lra.
    + destruct C' as [(D1 & _)|(D1 & D2 & Fd & D3)]; [lra|].
      pose proof (large_scale x x' (/ 20000000000) X0 ltac:(lra) SX Lr') as G.
      pose proof (large_ge x ltac:(lra)) as G0. pose proof (large_ge x' ltac:(lra)) as G1.
      unfold approx in C3, D3. rewrite (Rabs_pos_eq (large_R x)) in C3 by lra.
      rewrite (Rabs_pos_eq (large_R x')) in D3 by lra. apply Rabs_le_inv in C3, D3.
      change (/ IZR (2 ^ 46)) with (/ 70368744177664) in *. lra.
Qed.
