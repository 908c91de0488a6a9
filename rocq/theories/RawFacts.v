(** * The raw estimate *)
From Coq Require Import NArith ZArith Reals Lra Lia List Bool.
From Flocq Require Import Core BinarySingleNaN.
From Verif Require Import ModelRust ModelF64 ModelEnv ModelRegisters ModelCommon
  SpecReal SpecBuild BitFacts F64Facts.
Import ListNotations.
Local Open Scope R_scope.

(** ** One summand *)
Definition invf (v : N) : f64 := fdiv (of_Z 1) (of_N (2 ^ v)).

Lemma two_pow : forall v, IZR (2 ^ Z.of_N v) = bpow radix2 (Z.of_N v).
Proof. intros. rewrite <- IZR_Zpower by lia. reflexivity. Qed.

Lemma Z_of_N_pow2 : forall v, Z.of_N (2 ^ v) = (2 ^ Z.of_N v)%Z.
Proof. intros. now rewrite N2Z.inj_pow. Qed.

Lemma of_N_pow2 : forall v, (v <= 1000)%N -> is (of_N (2 ^ v)) (bpow radix2 (Z.of_N v)).
Proof.
  intros v Hv. unfold of_N. rewrite Z_of_N_pow2.
  assert (E : rnd (IZR (2 ^ Z.of_N v)) = bpow radix2 (Z.of_N v)).
  { rewrite two_pow. apply rnd_generic, bpow_generic. lia. }
  rewrite <- E. apply of_Z_is. rewrite Z.abs_eq by (apply Z.pow_nonneg; lia).
  apply Z.pow_le_mono_r; lia.
Qed.

Lemma invf_is : forall v, (v <= 1000)%N -> is (invf v) (/ IZR (2 ^ Z.of_N v)).
Proof.
  intros v Hv. destruct (of_N_pow2 v Hv) as [F V].
  destruct (of_Z_exact 1 ltac:(discriminate)) as [F1 V1].
  assert (E : val (of_Z 1) / val (of_N (2 ^ v)) = bpow radix2 (- Z.of_N v)).
  { rewrite V1, V, bpow_opp. unfold Rdiv. ring. }
  rewrite two_pow, <- bpow_opp.
  assert (G : rnd (bpow radix2 (- Z.of_N v)) = bpow radix2 (- Z.of_N v)).
  { apply rnd_generic, bpow_generic. lia. }
  rewrite <- G, <- E. apply fdiv_is; auto.
  - rewrite V. apply Rgt_not_eq, bpow_gt_0.
  - rewrite E, Rabs_pos_eq by apply bpow_ge_0. apply bpow_le. lia.
Qed.

Lemma inv_pow_ok : forall e v, (v < 64)%N -> inv_pow e v = Ret (invf v).
Proof.
  intros e v Hv. unfold inv_pow. rewrite ushl_ok by auto. rewrite bind_ret.
  rewrite N.mul_1_l, N.mod_small; [reflexivity|]. now apply pow2_lt.
Qed.

Lemma raw_lut_ok : forall e v, (v < 2 ^ (if feat_std e then SIZE_PLUS else SIZE_PF))%N ->
  index (raw_lut e) v = Ret (invf v).
Proof.
  intros e v Hv. apply index_ok. unfold raw_lut. rewrite nth_error_map.
  rewrite N.shiftl_1_l. rewrite range_nth by lia. cbn [option_map]. rewrite N2Nat.id.
  rewrite N.shiftl_1_l. reflexivity.
Qed.

(** ** The sum *)
Definition fsum (init : f64) (l : list N) : f64 :=
  fold_left (fun acc v => fadd acc (invf v)) l init.

(** The largest register value for which the lookup table has an entry. *)
Definition lut_bound (e : env) : N := if feat_std e then 64 else 32.

Lemma estimate_raw_plus_gen : forall e regs c,
  Forall (fun v => (v < lut_bound e)%N) regs ->
  estimate_raw_plus e regs c
  = (let* c2 := umul (overflow_checks e) (usize_bits e) c c in
     Ret (fdiv (fmul (alpha c) (of_N c2)) (fsum (sum_init e) regs))).
Proof.
  intros e regs c Hr. unfold estimate_raw_plus. cbv zeta.
  assert (G : forall acc, for_each regs (fun acc value =>
         let* x := if feat_const_loop e then index (raw_lut e) value else inv_pow e value in
         Ret (fadd acc x)) acc = Ret (fsum acc regs)).
  { induction Hr as [|v l Hv Hl IH]; intros acc; [reflexivity|].
    cbn [for_each].
    assert (E : (if feat_const_loop e then index (raw_lut e) v else inv_pow e v) = Ret (invf v)).
    { unfold lut_bound in Hv. destruct (feat_const_loop e).
      - apply raw_lut_ok. destruct (feat_std e); exact Hv.
      - apply inv_pow_ok. destruct (feat_std e); lia. }
    rewrite E. rewrite !bind_ret. rewrite IH. reflexivity. }
  rewrite G. reflexivity.
Qed.

Lemma estimate_raw_plus_ok : forall e regs c,
  Forall (fun v => (v < lut_bound e)%N) regs -> (c * c < 2 ^ usize_bits e)%N ->
  estimate_raw_plus e regs c
  = Ret (fdiv (fmul (alpha c) (of_N (c * c))) (fsum (sum_init e) regs)).
Proof.
  intros e regs c Hr Hc. rewrite estimate_raw_plus_gen by auto. now rewrite umul_ok.
Qed.

Lemma zero_is : forall e, build e -> is (sum_init e) 0.
Proof. intros e (_ & [->| ->] & _); split; reflexivity. Qed.

Lemma inv_pow_pos : forall v, 0 < / IZR (2 ^ Z.of_N v).
Proof. intros. apply Rinv_0_lt_compat. rewrite two_pow. apply bpow_gt_0. Qed.

Lemma inv_pow_le1 : forall v, / IZR (2 ^ Z.of_N v) <= 1.
Proof.
  intros. rewrite two_pow, <- bpow_opp. change 1 with (bpow radix2 0). apply bpow_le. lia.
Qed.

Lemma inv_pow_ge : forall v k, (v <= k)%N -> bpow radix2 (- Z.of_N k) <= / IZR (2 ^ Z.of_N v).
Proof. intros. rewrite two_pow, <- bpow_opp. apply bpow_le. lia. Qed.

Lemma inv_sum_nonneg : forall l, 0 <= inv_sum l.
Proof.
  induction l as [|v l IH]; cbn [inv_sum fold_right]; [lra|].
  fold (inv_sum l). pose proof (inv_pow_pos v). lra.
Qed.

Lemma inv_sum_app : forall a b, inv_sum (a ++ b) = inv_sum a + inv_sum b.
Proof.
  induction a as [|v a IH]; intros b; simpl app; unfold inv_sum; cbn [fold_right].
  - fold (inv_sum b). lra.
  - fold (inv_sum (a ++ b)). fold (inv_sum a). rewrite IH. unfold inv_sum. lra.
Qed.

Lemma inv_sum_le : forall l, inv_sum l <= INR (length l).
Proof.
  induction l as [|v l IH]; [simpl; lra|]. cbn [length]. rewrite S_INR.
  unfold inv_sum in *. cbn [fold_right]. pose proof (inv_pow_le1 v). lra.
Qed.

Lemma inv_sum_ge : forall l k, Forall (fun v => (v <= k)%N) l ->
  INR (length l) * bpow radix2 (- Z.of_N k) <= inv_sum l.
Proof.
  induction 1 as [|v l Hv Hl IH]; [simpl; lra|]. cbn [length]. rewrite S_INR.
  unfold inv_sum in *. cbn [fold_right]. pose proof (inv_pow_ge v k Hv). lra.
Qed.

(** Accumulated rounding error. *)
Lemma fsum_error : forall l k S acc,
  Forall (fun v => (v < 64)%N) l -> fin acc -> 0 <= S ->
  (Z.of_nat k + Z.of_nat (length l) <= 2 ^ 53)%Z ->
  S * (1 - u) ^ k <= val acc <= S * (1 + u) ^ k -> 0 <= val acc <= INR k ->
  fin (fsum acc l) /\
  (S + inv_sum l) * (1 - u) ^ (k + length l) <= val (fsum acc l)
    <= (S + inv_sum l) * (1 + u) ^ (k + length l) /\
  0 <= val (fsum acc l) <= INR (k + length l).
Proof.
  pose proof u_pos as Hu. assert (Hu1 : u < 1) by (rewrite u_val; lra).
  induction l as [|v l IH]; intros k S acc Hl Hf HS Hk Hb Hr.
  - simpl. rewrite Nat.add_0_r. rewrite Rplus_0_r. auto.
  - apply Forall_cons_iff in Hl. destruct Hl as [Hv Hl]. cbn [length fsum fold_left].
    fold (fsum (fadd acc (invf v)) l).
    destruct (invf_is v ltac:(lia)) as [Fx Vx].
    pose proof (inv_pow_pos v) as Px. pose proof (inv_pow_le1 v) as P1.
    pose proof (inv_pow_ge v 64 ltac:(lia)) as Pg. change (- Z.of_N 64)%Z with (-64)%Z in Pg.
    set (x := / IZR (2 ^ Z.of_N v)) in *.
    assert (Hk1 : (Z.of_nat (Datatypes.S k) <= 2 ^ 53)%Z).
    { cbn [length] in Hk. lia. }
    assert (HkR : val acc + x <= INR (Datatypes.S k)) by (rewrite S_INR; lra).
    assert (Hfm : INR (Datatypes.S k) <= bpow radix2 53).
    { rewrite INR_IZR_INZ. rewrite <- (IZR_Zpower radix2 53) by lia. now apply IZR_le. }
    assert (Ha : is (fadd acc (invf v)) (rnd (val acc + x))).
    { rewrite <- Vx. apply fadd_is; auto. rewrite Vx. rewrite Rabs_pos_eq by lra.
      apply Rle_trans with (bpow radix2 53); [lra|]. apply bpow_le. lia. }
    destruct Ha as [Fa Va].
    assert (Hrel : exists d, Rabs d <= u /\ rnd (val acc + x) = (val acc + x) * (1 + d)).
    { apply rnd_rel. rewrite Rabs_pos_eq by lra.
      apply Rle_trans with (bpow radix2 (-64)); [apply bpow_le; lia|lra]. }
    destruct Hrel as (d & Hd & Er). apply Rabs_le_inv in Hd.
    assert (Hle : rnd (val acc + x) <= INR (Datatypes.S k)).
    { rewrite <- (rnd_generic (INR (Datatypes.S k))).
      - now apply rnd_le.
      - rewrite INR_IZR_INZ. apply int_generic. rewrite Z.abs_eq; lia. }
    assert (Hge : 0 <= rnd (val acc + x)) by (rewrite Er; apply Rmult_le_pos; lra).
    destruct (IH (Datatypes.S k) (S + x) (fadd acc (invf v))) as (A & B & C); auto.
    + lra.
    + cbn [length] in Hk. lia.
    + rewrite Va, Er. cbn [pow].
      assert (L1 : 0 <= (1 - u) ^ k <= 1).
      { split; [apply pow_le; lra|]. apply Rle_trans with (1 ^ k); [apply pow_incr; lra|rewrite pow1; lra]. }
      assert (L2 : 1 <= (1 + u) ^ k). { apply pow_R1_Rle. lra. }
      assert (X1 : x * (1 - u) ^ k <= x) by nra.
      assert (X2 : x <= x * (1 + u) ^ k) by nra.
      assert (Y1 : (S + x) * (1 - u) ^ k <= val acc + x) by lra.
      assert (Y2 : val acc + x <= (S + x) * (1 + u) ^ k) by lra.
      assert (Y0 : 0 <= (S + x) * (1 - u) ^ k) by (apply Rmult_le_pos; lra).
      split.
      * replace ((S + x) * ((1 - u) * (1 - u) ^ k)) with ((S + x) * (1 - u) ^ k * (1 - u)) by ring.
        apply Rmult_le_compat; lra.
      * replace ((S + x) * ((1 + u) * (1 + u) ^ k)) with ((S + x) * (1 + u) ^ k * (1 + u)) by ring.
        apply Rmult_le_compat; lra.
    + rewrite Va. split; auto.
    + rewrite <- Nat.add_succ_comm. unfold inv_sum. cbn [fold_right]. fold (inv_sum l).
      fold x. rewrite <- Rplus_assoc. auto.
Qed.

Lemma pow_upper : forall n, INR n * u <= / 2 -> (1 + u) ^ n <= 1 + 2 * INR n * u.
Proof.
  pose proof u_pos as Hu. induction n as [|n IH]; intros H; [simpl; lra|].
  rewrite S_INR in *. cbn [pow].
  assert (Hn : INR n * u <= / 2) by (pose proof (pos_INR n); nra).
  specialize (IH Hn). pose proof (pos_INR n).
  apply Rle_trans with ((1 + u) * (1 + 2 * INR n * u)); [apply Rmult_le_compat_l; lra|].
  nra.
Qed.

Lemma pow_lower : forall n, 1 - INR n * u <= (1 - u) ^ n.
Proof.
  pose proof u_pos as Hu. assert (u < 1) by (rewrite u_val; lra).
  induction n as [|n IH]; [simpl; lra|]. rewrite S_INR. cbn [pow]. pose proof (pos_INR n).
  apply Rle_trans with ((1 - u) * (1 - INR n * u)); [nra|]. apply Rmult_le_compat_l; lra.
Qed.

Lemma fsum_rel : forall e l, build e -> Forall (fun v => (v < 64)%N) l ->
  (Z.of_nat (length l) <= 2 ^ 18)%Z ->
  fin (fsum (sum_init e) l) /\ rel (bpow radix2 (-34)) (val (fsum (sum_init e) l)) (inv_sum l).
Proof.
  intros e l He Hl Hn. destruct (zero_is e He) as [F V].
  destruct (fsum_error l 0 0 (sum_init e)) as (A & B & C); auto.
  { lra. }
  { simpl Z.of_nat at 1. rewrite Z.add_0_l. eapply Z.le_trans; [exact Hn|discriminate]. }
  { rewrite V. simpl. lra. }
  { rewrite V. simpl. lra. }
  split; auto. rewrite Rplus_0_l in B. simpl plus in B.
  assert (HnR : INR (length l) <= bpow radix2 18).
  { rewrite INR_IZR_INZ, <- (IZR_Zpower radix2 18) by lia. now apply IZR_le. }
  assert (Hnu : INR (length l) * u <= bpow radix2 (-35)).
  { change (-35)%Z with (18 + -53)%Z. rewrite bpow_plus. apply Rmult_le_compat_r; auto.
    apply Rlt_le, u_pos. }
  assert (E35 : 2 * bpow radix2 (-35) = bpow radix2 (-34)).
  { change (-34)%Z with (1 + -35)%Z. rewrite bpow_plus. reflexivity. }
  assert (S35 : bpow radix2 (-35) <= / 2).
  { change (/ 2) with (bpow radix2 (-1)). apply bpow_le. lia. }
  pose proof (bpow_ge_0 radix2 (-35)) as P35.
  pose proof (pow_upper (length l) ltac:(lra)) as PU.
  pose proof (pow_lower (length l)) as PL.
  pose proof (inv_sum_nonneg l) as HS.
  destruct HS as [HS|HS].
  - apply rel_of_bounds; auto. split.
    + eapply Rle_trans; [|apply B]. apply Rmult_le_compat_l; lra.
    + eapply Rle_trans; [apply B|]. apply Rmult_le_compat_l; lra.
  - rewrite <- HS in *. rewrite !Rmult_0_l in B. exists 0. rewrite Rabs_R0.
    split; [apply bpow_ge_0|lra].
Qed.

(** ** The constant alpha *)
Lemma alpha_pow2 : forall p, (4 <= p)%N -> (p <= 18)%N ->
  fin (alpha (2 ^ p)) /\ rel (8 * u) (val (alpha (2 ^ p))) (alpha_R p) /\
  / 2 <= alpha_R p <= 1.
Proof.
  intros p H4 H18. pose proof u_pos as Hu. assert (Hu2 : u <= / 1000000) by (rewrite u_val; lra).
  assert (Hlit : forall n k, (0 < n <= 2 ^ 53)%Z -> (k <= 15)%N ->
    fin (lit n k) /\ rel u (val (lit n k)) (IZR n / 10 ^ N.to_nat k)).
  { intros n k Hn Hk. destruct (lit_correct n k ltac:(lia) ltac:(lia)) as [F V]. split; auto.
    rewrite V. apply rel_rnd.
    assert (H10 : 1 <= 10 ^ N.to_nat k <= 10 ^ 15).
    { split; [apply pow_R1_Rle; lra|]. apply Rle_pow; [lra|lia]. }
    assert (HnR : 1 <= IZR n) by (apply IZR_le; lia).
    rewrite Rabs_pos_eq by (apply Rlt_le, Rdiv_lt_0_compat; lra).
    apply Rle_trans with (bpow radix2 (-50)); [apply bpow_le; lia|].
    change (bpow radix2 (-50)) with (/ 1125899906842624).
    apply Rmult_le_reg_r with (10 ^ N.to_nat k); [lra|].
    unfold Rdiv. rewrite Rmult_assoc, Rinv_l by lra.
    assert (10 ^ 15 = 1000000000000000) by (simpl; ring). nra. }
  assert (Hcase : p = 4%N \/ p = 5%N \/ p = 6%N \/ (7 <= p)%N) by lia.
  destruct Hcase as [->|[->|[->|H7]]].
  - destruct (Hlit 673%Z 3%N ltac:(lia) ltac:(lia)) as [F R]. change (alpha (2 ^ 4)) with (lit 673 3).
    split; auto. split.
    + apply rel_le with u; [lra|]. replace (alpha_R 4) with (673 / 10 ^ N.to_nat 3) by (unfold alpha_R; simpl; lra). exact R.
    + unfold alpha_R. simpl. lra.
  - destruct (Hlit 697%Z 3%N ltac:(lia) ltac:(lia)) as [F R]. change (alpha (2 ^ 5)) with (lit 697 3).
    split; auto. split.
    + apply rel_le with u; [lra|]. replace (alpha_R 5) with (697 / 10 ^ N.to_nat 3) by (unfold alpha_R; simpl; lra). exact R.
    + unfold alpha_R. simpl. lra.
  - destruct (Hlit 709%Z 3%N ltac:(lia) ltac:(lia)) as [F R]. change (alpha (2 ^ 6)) with (lit 709 3).
    split; auto. split.
    + apply rel_le with u; [lra|]. replace (alpha_R 6) with (709 / 10 ^ N.to_nat 3) by (unfold alpha_R; simpl; lra). exact R.
    + unfold alpha_R. simpl. lra.
  - assert (Hp : (128 <= 2 ^ p)%N) by (change 128%N with (2 ^ 7)%N; now apply pow2_le).
    unfold alpha. destruct (N.eqb_spec (2 ^ p) 16); [lia|]. destruct (N.eqb_spec (2 ^ p) 32); [lia|].
    destruct (N.eqb_spec (2 ^ p) 64); [lia|].
    destruct (of_N_pow2 p ltac:(lia)) as [Fm Vm].
    destruct (of_Z_exact 1 ltac:(discriminate)) as [F1 V1].
    destruct (Hlit 7213%Z 4%N ltac:(lia) ltac:(lia)) as [Fa Ra].
    destruct (Hlit 1079%Z 3%N ltac:(lia) ltac:(lia)) as [Fb Rb].
    assert (Hm : 128 <= m_R p <= bpow radix2 18).
    { unfold m_R. rewrite two_pow. split; [change 128 with (bpow radix2 7)|]; apply bpow_le; lia. }
    assert (Em : val (of_N (2 ^ p)) = m_R p) by (unfold m_R; now rewrite two_pow).
    assert (E1 : 1079 / 10 ^ N.to_nat 3 = 1.079) by (simpl; lra).
    assert (E2 : 7213 / 10 ^ N.to_nat 4 = 0.7213) by (simpl; lra).
    rewrite E1 in Rb. rewrite E2 in Ra.
    assert (B18 : bpow radix2 18 = 262144) by reflexivity.
    assert (EA : alpha_R p = 0.7213 / (1 + 1.079 / m_R p)).
    { unfold alpha_R. destruct (N.eqb_spec p 4); [lia|]. destruct (N.eqb_spec p 5); [lia|].
      destruct (N.eqb_spec p 6); [lia|]. reflexivity. }
    assert (Hq : 0 < 1.079 / m_R p <= 0.01).
    { split; [apply Rdiv_lt_0_compat; lra|]. apply Rmult_le_reg_r with (m_R p); [lra|].
      unfold Rdiv. rewrite Rmult_assoc, Rinv_l by lra. lra. }
    (* 1.079 / m *)
    pose proof (rel_bounds _ _ _ Rb ltac:(lra)) as Bb.
    assert (R1 : rel (1.001 * (u + 0)) (val (lit 1079 3) / val (of_N (2 ^ p))) (1.079 / m_R p)).
    { apply rel_div_s; try (unfold small; lra); auto. rewrite Em. apply rel_refl. }
    pose proof (rel_bounds _ _ _ R1 ltac:(lra)) as B1.
    assert (N1 : bpow radix2 (-1022) <= val (lit 1079 3) / val (of_N (2 ^ p))).
    { apply Rle_trans with (bpow radix2 (-20)); [apply bpow_le; lia|].
      change (bpow radix2 (-20)) with (/ 1048576). rewrite Em.
      apply Rmult_le_reg_r with (m_R p); [lra|]. unfold Rdiv. rewrite Rmult_assoc, Rinv_l by lra.
      rewrite B18 in Hm. nra. }
    destruct (fdiv_is (lit 1079 3) (of_N (2 ^ p))) as [F2 V2]; auto.
    { rewrite Em. lra. }
    { rewrite Rabs_pos_eq by (pose proof (bpow_ge_0 radix2 (-1022)); lra).
      apply Rle_trans with (bpow radix2 0); [simpl bpow; nra|apply bpow_le; lia]. }
    assert (R2 : rel (3 * u) (val (fdiv (lit 1079 3) (of_N (2 ^ p)))) (1.079 / m_R p)).
    { rewrite V2. eapply rel_le; [|apply rel_rnd_s; [| |exact R1]]; try (unfold small; lra).
      right. rewrite Rabs_pos_eq; auto. pose proof (bpow_ge_0 radix2 (-1022)). lra. }
    (* 1 + 1.079 / m *)
    pose proof (rel_bounds _ _ _ R2 ltac:(lra)) as B2.
    set (q := fdiv (lit 1079 3) (of_N (2 ^ p))) in *.
    assert (R3 : rel (3 * u) (val (of_Z 1) + val q) (1 + 1.079 / m_R p)).
    { apply rel_add; auto; try lra. rewrite V1. apply rel_le with 0; [lra|apply rel_refl]. }
    pose proof (rel_bounds _ _ _ R3 ltac:(lra)) as B3.
    destruct (fadd_is (of_Z 1) q) as [F4 V4]; auto.
    { rewrite Rabs_pos_eq by nra.
      apply Rle_trans with (bpow radix2 1); [simpl bpow; nra|apply bpow_le; lia]. }
    assert (R4 : rel (5 * u) (val (fadd (of_Z 1) q)) (1 + 1.079 / m_R p)).
    { rewrite V4. eapply rel_le; [|apply rel_rnd_s; [| |exact R3]]; try (unfold small; lra).
      right. rewrite Rabs_pos_eq by nra.
      apply Rle_trans with (bpow radix2 (-1)); [apply bpow_le; lia|simpl bpow; nra]. }
    pose proof (rel_bounds _ _ _ R4 ltac:(lra)) as B4.
    set (d := fadd (of_Z 1) q) in *.
    (* the quotient *)
    assert (R5 : rel (1.001 * (u + 5 * u)) (val (lit 7213 4) / val d) (alpha_R p)).
    { rewrite EA. apply rel_div_s; try (unfold small; lra); auto. }
    assert (BA : / 2 <= alpha_R p <= 1).
    { rewrite EA. split.
      - apply Rmult_le_reg_r with (1 + 1.079 / m_R p); [lra|].
        unfold Rdiv at 2. rewrite Rmult_assoc, Rinv_l by lra. lra.
      - apply Rmult_le_reg_r with (1 + 1.079 / m_R p); [lra|].
        unfold Rdiv at 1. rewrite Rmult_assoc, Rinv_l by lra. lra. }
    pose proof (rel_bounds _ _ _ R5 ltac:(lra)) as B5.
    destruct (fdiv_is (lit 7213 4) d) as [F6 V6]; auto.
    { nra. }
    { rewrite Rabs_pos_eq by nra.
      apply Rle_trans with (bpow radix2 1); [simpl bpow; nra|apply bpow_le; lia]. }
    split; [exact F6|]. split; [|exact BA].
    rewrite V6. eapply rel_le; [|apply rel_rnd_s; [| |exact R5]]; try (unfold small; lra).
    right. rewrite Rabs_pos_eq by nra.
    apply Rle_trans with (bpow radix2 (-2)); [apply bpow_le; lia|simpl bpow; nra].
Qed.

(** ** The raw estimate *)
Lemma m_R_bounds : forall p, (4 <= p)%N -> (p <= 18)%N -> 16 <= m_R p <= 262144.
Proof.
  intros p H4 H18. unfold m_R. rewrite two_pow.
  change 16 with (bpow radix2 4). change 262144 with (bpow radix2 18).
  split; apply bpow_le; lia.
Qed.

Definition raw_f (e : env) (p : N) (l : list N) : f64 :=
  fdiv (fmul (alpha (2 ^ p)) (of_N (2 ^ p * 2 ^ p))) (fsum (sum_init e) l).

Lemma len_m : forall p (l : list N), N.of_nat (length l) = (2 ^ p)%N ->
  INR (length l) = m_R p.
Proof.
  intros p l H. unfold m_R. rewrite <- Z_of_N_pow2, <- H. rewrite nat_N_Z. apply INR_IZR_INZ.
Qed.

Lemma raw_R_bounds : forall p l, (4 <= p)%N -> (p <= 18)%N ->
  N.of_nat (length l) = (2 ^ p)%N -> Forall (fun v => (v < 64)%N) l ->
  0 < inv_sum l /\ alpha_R p * m_R p <= raw_R p l <= bpow radix2 81.
Proof.
  intros p l H4 H18 Hlen Hl. destruct (alpha_pow2 p H4 H18) as (_ & _ & HA).
  pose proof (m_R_bounds p H4 H18) as Hm. pose proof (len_m p l Hlen) as EL.
  pose proof (inv_sum_le l) as U. rewrite EL in U.
  assert (Hl63 : Forall (fun v => (v <= 63)%N) l).
  { eapply Forall_impl; [|exact Hl]. intros a Ha. cbv beta in *. lia. }
  pose proof (inv_sum_ge l 63 Hl63) as L. rewrite EL in L.
  change (- Z.of_N 63)%Z with (-63)%Z in L.
  pose proof (bpow_gt_0 radix2 (-63)) as P63.
  assert (HS : 0 < inv_sum l) by nra. split; auto. unfold raw_R. split.
  - apply Rmult_le_reg_r with (inv_sum l); auto. unfold Rdiv. rewrite (Rmult_assoc _ (/ _)), Rinv_l by lra.
    rewrite Rmult_1_r. rewrite Rmult_assoc. apply Rmult_le_compat_l; [lra|].
    apply Rmult_le_compat_l; lra.
  - apply Rmult_le_reg_r with (inv_sum l); auto. unfold Rdiv. rewrite (Rmult_assoc _ (/ _)), Rinv_l by lra.
    rewrite Rmult_1_r. apply Rle_trans with (bpow radix2 81 * (m_R p * bpow radix2 (-63))).
    + replace (bpow radix2 81 * (m_R p * bpow radix2 (-63)))
        with (m_R p * (bpow radix2 81 * bpow radix2 (-63))) by ring.
      rewrite <- bpow_plus. change (bpow radix2 (81 + -63)) with 262144. nra.
    + apply Rmult_le_compat_l; auto. apply bpow_ge_0.
Qed.

Lemma raw_f_gen : forall es e p l, 0 <= es <= bpow radix2 (-34) -> (4 <= p)%N -> (p <= 18)%N ->
  N.of_nat (length l) = (2 ^ p)%N -> Forall (fun v => (v < 64)%N) l ->
  fin (fsum (sum_init e) l) -> rel es (val (fsum (sum_init e) l)) (inv_sum l) ->
  fin (raw_f e p l) /\ rel (15 * u + 1.01 * es) (val (raw_f e p l)) (raw_R p l) /\
  7 <= val (raw_f e p l) <= bpow radix2 82.
Proof.
  intros es e p l He H4 H18 Hlen Hl FS RS. destruct (alpha_pow2 p H4 H18) as (FA & RA & HA).
  pose proof (m_R_bounds p H4 H18) as Hm. pose proof (len_m p l Hlen) as EL.
  destruct (raw_R_bounds p l H4 H18 Hlen Hl) as (HS & HR).
  pose proof u_pos as Hu. assert (Hu2 : u <= / 1000000) by (rewrite u_val; lra).
  assert (E2 : is (of_N (2 ^ p * 2 ^ p)) (m_R p * m_R p)).
  { rewrite <- N.pow_add_r. unfold m_R. rewrite two_pow, <- bpow_plus.
    replace (Z.of_N p + Z.of_N p)%Z with (Z.of_N (p + p)) by lia. apply of_N_pow2. lia. }
  destruct E2 as [F2 V2].
  assert (Hmm : 256 <= m_R p * m_R p <= 68719476736) by nra.
  assert (R1 : rel (9 * u) (val (alpha (2 ^ p)) * val (of_N (2 ^ p * 2 ^ p)))
                 (alpha_R p * (m_R p * m_R p))).
  { eapply rel_le; [|apply rel_mul_s; [| |exact RA|rewrite V2; apply rel_refl]];
      unfold small; lra. }
  assert (Hnum : 128 <= alpha_R p * (m_R p * m_R p) <= 68719476736) by nra.
  pose proof (rel_bounds _ _ _ R1 ltac:(lra)) as B1.
  destruct (fmul_is (alpha (2 ^ p)) (of_N (2 ^ p * 2 ^ p))) as [F3 V3]; auto.
  { rewrite Rabs_pos_eq by nra. apply Rle_trans with (bpow radix2 40); [simpl bpow; nra|].
    apply bpow_le. lia. }
  assert (R3 : rel (11 * u) (val (fmul (alpha (2 ^ p)) (of_N (2 ^ p * 2 ^ p))))
                 (alpha_R p * (m_R p * m_R p))).
  { rewrite V3. eapply rel_le; [|apply rel_rnd_s; [| |exact R1]]; try (unfold small; lra).
    right. rewrite Rabs_pos_eq by nra.
    apply Rle_trans with (bpow radix2 0); [apply bpow_le; lia|simpl bpow; nra]. }
  assert (E34 : bpow radix2 (-34) = / 17179869184) by reflexivity.
  assert (He' : 0 <= es <= / 17179869184) by lra.
  assert (R4 : rel (1.001 * (11 * u + es))
     (val (fmul (alpha (2 ^ p)) (of_N (2 ^ p * 2 ^ p))) / val (fsum (sum_init e) l))
     (raw_R p l)).
  { unfold raw_R. apply rel_div_s; auto; try (unfold small; lra). }
  assert (HRl : 8 <= raw_R p l).
  { apply Rle_trans with (alpha_R p * m_R p); [nra|lra]. }
  assert (Hu3 : u <= / 100000000000000) by (rewrite u_val; lra).
  pose proof (rel_bounds _ _ _ R4 ltac:(lra)) as B4.
  assert (Hsp : 0 < val (fsum (sum_init e) l)).
  { pose proof (rel_bounds _ _ _ RS ltac:(lra)). nra. }
  assert (B81 : bpow radix2 82 = 2 * bpow radix2 81).
  { change 82%Z with (1 + 81)%Z. rewrite bpow_plus. reflexivity. }
  pose proof (bpow_gt_0 radix2 81) as P81.
  set (X := val (fmul (alpha (2 ^ p)) (of_N (2 ^ p * 2 ^ p))) / val (fsum (sum_init e) l)) in *.
  assert (BX : 7.5 <= X <= 1.5 * bpow radix2 81) by (split; nra).
  destruct (fdiv_is (fmul (alpha (2 ^ p)) (of_N (2 ^ p * 2 ^ p))) (fsum (sum_init e) l)) as [F5 V5]; auto.
  { lra. }
  { fold X. rewrite Rabs_pos_eq by lra. apply Rle_trans with (bpow radix2 82); [lra|].
    apply bpow_le. lia. }
  fold X in V5. fold (raw_f e p l) in F5, V5.
  assert (NX : bpow radix2 (-1022) <= Rabs X).
  { rewrite Rabs_pos_eq by lra.
    apply Rle_trans with (bpow radix2 0); [apply bpow_le; lia|simpl bpow; lra]. }
  split; auto. split.
  - rewrite V5. eapply rel_le; [|apply rel_rnd_s; [| |exact R4]]; try (unfold small; lra).

  - rewrite V5. pose proof (rel_bounds _ _ _ (rel_rnd X NX) ltac:(lra)) as B. rewrite u_val in B. lra.
Qed.

Lemma raw_f_rel : forall e p l, build e -> (4 <= p)%N -> (p <= 18)%N ->
  N.of_nat (length l) = (2 ^ p)%N -> Forall (fun v => (v < 64)%N) l ->
  fin (raw_f e p l) /\ rel (bpow radix2 (-33)) (val (raw_f e p l)) (raw_R p l) /\
  7 <= val (raw_f e p l) <= bpow radix2 82.
Proof.
  intros e p l He H4 H18 Hlen Hl.
  assert (Hlz : (Z.of_nat (length l) <= 2 ^ 18)%Z).
  { assert ((2 ^ p <= 2 ^ 18)%N) by now apply pow2_le.
    change (2 ^ 18)%Z with (Z.of_N (2 ^ 18)). lia. }
  destruct (fsum_rel e l He Hl Hlz) as (FS & RS).
  assert (E34 : bpow radix2 (-34) = / 17179869184) by reflexivity.
  assert (E33 : bpow radix2 (-33) = / 8589934592) by reflexivity.
  destruct (raw_f_gen (bpow radix2 (-34)) e p l) as (F & R & B); auto; [lra|].
  split; [auto|]. split; [|auto]. eapply rel_le; [|exact R]. rewrite u_val. lra.
Qed.

(** ** Five-bit registers: the sum is exact *)
Lemma fsum_exact : forall l k z acc,
  Forall (fun v => (v < 32)%N) l -> fin acc -> (0 <= z <= Z.of_nat k * 2 ^ 31)%Z ->
  (Z.of_nat k + Z.of_nat (length l) <= 2 ^ 16)%Z ->
  val acc = IZR z * bpow radix2 (-31) ->
  is (fsum acc l) (IZR z * bpow radix2 (-31) + inv_sum l).
Proof.
  induction l as [|v l IH]; intros k z acc Hl Hf Hz Hk Hv.
  - split; auto. simpl fsum. rewrite Hv. unfold inv_sum. simpl fold_right. ring.
  - apply Forall_cons_iff in Hl. destruct Hl as [Hv32 Hl]. cbn [fsum fold_left].
    fold (fsum (fadd acc (invf v)) l).
    destruct (invf_is v ltac:(lia)) as [Fx Vx].
    set (y := (2 ^ (31 - Z.of_N v))%Z).
    assert (Hy : (0 <= y <= 2 ^ 31)%Z).
    { split; [apply Z.pow_nonneg; lia|apply Z.pow_le_mono_r; lia]. }
    assert (Ey : / IZR (2 ^ Z.of_N v) = IZR y * bpow radix2 (-31)).
    { rewrite two_pow, <- bpow_opp. unfold y. change 2%Z with (radix_val radix2).
      rewrite IZR_Zpower by lia. rewrite <- bpow_plus. f_equal. lia. }
    cbn [length] in Hk.
    assert (Es : val acc + val (invf v) = IZR (z + y) * bpow radix2 (-31)).
    { rewrite Hv, Vx, Ey, plus_IZR. ring. }
    assert (Hzy : (0 <= z + y <= 2 ^ 47)%Z).
    { split; [lia|]. apply Z.le_trans with (2 ^ 16 * 2 ^ 31)%Z; [|discriminate].
      apply Z.le_trans with ((Z.of_nat k + 1) * 2 ^ 31)%Z; [lia|].
      apply Z.mul_le_mono_nonneg_r; lia. }
    assert (G : rnd (val acc + val (invf v)) = IZR (z + y) * bpow radix2 (-31)).
    { rewrite Es. apply rnd_generic. apply generic_format_FLT.
      exists (Float radix2 (z + y) (-31)); simpl; try lia. reflexivity. }
    assert (A : is (fadd acc (invf v)) (IZR (z + y) * bpow radix2 (-31))).
    { rewrite <- G. apply fadd_is; auto. rewrite Es.
      rewrite Rabs_pos_eq by (apply Rmult_le_pos; [apply IZR_le; lia|apply bpow_ge_0]).
      apply Rle_trans with (bpow radix2 47 * bpow radix2 (-31)).
      - apply Rmult_le_compat_r; [apply bpow_ge_0|].
        rewrite <- (IZR_Zpower radix2 47) by lia. apply IZR_le. apply Hzy.
      - rewrite <- bpow_plus. apply bpow_le. lia. }
    destruct A as [FA VA].
    destruct (IH (S k) (z + y)%Z (fadd acc (invf v))) as [F R]; auto.
    + lia. + lia.
    + split; auto. rewrite R. unfold inv_sum. cbn [fold_right]. fold (inv_sum l).
      rewrite Ey, plus_IZR. ring.
Qed.

Lemma fsum_exact_pf : forall e l, build e -> Forall (fun v => (v < 32)%N) l ->
  (Z.of_nat (length l) <= 2 ^ 16)%Z -> is (fsum (sum_init e) l) (inv_sum l).
Proof.
  intros e l He Hl Hn. destruct (zero_is e He) as [F V].
  pose proof (fsum_exact l 0 0 (sum_init e) Hl F ltac:(lia) ltac:(lia)) as H.
  rewrite Rmult_0_l, Rplus_0_l in H. auto.
Qed.

Lemma raw_f_rel_pf : forall e p l, build e -> (4 <= p)%N -> (p <= 16)%N ->
  N.of_nat (length l) = (2 ^ p)%N -> Forall (fun v => (v < 32)%N) l ->
  fin (raw_f e p l) /\ rel (bpow radix2 (-49)) (val (raw_f e p l)) (raw_R p l) /\
  7 <= val (raw_f e p l) <= bpow radix2 82.
Proof.
  intros e p l He H4 H16 Hlen Hl.
  assert (Hlz : (Z.of_nat (length l) <= 2 ^ 16)%Z).
  { assert ((2 ^ p <= 2 ^ 16)%N) by now apply pow2_le.
    change (2 ^ 16)%Z with (Z.of_N (2 ^ 16)). lia. }
  destruct (fsum_exact_pf e l He Hl Hlz) as (FS & RS).
  assert (Hl64 : Forall (fun v => (v < 64)%N) l).
  { eapply Forall_impl; [|exact Hl]. intros a Ha. cbv beta in *. lia. }
  destruct (raw_f_gen 0 e p l) as (F & R & B); auto; try lia.
  - split; [lra|apply bpow_ge_0].
  - rewrite RS. apply rel_refl.
  - split; [auto|]. split; [|auto]. eapply rel_le; [|exact R]. rewrite u_val. simpl. lra.
Qed.
