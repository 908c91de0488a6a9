(** * Linear counting in floats *)
From Coq Require Import NArith ZArith Reals Lra Lia Bool.
From Flocq Require Import Core BinarySingleNaN.
From Verif Require Import IntervalZ.
From Verif Require Import ModelRust ModelF64 ModelEnv ModelLog ModelCommon SpecReal SpecBuild
  BitFacts F64Facts LogFacts LogAccuracy.
Local Open Scope R_scope.
Local Notation ln := Rpower.ln.

Lemma pow_bpow : forall n, (0 <= n)%Z -> IZR (2 ^ n) = bpow radix2 n.
Proof. intros. now rewrite <- (IZR_Zpower radix2). Qed.

Lemma ln_ok : forall e x, accurate e -> fin x -> bpow radix2 (-100) <= val x <= bpow radix2 100 ->
  exists y, ModelCommon.ln e x = Ret y /\ fin y /\
    Rabs (val y - ln (val x)) <= bpow radix2 (-50) * Rabs (ln (val x)).
Proof.
  intros e x Ha Fx Hx. unfold ModelCommon.ln. destruct (feat_std e) eqn:Es.
  - destruct (Ha Es x Fx) as [F A].
    { rewrite (pow_bpow 100) by lia. rewrite <- bpow_opp. exact Hx. }
    eexists. split; [reflexivity|split; [exact F|]].
    rewrite (pow_bpow 50), <- bpow_opp in A by lia. exact A.
  - pose proof (bpow_gt_0 radix2 (-100)).
    destruct (log_accurate (overflow_checks e) x Fx ltac:(lra)) as (y & E & Fy & A).
    exists y. split; [auto|split; [auto|]]. eapply Rle_trans; [exact A|].
    apply Rmult_le_compat_r; [apply Rabs_pos|]. rewrite u_val. simpl. lra.
Qed.

Lemma ln_1d : forall d, Rabs d <= u -> Rabs (ln (1 + d)) <= 1.01 * u.
Proof.
  intros d Hd. rewrite u_val in *. apply Rabs_le_inv in Hd.
  assert (U : ln (1 + d) <= d).
  { pose proof (exp_ineq1_le (ln (1 + d))) as I. rewrite exp_ln in I by lra. lra. }
  assert (L : - d / (1 + d) >= - ln (1 + d)).
  { rewrite <- ln_Rinv by lra. pose proof (exp_ineq1_le (ln (/ (1 + d)))) as I.
    rewrite exp_ln in I by (apply Rinv_0_lt_compat; lra).
    replace (- d / (1 + d)) with (/ (1 + d) - 1) by (field; lra). lra. }
  assert (V : - d / (1 + d) <= 1.01 * / 9007199254740992).
  { apply Rmult_le_reg_r with (1 + d); [lra|]. unfold Rdiv. rewrite Rmult_assoc, Rinv_l by lra. nra. }
  apply Rabs_le. lra.
Qed.

Lemma ln_low : forall m v, 0 < v -> v + 1 <= m -> / m <= ln (m / v).
Proof.
  intros m v Hv Hm.
  assert (E : ln (m / v) = - ln (v / m)).
  { rewrite <- ln_Rinv by (apply Rdiv_lt_0_compat; lra). f_equal. field. lra. }
  rewrite E.
  assert (H : ln (v / m) <= v / m - 1).
  { pose proof (exp_ineq1_le (ln (v / m))) as I.
    rewrite exp_ln in I by (apply Rdiv_lt_0_compat; lra). lra. }
  assert (v / m - 1 <= - / m); [|lra].
  apply Rmult_le_reg_r with m; [lra|]. field_simplify; lra.
Qed.

Lemma ln_le : forall x y, 0 < x -> x <= y -> ln x <= ln y.
Proof.
  intros x y Hx [H| ->]; [|apply Rle_refl]. apply Rlt_le. now apply ln_increasing.
Qed.

Lemma N_R : forall n, (1 <= n)%N -> 1 <= IZR (Z.of_N n).
Proof. intros. apply IZR_le. lia. Qed.

(** The float linear count against the real one. *)
Lemma linear_ok : forall e m v, accurate e -> (1 <= v)%N -> (v <= m)%N -> (m <= 2 ^ 24)%N ->
  exists c, linear_count e m v = Ret c /\ fin c /\
    (v = m -> val c = 0) /\
    ((v < m)%N -> 1 <= linear_R m v) /\
    Rabs (val c - linear_R m v) <=
      bpow radix2 (-49) * linear_R m v + 1.02 * u * IZR (Z.of_N m) /\
    Rabs (val c - linear_R m v) <= bpow radix2 (-28) * Rabs (linear_R m v).
Proof.
  intros e m v Ha Hv Hvm Hm.
  destruct (of_N_exact m ltac:(lia)) as [Fm Vm]. destruct (of_N_exact v ltac:(lia)) as [Fv Vv].
  assert (PM : 1 <= IZR (Z.of_N m) <= 16777216).
  { split; [apply N_R; lia|]. apply IZR_le. change (2 ^ 24)%N with 16777216%N in Hm. lia. }
  assert (PV : 1 <= IZR (Z.of_N v) <= IZR (Z.of_N m)).
  { split; [apply N_R; lia|]. apply IZR_le. lia. }
  set (M := IZR (Z.of_N m)) in *. set (W := IZR (Z.of_N v)) in *.
  assert (RQ : 1 <= M / W <= 16777216).
  { split; apply Rmult_le_reg_r with W; try lra; field_simplify; try lra. }
  destruct (fdiv_is (of_N m) (of_N v) Fm Fv) as [Fx Vx].
  { rewrite Vv. lra. }
  { rewrite Vm, Vv. rewrite Rabs_pos_eq by lra. apply Rle_trans with (bpow radix2 24).
    - simpl. lra. - apply bpow_le. lia. }
  rewrite Vm, Vv in Vx.
  assert (XB : 1 <= val (fdiv (of_N m) (of_N v)) <= bpow radix2 24).
  { rewrite Vx. split.
    - apply (rnd_ge_bpow _ 0); [lia|]. simpl. lra.
    - apply rnd_le_bpow; [lia|]. simpl. lra. }
  destruct (rnd_rel (M / W)) as (d & Hd & Ed).
  { rewrite Rabs_pos_eq by lra. apply Rle_trans with (bpow radix2 0); [apply bpow_le; lia|simpl; lra]. }
  set (x := fdiv (of_N m) (of_N v)) in *.
  destruct (ln_ok e x Ha Fx) as (y & Ey & Fy & Ay).
  { split; [apply Rle_trans with (bpow radix2 0); [apply bpow_le; lia|simpl; lra]|].
    eapply Rle_trans; [apply XB|]. apply bpow_le. lia. }
  unfold linear_count. fold x. rewrite Ey, bind_ret.
  assert (LX : ln (val x) = ln (M / W) + ln (1 + d)).
  { rewrite Vx, Ed. apply ln_mult; [lra|]. rewrite u_val in Hd. apply Rabs_le_inv in Hd. lra. }
  pose proof (ln_1d d Hd) as LD.
  assert (LXU : 0 <= ln (val x) <= 17).
  { split.
    - rewrite <- ln_1. apply ln_le; lra.
    - apply Rle_trans with (ln (bpow radix2 24)); [apply ln_le; lra|]. simpl. bound_const 60%Z. }
  assert (YU : Rabs (val y) <= 18).
  { replace (val y) with (val y - ln (val x) + ln (val x)) by ring.
    eapply Rle_trans; [apply Rabs_triang|]. rewrite (Rabs_pos_eq (ln (val x))) in * by lra.
    simpl bpow in Ay. lra. }
  destruct (fmul_is (of_N m) y Fm Fy) as [Fc Vc].
  { rewrite Vm, Rabs_mult, (Rabs_pos_eq M) by lra.
    apply Rle_trans with (bpow radix2 29).
    - change (bpow radix2 29) with 536870912. nra.
    - apply bpow_le. lia. }
  rewrite Vm in Vc. eexists. split; [reflexivity|split; [exact Fc|]].
  change (linear_R m v) with (M * ln (M / W)).
  destruct (N.eq_dec v m) as [->|Ne].
  - (* no occupied bucket *)
    assert (E1 : M / W = 1) by (unfold W; fold M; field; lra).
    assert (VX1 : val x = 1).
    { rewrite Vx, E1. apply rnd_generic. change 1 with (bpow radix2 0). apply bpow_generic. lia. }
    rewrite VX1, ln_1, Rminus_0_r, Rabs_R0, Rmult_0_r in Ay.
    assert (VY : val y = 0) by (apply Rabs_eq_R0; pose proof (Rabs_pos (val y)); lra).
    rewrite VY, Rmult_0_r, rnd_0 in Vc. rewrite Vc, E1, ln_1, Rmult_0_r, Rminus_0_r, Rabs_R0.
    split; [auto|]. split; [lia|]. pose proof u_pos. split; [|lra].
    rewrite Rmult_0_r, Rplus_0_l. apply Rmult_le_pos; lra.
  - (* some occupied bucket *)
    assert (HW : W + 1 <= M).
    { unfold W, M. rewrite <- plus_IZR. apply IZR_le. lia. }
    pose proof (ln_low M W ltac:(lra) HW) as LL.
    assert (ML : 1 <= M * ln (M / W)).
    { apply Rle_trans with (M * / M); [rewrite Rinv_r; lra|]. apply Rmult_le_compat_l; lra. }
    split; [lia|]. split; [auto|].
    set (L := ln (M / W)) in *. set (dl := ln (1 + d)) in *.
    assert (LLm : / 16777216 <= L).
    { eapply Rle_trans; [|exact LL]. apply Rinv_le; lra. }
    rewrite u_val in *. rewrite LX in *.
    rewrite (Rabs_pos_eq (L + dl)) in Ay by lra.
    assert (P1 : 0 < val y) by (apply Rabs_le_inv in Ay; apply Rabs_le_inv in LD; simpl bpow in Ay; lra).
    destruct (rnd_rel (M * val y)) as (d2 & Hd2 & Ec).
    { rewrite Rabs_pos_eq by nra. apply Rle_trans with (bpow radix2 (-30)); [apply bpow_le; lia|].
      apply Rabs_le_inv in Ay. apply Rabs_le_inv in LD. simpl bpow in *.
      apply Rle_trans with (1 * val y); [lra|]. apply Rmult_le_compat_r; lra. }
    rewrite Vc, Ec. rewrite u_val in Hd2.
    assert (LL2 : L <= 17.01) by (apply Rabs_le_inv in LD; lra).
    clearbody L dl. clear LX Ed Vx Vc Ec Ey LXU.
    assert (Q1 : Rabs (val y - L) <= bpow radix2 (-50) * L + 1.011 * / 9007199254740992).
    { replace (val y - L) with (val y - (L + dl) + dl) by ring.
      eapply Rle_trans; [apply Rabs_triang|]. pose proof LD as LD'. apply Rabs_le_inv in LD'.
      simpl bpow in *. nra. }
    assert (Q2 : Rabs (val y * d2) <= / 9007199254740992 * (L * 1.001 + 1.1 * / 9007199254740992)).
    { rewrite Rabs_mult, Rmult_comm. apply Rmult_le_compat; auto using Rabs_pos.
      rewrite Rabs_pos_eq by lra. apply Rabs_le_inv in Q1. simpl bpow in Q1. lra. }
    assert (Q3 : Rabs (val y * (1 + d2) - L) <= bpow radix2 (-49) * L + 1.02 * / 9007199254740992).
    { replace (val y * (1 + d2) - L) with (val y - L + val y * d2) by ring.
      eapply Rle_trans; [apply Rabs_triang|]. simpl bpow in *. lra. }
    assert (Q4 : Rabs (M * val y * (1 + d2) - M * L) <=
       bpow radix2 (-49) * (M * L) + 1.02 * / 9007199254740992 * M).
    { replace (M * val y * (1 + d2) - M * L) with (M * (val y * (1 + d2) - L)) by ring.
      rewrite Rabs_mult, (Rabs_pos_eq M) by lra.
      replace (bpow radix2 (-49) * (M * L) + 1.02 * / 9007199254740992 * M)
        with (M * (bpow radix2 (-49) * L + 1.02 * / 9007199254740992)) by ring.
      apply Rmult_le_compat_l; lra. }
    split; auto. eapply Rle_trans; [exact Q4|].
    rewrite (Rabs_pos_eq (M * L)) by lra. clear - ML PM. simpl bpow. nra.
Qed.
