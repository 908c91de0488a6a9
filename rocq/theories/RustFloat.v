(** * The floating-point operations of the model *)
From Coq Require Import NArith ZArith Bool Lia Reals Lra.
From Flocq Require Import Core BinarySingleNaN.
From Verif Require Import ModelF64 SpecRust.
Local Open Scope R_scope.

Lemma exp_same : forall x, round radix2 (SpecFloat.fexp 53 1024) (round_mode mode_NE) x = rounded x.
Proof. reflexivity. Qed.

Lemma overflow_inf : forall (f : f64) s, B2SF f = binary_overflow 53 1024 mode_NE s -> f = B754_infinity s.
Proof. intros [s'|s'| |s' m e H] s E; cbn in E; try discriminate. congruence. Qed.

Lemma rounded_0 : rounded 0 = 0.
Proof. apply round_0. typeclasses eauto. Qed.

Lemma big_not_0 : forall z, bpow radix2 1024 <= Rabs (rounded z) -> z <> 0.
Proof. intros z H ->. rewrite rounded_0, Rabs_R0 in H. pose proof (bpow_gt_0 radix2 1024). lra. Qed.

Lemma sign_cmp : forall z s, match Rcompare z 0 with Eq => s | Lt => true | Gt => false end = if Req_bool z 0 then s else Rlt_bool z 0.
Proof.
  intros. destruct (Rcompare_spec z 0).
  - rewrite Req_bool_false by lra. now rewrite Rlt_bool_true.
  - now rewrite Req_bool_true.
  - rewrite Req_bool_false by lra. rewrite Rlt_bool_false; [easy|lra].
Qed.

(** A nonzero value has the sign of the float. *)
Lemma sign_val : forall f : f64, is_finite f = true -> B2R f <> 0 -> Bsign f = Rlt_bool (B2R f) 0.
Proof.
  intros [s|s| |s m e H] F N; try discriminate; [now cbn in N|]. cbn in *. unfold F2R. cbn. pose proof (bpow_gt_0 radix2 e).
  assert (0 < IZR (Z.pos m)) by (apply IZR_lt; lia).
  destruct s; cbn [SpecFloat.cond_Zopp] in *.
  - rewrite Rlt_bool_true; [easy|]. change (Z.neg m) with (- Z.pos m)%Z. rewrite opp_IZR. nra.
  - rewrite Rlt_bool_false; [easy|]. nra.
Qed.

Lemma prod_sign : forall a b, a <> 0 -> b <> 0 -> Rlt_bool (a * b) 0 = xorb (Rlt_bool a 0) (Rlt_bool b 0).
Proof.
  intros a b A B. destruct (Rlt_bool_spec a 0), (Rlt_bool_spec b 0); cbn [xorb].
  - apply Rlt_bool_false. nra.
  - apply Rlt_bool_true. nra.
  - apply Rlt_bool_true. nra.
  - apply Rlt_bool_false. nra.
Qed.
Lemma inv_sign : forall b, b <> 0 -> Rlt_bool (/ b) 0 = Rlt_bool b 0.
Proof.
  intros b B. destruct (Rlt_bool_spec b 0).
  - apply Rlt_bool_true. now apply Rinv_lt_0_compat.
  - apply Rlt_bool_false. left. apply Rinv_0_lt_compat. lra.
Qed.

Lemma sum_sign : forall x y : f64, is_finite x = true -> is_finite y = true -> Bsign x = Bsign y -> B2R x + B2R y <> 0 ->
  Bsign x = Rlt_bool (B2R x + B2R y) 0.
Proof.
  intros x y Fx Fy S N. destruct (Req_dec (B2R x) 0) as [X|X].
  - rewrite X, Rplus_0_l in *. rewrite S. now apply sign_val.
  - destruct (Req_dec (B2R y) 0) as [Y|Y].
    + rewrite Y, Rplus_0_r in *. now apply sign_val.
    + pose proof (sign_val x Fx X) as A. pose proof (sign_val y Fy Y) as B. rewrite S in A. rewrite A in B.
      rewrite S, A. destruct (Rlt_bool_spec (B2R x) 0), (Rlt_bool_spec (B2R y) 0); try discriminate; symmetry;
        [apply Rlt_bool_true|apply Rlt_bool_false]; lra.
Qed.

Lemma add_ieee : forall x y, is_finite x = true -> is_finite y = true ->
  ieee (B2R x + B2R y) (Bsign x && Bsign y) (fadd x y).
Proof.
  intros x y Fx Fy. pose proof (Bplus_correct 53 1024 _ _ mode_NE x y Fx Fy) as H. rewrite exp_same in H.
  unfold ieee, fadd. destruct (Rlt_bool_spec (Rabs (rounded (B2R x + B2R y))) (bpow radix2 1024)) as [L|L].
  - destruct H as (A & B & C). rewrite sign_cmp in C. split; [now repeat split|lra].
  - destruct H as (A & B). split; [lra|]. intros _. rewrite (overflow_inf _ _ A). f_equal. apply sum_sign; auto. now apply big_not_0.
Qed.

Lemma sub_ieee : forall x y, is_finite x = true -> is_finite y = true ->
  ieee (B2R x - B2R y) (Bsign x && negb (Bsign y)) (fsub x y).
Proof.
  intros x y Fx Fy. pose proof (Bminus_correct 53 1024 _ _ mode_NE x y Fx Fy) as H. rewrite exp_same in H.
  unfold ieee, fsub. destruct (Rlt_bool_spec (Rabs (rounded (B2R x - B2R y))) (bpow radix2 1024)) as [L|L].
  - destruct H as (A & B & C). rewrite sign_cmp in C. split; [now repeat split|lra].
  - destruct H as (A & B). split; [lra|]. intros _. rewrite (overflow_inf _ _ A). f_equal.
    pose proof (B2R_Bopp 53 1024 y) as O. pose proof (is_finite_Bopp 53 1024 y) as FO.
    unfold Rminus. rewrite <- O. apply sum_sign; auto; [congruence| |rewrite O; apply (big_not_0 _ L)].
    rewrite Bsign_Bopp; [easy|]. destruct y; easy.
Qed.

Lemma fin_not_nan : forall f : f64, is_finite f = true -> is_nan f = false.
Proof. now intros []. Qed.

Lemma mul_ieee : forall x y, is_finite x = true -> is_finite y = true ->
  ieee (B2R x * B2R y) (xorb (Bsign x) (Bsign y)) (fmul x y).
Proof.
  intros x y Fx Fy. pose proof (Bmult_correct 53 1024 _ _ mode_NE x y) as H. rewrite exp_same in H.
  assert (S : B2R x * B2R y <> 0 -> xorb (Bsign x) (Bsign y) = Rlt_bool (B2R x * B2R y) 0).
  { intro N. assert (B2R x <> 0) by (intro Q; rewrite Q in N; lra). assert (B2R y <> 0) by (intro Q; rewrite Q in N; lra).
    rewrite prod_sign, !sign_val by auto. easy. }
  unfold ieee, fmul. destruct (Rlt_bool_spec (Rabs (rounded (B2R x * B2R y))) (bpow radix2 1024)) as [L|L].
  - destruct H as (A & B & C). rewrite Fx, Fy in B. split; [|lra]. intros _. split; [easy|split; [easy|]].
    rewrite C by now apply fin_not_nan. destruct (Req_bool_spec (B2R x * B2R y) 0); auto.
  - split; [lra|]. intros _. rewrite (overflow_inf _ _ H). f_equal. apply S. now apply big_not_0.
Qed.

Lemma div_ieee : forall x y, is_finite x = true -> is_finite y = true -> B2R y <> 0 ->
  ieee (B2R x / B2R y) (xorb (Bsign x) (Bsign y)) (fdiv x y).
Proof.
  intros x y Fx Fy Ny. pose proof (Bdiv_correct 53 1024 _ _ mode_NE x y Ny) as H. rewrite exp_same in H.
  assert (S : B2R x / B2R y <> 0 -> xorb (Bsign x) (Bsign y) = Rlt_bool (B2R x / B2R y) 0).
  { unfold Rdiv. intro N. assert (B2R x <> 0) by (intro Q; rewrite Q in N; lra).
    rewrite prod_sign, inv_sign, !sign_val by (auto using Rinv_neq_0_compat). easy. }
  unfold ieee, fdiv. destruct (Rlt_bool_spec (Rabs (rounded (B2R x / B2R y))) (bpow radix2 1024)) as [L|L].
  - destruct H as (A & B & C). rewrite Fx in B. split; [|lra]. intros _. split; [easy|split; [easy|]].
    rewrite C by now apply fin_not_nan. destruct (Req_bool_spec (B2R x / B2R y) 0); auto.
  - split; [lra|]. intros _. rewrite (overflow_inf _ _ H). f_equal. apply S. now apply big_not_0.
Qed.

Lemma of_Z_ieee : forall z, ieee (IZR z) false (of_Z z).
Proof.
  intros. pose proof (binary_normalize_correct 53 1024 _ _ mode_NE z 0 false) as H. cbv zeta in H. rewrite exp_same in H.
  replace (F2R {| Fnum := z; Fexp := 0 |}) with (IZR z) in H by (unfold F2R; cbn; ring).
  unfold ieee, of_Z. destruct (Rlt_bool_spec (Rabs (rounded (IZR z))) (bpow radix2 1024)) as [L|L].
  - destruct H as (A & B & C). rewrite sign_cmp in C. split; [now repeat split|lra].
  - split; [lra|]. intros _. exact (overflow_inf _ _ H).
Qed.

Lemma cmp_reals : forall x y, is_finite x = true -> is_finite y = true ->
  fcmp x y = Some (Rcompare (B2R x) (B2R y)) /\
  (fle x y = true <-> B2R x <= B2R y) /\ (flt x y = true <-> B2R x < B2R y).
Proof.
  intros x y Fx Fy. unfold fcmp, fle, flt. rewrite Bcompare_correct, Bleb_correct, Bltb_correct by auto. split; [easy|].
  split; [destruct (Rle_bool_spec (B2R x) (B2R y))|destruct (Rlt_bool_spec (B2R x) (B2R y))]; split; intros; try easy; lra.
Qed.

Lemma cmp_nan : forall x, fcmp x B754_nan = None /\ fle x B754_nan = false /\ flt x B754_nan = false /\
  fcmp B754_nan x = None /\ fle B754_nan x = false /\ flt B754_nan x = false.
Proof. intros []; repeat split. Qed.
