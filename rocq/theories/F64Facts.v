(** * f64 operations and real numbers *)
From Coq Require Import NArith ZArith Reals Lra Lia Bool.
From Flocq Require Import Core BinarySingleNaN Relative Plus_error.
From Verif Require Import ModelF64.
Local Open Scope R_scope.

(** Rounding to nearest even in binary64. *)
Definition rnd (x : R) : R := round radix2 (FLT_exp (-1074) 53) ZnearestE x.

(** The value of a finite f64, and finiteness. *)
Definition val (x : f64) : R := B2R x.
Definition fin (x : f64) : Prop := is_finite x = true.
(** [x] is finite with value [r]. *)
Definition is (x : f64) (r : R) : Prop := fin x /\ val x = r.

Definition u : R := bpow radix2 (-53).

#[global] Instance valid_flt : Valid_exp (FLT_exp (-1074) 53).
Proof. apply FLT_exp_valid. reflexivity. Qed.

Lemma u_val : u = / 9007199254740992.
Proof. reflexivity. Qed.

Lemma u_pos : 0 < u.
Proof. apply bpow_gt_0. Qed.

Lemma rnd_rel : forall x, bpow radix2 (-1022) <= Rabs x ->
  exists d, Rabs d <= u /\ rnd x = x * (1 + d).
Proof.
  intros x Hx.
  destruct (relative_error_N_FLT_ex radix2 (-1074) 53 eq_refl (fun x => negb (Z.even x)) x)
    as (d & Hd & E).
  { exact Hx. }
  exists d. split; [|exact E].
  eapply Rle_trans; [exact Hd|]. apply Req_le.
  rewrite u_val. change (bpow radix2 (- (53) + 1)) with (/ 4503599627370496). lra.
Qed.

Lemma rnd_le : forall x y, x <= y -> rnd x <= rnd y.
Proof. intros. now apply round_le; [apply valid_flt|apply valid_rnd_N|]. Qed.

Lemma rnd_generic : forall x, generic_format radix2 (FLT_exp (-1074) 53) x -> rnd x = x.
Proof. intros. now apply round_generic; [apply valid_rnd_N|]. Qed.

Lemma rnd_id : forall x : f64, rnd (val x) = val x.
Proof. intros. apply rnd_generic. apply (generic_format_B2R 53 1024). Qed.

Lemma rnd_0 : rnd 0 = 0.
Proof. apply round_0. apply valid_rnd_N. Qed.

Lemma bpow_generic : forall e, (-1074 <= e)%Z ->
  generic_format radix2 (FLT_exp (-1074) 53) (bpow radix2 e).
Proof. intros. apply generic_format_bpow. unfold FLT_exp. lia. Qed.

Lemma rnd_abs_le : forall x e, (-1074 <= e)%Z -> Rabs x <= bpow radix2 e ->
  Rabs (rnd x) <= bpow radix2 e.
Proof.
  intros x e He Hx. apply abs_round_le_generic; auto;
    [apply valid_flt|apply valid_rnd_N|now apply bpow_generic].
Qed.

Lemma rnd_ge_bpow : forall x e, (-1074 <= e)%Z -> bpow radix2 e <= x -> bpow radix2 e <= rnd x.
Proof.
  intros x e He Hx. apply round_ge_generic; auto;
    [apply valid_flt|apply valid_rnd_N|now apply bpow_generic].
Qed.

Lemma rnd_le_bpow : forall x e, (-1074 <= e)%Z -> x <= bpow radix2 e -> rnd x <= bpow radix2 e.
Proof.
  intros x e He Hx. apply round_le_generic; auto;
    [apply valid_flt|apply valid_rnd_N|now apply bpow_generic].
Qed.

(** No overflow below 2^1023. *)
Lemma no_overflow : forall x, Rabs x <= bpow radix2 1023 ->
  Rlt_bool (Rabs (rnd x)) (bpow radix2 1024) = true.
Proof.
  intros x Hx. apply Rlt_bool_true. apply Rle_lt_trans with (bpow radix2 1023).
  - apply rnd_abs_le; auto. lia.
  - apply bpow_lt. lia.
Qed.

Lemma fadd_is : forall x y, fin x -> fin y -> Rabs (val x + val y) <= bpow radix2 1023 ->
  is (fadd x y) (rnd (val x + val y)).
Proof.
  intros x y Fx Fy H. pose proof (Bplus_correct 53 1024 _ _ mode_NE x y Fx Fy) as C.
  fold (val x) (val y) in C.
  change (round radix2 (SpecFloat.fexp 53 1024) (round_mode mode_NE) (val x + val y))
    with (rnd (val x + val y)) in C.
  rewrite no_overflow in C by auto. split; apply C.
Qed.

Lemma fsub_is : forall x y, fin x -> fin y -> Rabs (val x - val y) <= bpow radix2 1023 ->
  is (fsub x y) (rnd (val x - val y)).
Proof.
  intros x y Fx Fy H. pose proof (Bminus_correct 53 1024 _ _ mode_NE x y Fx Fy) as C.
  fold (val x) (val y) in C.
  change (round radix2 (SpecFloat.fexp 53 1024) (round_mode mode_NE) (val x - val y))
    with (rnd (val x - val y)) in C.
  rewrite no_overflow in C by auto. split; apply C.
Qed.

Lemma fmul_is : forall x y, fin x -> fin y -> Rabs (val x * val y) <= bpow radix2 1023 ->
  is (fmul x y) (rnd (val x * val y)).
Proof.
  intros x y Fx Fy H. pose proof (Bmult_correct 53 1024 _ _ mode_NE x y) as C.
  fold (val x) (val y) in C.
  change (round radix2 (SpecFloat.fexp 53 1024) (round_mode mode_NE) (val x * val y))
    with (rnd (val x * val y)) in C.
  rewrite no_overflow in C by auto. destruct C as (A & B & _).
  split; [|exact A]. unfold fin, fmul. rewrite B, Fx, Fy. reflexivity.
Qed.

Lemma fdiv_is : forall x y, fin x -> fin y -> val y <> 0 ->
  Rabs (val x / val y) <= bpow radix2 1023 ->
  is (fdiv x y) (rnd (val x / val y)).
Proof.
  intros x y Fx Fy Hy H. pose proof (Bdiv_correct 53 1024 _ _ mode_NE x y Hy) as C.
  fold (val x) (val y) in C.
  change (round radix2 (SpecFloat.fexp 53 1024) (round_mode mode_NE) (val x / val y))
    with (rnd (val x / val y)) in C.
  rewrite no_overflow in C by auto. destruct C as (A & B & _).
  split; [|exact A]. unfold fin, fdiv. now rewrite B, Fx.
Qed.

(** Integers. *)
Lemma of_Z_is : forall z, (Z.abs z <= 2 ^ 1000)%Z -> is (of_Z z) (rnd (IZR z)).
Proof.
  intros z Hz.
  pose proof (binary_normalize_correct 53 1024 prec53 emax1024 mode_NE z 0 false) as C.
  assert (E : F2R (beta := radix2) {| Fnum := z; Fexp := 0 |} = IZR z).
  { unfold F2R. simpl. lra. }
  cbv zeta in C. rewrite E in C.
  change (round radix2 (SpecFloat.fexp 53 1024) (round_mode mode_NE) (IZR z))
    with (rnd (IZR z)) in C.
  rewrite no_overflow in C. { split; apply C. }
  rewrite <- abs_IZR. apply Rle_trans with (bpow radix2 1000).
  - rewrite <- IZR_Zpower by lia. now apply IZR_le.
  - apply bpow_le. lia.
Qed.

Lemma int_generic : forall z, (Z.abs z <= 2 ^ 53)%Z ->
  generic_format radix2 (FLT_exp (-1074) 53) (IZR z).
Proof.
  intros z Hz. destruct (Z.eq_dec (Z.abs z) (2 ^ 53)) as [E|E].
  - assert (Hb : generic_format radix2 (FLT_exp (-1074) 53) (IZR (2 ^ 53))).
    { change (IZR (2 ^ 53)) with (bpow radix2 53). apply bpow_generic. lia. }
    destruct (Z.abs_eq_or_opp z) as [A|A]; rewrite A in E.
    + now rewrite E.
    + replace z with (- (2 ^ 53))%Z by lia. rewrite opp_IZR. now apply generic_format_opp.
  - apply generic_format_FLT. exists (Float radix2 z 0); simpl; try lia.
    unfold F2R. simpl. lra.
Qed.

Lemma of_Z_exact : forall z, (Z.abs z <= 2 ^ 53)%Z -> is (of_Z z) (IZR z).
Proof.
  intros z Hz. rewrite <- (rnd_generic (IZR z)) by now apply int_generic.
  apply of_Z_is. eapply Z.le_trans; [exact Hz|]. apply Z.pow_le_mono_r; lia.
Qed.

Lemma of_N_exact : forall n, (n <= 2 ^ 53)%N -> is (of_N n) (IZR (Z.of_N n)).
Proof.
  intros n Hn. unfold of_N. apply of_Z_exact. rewrite Z.abs_eq by lia.
  change (2 ^ 53)%Z with (Z.of_N (2 ^ 53)). lia.
Qed.

(** Powers of ten up to 10^22 are exact. *)
Lemma ten_exact : forall k, (k <= 22)%N -> is (of_Z (10 ^ Z.of_N k)) (10 ^ N.to_nat k).
Proof.
  intros k Hk.
  assert (EP : IZR (10 ^ Z.of_N k) = 10 ^ N.to_nat k).
  { rewrite pow_IZR. do 2 f_equal. lia. }
  assert (H10 : (0 <= 10 ^ Z.of_N k)%Z) by (apply Z.pow_nonneg; lia).
  assert (H10' : (10 ^ Z.of_N k <= 10 ^ 22)%Z) by (apply Z.pow_le_mono_r; lia).
  rewrite <- EP. rewrite <- (rnd_generic (IZR (10 ^ Z.of_N k))).
  - apply of_Z_is. rewrite Z.abs_eq by lia. eapply Z.le_trans; [exact H10'|].
    apply Z.leb_le. vm_compute. reflexivity.
  - apply generic_format_FLT. exists (Float radix2 (5 ^ Z.of_N k) (Z.of_N k)); simpl; try lia.
    + unfold F2R. simpl. rewrite <- (IZR_Zpower radix2) by lia. rewrite <- mult_IZR. f_equal.
      rewrite <- Z.pow_mul_l. reflexivity.
    + rewrite Z.abs_eq by (apply Z.pow_nonneg; lia).
      apply Z.le_lt_trans with (5 ^ 22)%Z; [apply Z.pow_le_mono_r; lia|reflexivity].
Qed.

(** Decimal literals are the correctly rounded decimals. *)
Lemma lit_correct : forall n k, (Z.abs n <= 2 ^ 53)%Z -> (k <= 22)%N ->
  is (lit n k) (rnd (IZR n / 10 ^ N.to_nat k)).
Proof.
  intros n k Hn Hk. unfold lit.
  destruct (of_Z_exact n Hn) as [Fn Vn]. destruct (ten_exact k Hk) as [Fk Vk].
  assert (HP : 1 <= 10 ^ N.to_nat k) by (apply pow_R1_Rle; lra).
  replace (IZR n / 10 ^ N.to_nat k) with (val (of_Z n) / val (of_Z (10 ^ Z.of_N k))).
  2:{ rewrite Vn, Vk. reflexivity. }
  apply fdiv_is; auto.
  - rewrite Vk. lra.
  - rewrite Vn, Vk. unfold Rdiv. rewrite Rabs_mult, Rabs_inv.
    rewrite (Rabs_pos_eq (10 ^ N.to_nat k)) by lra.
    apply Rle_trans with (bpow radix2 53 * 1).
    + apply Rmult_le_compat; try apply Rabs_pos.
      * apply Rlt_le, Rinv_0_lt_compat. lra.
      * rewrite <- abs_IZR. rewrite <- (IZR_Zpower radix2 53) by lia. now apply IZR_le.
      * rewrite <- Rinv_1. apply Rinv_le; lra.
    + rewrite Rmult_1_r. apply bpow_le. lia.
Qed.

(** Comparisons of finite numbers. *)
Lemma fle_spec : forall x y, fin x -> fin y -> fle x y = Rle_bool (val x) (val y).
Proof. intros. now apply Bleb_correct. Qed.

Lemma flt_spec : forall x y, fin x -> fin y -> flt x y = Rlt_bool (val x) (val y).
Proof. intros. now apply Bltb_correct. Qed.

Lemma fcmp_spec : forall x y, fin x -> fin y -> fcmp x y = Some (Rcompare (val x) (val y)).
Proof. intros. now apply Bcompare_correct. Qed.

(** Absolute error. *)
Lemma rnd_err : forall x k, (-1000 <= k)%Z -> Rabs x <= bpow radix2 k ->
  Rabs (rnd x - x) <= bpow radix2 (k - 53).
Proof.
  intros x k Hk Hx.
  pose proof (error_le_half_ulp radix2 (FLT_exp (-1074) 53) (fun x => negb (Z.even x)) x) as H.
  eapply Rle_trans; [exact H|].
  assert (U : ulp radix2 (FLT_exp (-1074) 53) x <= bpow radix2 (k + 1 - 53)).
  { eapply Rle_trans.
    - apply ulp_le; [apply valid_flt|apply FLT_exp_monotone|].
      rewrite (Rabs_pos_eq (bpow radix2 k)) by apply bpow_ge_0. exact Hx.
    - rewrite ulp_bpow. apply bpow_le. unfold FLT_exp. lia. }
  replace (k - 53)%Z with (-1 + (k + 1 - 53))%Z by lia. rewrite bpow_plus.
  change (bpow radix2 (-1)) with (/ 2). lra.
Qed.

(** ** Relative error *)
Definition rel (eps x y : R) : Prop := exists d, Rabs d <= eps /\ x = y * (1 + d).

Lemma rel_refl : forall x, rel 0 x x.
Proof. intros. exists 0. rewrite Rabs_R0. split; lra. Qed.

Lemma rel_le : forall e e' x y, e <= e' -> rel e x y -> rel e' x y.
Proof. intros e e' x y H (d & Hd & E). exists d. split; auto. lra. Qed.

Lemma rel_bounds : forall e x y, rel e x y -> 0 <= y -> y * (1 - e) <= x <= y * (1 + e).
Proof.
  intros e x y (d & Hd & ->) Hy. apply Rabs_le_inv in Hd.
  split; apply Rmult_le_compat_l; lra.
Qed.

Lemma rel_of_bounds : forall e x y, 0 < y -> y * (1 - e) <= x <= y * (1 + e) -> rel e x y.
Proof.
  intros e x y Hy [H1 H2]. exists (x / y - 1). split.
  - apply Rabs_le. split; [apply Rmult_le_reg_l with y|apply Rmult_le_reg_l with y]; auto;
      field_simplify; lra.
  - field. lra.
Qed.

Lemma rel_abs : forall e x y, rel e x y -> Rabs (x - y) <= e * Rabs y.
Proof.
  intros e x y (d & Hd & ->). replace (y * (1 + d) - y) with (d * y) by ring.
  rewrite Rabs_mult. apply Rmult_le_compat_r; auto. apply Rabs_pos.
Qed.

Lemma rel_of_abs : forall e x y, y <> 0 -> Rabs (x - y) <= e * Rabs y -> rel e x y.
Proof.
  intros e x y Hy H. exists ((x - y) / y). split.
  - unfold Rdiv. rewrite Rabs_mult, Rabs_inv.
    apply Rmult_le_reg_r with (Rabs y); [now apply Rabs_pos_lt|].
    rewrite Rmult_assoc, Rinv_l; [lra|]. now apply Rabs_no_R0.
  - field. auto.
Qed.

Lemma rel_mul : forall e1 e2 x1 y1 x2 y2, rel e1 x1 y1 -> rel e2 x2 y2 ->
  rel (e1 + e2 + e1 * e2) (x1 * x2) (y1 * y2).
Proof.
  intros e1 e2 x1 y1 x2 y2 (d1 & H1 & ->) (d2 & H2 & ->).
  exists (d1 + d2 + d1 * d2). split; [|ring].
  assert (P1 : 0 <= Rabs d1) by apply Rabs_pos. assert (P2 : 0 <= Rabs d2) by apply Rabs_pos.
  eapply Rle_trans; [apply Rabs_triang|]. rewrite Rabs_mult.
  apply Rplus_le_compat.
  - eapply Rle_trans; [apply Rabs_triang|]. lra.
  - apply Rmult_le_compat; auto.
Qed.

Lemma rel_inv : forall e x y, rel e x y -> e < 1 -> y <> 0 -> rel (e / (1 - e)) (/ x) (/ y).
Proof.
  intros e x y (d & Hd & ->) He Hy.
  assert (P : 0 <= Rabs d) by apply Rabs_pos.
  pose proof (Rabs_le_inv _ _ Hd).
  exists (- d / (1 + d)). split.
  - unfold Rdiv. rewrite Rabs_mult, Rabs_inv, Rabs_Ropp.
    apply Rmult_le_compat; auto.
    + apply Rlt_le, Rinv_0_lt_compat. apply Rabs_pos_lt. lra.
    + apply Rinv_le; [lra|]. rewrite (Rabs_pos_eq (1 + d)); lra.
  - field. split; auto. lra.
Qed.

Lemma rel_div : forall e1 e2 x1 y1 x2 y2, rel e1 x1 y1 -> rel e2 x2 y2 -> e2 < 1 -> y2 <> 0 ->
  rel (e1 + e2 / (1 - e2) + e1 * (e2 / (1 - e2))) (x1 / x2) (y1 / y2).
Proof. intros. apply rel_mul; auto. now apply rel_inv. Qed.

Lemma rel_trans : forall e1 e2 x y z, rel e1 x y -> rel e2 y z -> rel (e1 + e2 + e1 * e2) x z.
Proof.
  intros e1 e2 x y z H1 H2. destruct H1 as (d1 & H1 & ->). destruct H2 as (d2 & H2 & ->).
  replace (z * (1 + d2) * (1 + d1)) with ((1 + d1) * (z * (1 + d2))) by ring.
  replace z with (1 * z) at 2 by ring.
  apply rel_mul. { exists d1. split; auto. ring. } { exists d2. split; auto. }
Qed.

Lemma rel_add : forall e x1 y1 x2 y2, rel e x1 y1 -> rel e x2 y2 -> 0 <= y1 -> 0 <= y2 ->
  0 < y1 + y2 -> rel e (x1 + x2) (y1 + y2).
Proof.
  intros e x1 y1 x2 y2 R1 R2 P1 P2 P.
  apply rel_bounds in R1; auto. apply rel_bounds in R2; auto.
  apply rel_of_bounds; auto. lra.
Qed.

Lemma rel_rnd : forall x, bpow radix2 (-1022) <= Rabs x -> rel u (rnd x) x.
Proof. intros x H. destruct (rnd_rel x H) as (d & Hd & E). exists d. auto. Qed.

Lemma rel_rnd_0 : forall x, (x = 0 \/ bpow radix2 (-1022) <= Rabs x) -> rel u (rnd x) x.
Proof.
  intros x [->|H]; [|now apply rel_rnd]. exists 0. rewrite rnd_0, Rabs_R0.
  split; [apply Rlt_le, u_pos|ring].
Qed.

(** Subtraction has no underflow error. *)
Lemma rnd_sub_rel : forall x y : f64, rel u (rnd (val x - val y)) (val x - val y).
Proof.
  intros x y.
  destruct (FLT_plus_error_N_ex radix2 (-1074) 53 (fun x => negb (Z.even x))
              (val x) (- val y)) as (d & Hd & E).
  { apply (generic_format_B2R 53 1024). }
  { apply generic_format_opp, (generic_format_B2R 53 1024). }
  exists d. split; [|exact E].
  eapply Rle_trans; [exact Hd|].
  unfold u_ro. change (bpow radix2 (- (53) + 1)) with (/ 4503599627370496).
  rewrite u_val.
  apply Rmult_le_reg_r with (1 + / 2 * / 4503599627370496); [lra|].
  unfold Rdiv. rewrite Rmult_assoc, Rinv_l; lra.
Qed.

(** Coarse composition rules for small errors. *)
Definition small (e : R) : Prop := 0 <= e <= / 10000.

Lemma small_u : small u.
Proof. unfold small. rewrite u_val. lra. Qed.

Lemma rel_mul_s : forall e1 e2 x1 y1 x2 y2, small e1 -> small e2 ->
  rel e1 x1 y1 -> rel e2 x2 y2 -> rel (1.001 * (e1 + e2)) (x1 * x2) (y1 * y2).
Proof.
  intros e1 e2 x1 y1 x2 y2 S1 S2 R1 R2. unfold small in *.
  apply rel_le with (e1 + e2 + e1 * e2); [nra|]. now apply rel_mul.
Qed.

Lemma rel_inv_s : forall e x y, small e -> y <> 0 -> rel e x y -> rel (1.0002 * e) (/ x) (/ y).
Proof.
  intros e x y S Hy H. unfold small in *. apply rel_le with (e / (1 - e)).
  - apply Rmult_le_reg_r with (1 - e); [lra|]. unfold Rdiv. rewrite Rmult_assoc, Rinv_l by lra. nra.
  - apply rel_inv; auto. lra.
Qed.

Lemma rel_div_s : forall e1 e2 x1 y1 x2 y2, small e1 -> small e2 -> y2 <> 0 ->
  rel e1 x1 y1 -> rel e2 x2 y2 -> rel (1.001 * (e1 + e2)) (x1 / x2) (y1 / y2).
Proof.
  intros e1 e2 x1 y1 x2 y2 S1 S2 Hy R1 R2. unfold small in *.
  apply rel_le with (e1 + 1.0002 * e2 + e1 * (1.0002 * e2)); [nra|].
  apply rel_mul; auto. now apply rel_inv_s.
Qed.

Lemma rel_rnd_s : forall e x y, small e -> (x = 0 \/ bpow radix2 (-1022) <= Rabs x) ->
  rel e x y -> rel (1.001 * (e + u)) (rnd x) y.
Proof.
  intros e x y S Hx H. pose proof small_u as Su. unfold small in *.
  apply rel_le with (u + e + u * e); [nra|].
  apply rel_trans with x; auto. now apply rel_rnd_0.
Qed.

Lemma is_fin : forall x r, is x r -> fin x.
Proof. now intros x r [H _]. Qed.
Lemma is_val : forall x r, is x r -> val x = r.
Proof. now intros x r [_ H]. Qed.
