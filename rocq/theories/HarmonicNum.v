(** * Numerical bounds on the sums behind the expected harmonic mean

    [series r n E = sum_(i<n) r^i E^(2^i)] at [E = exp(-y/2^15)], for every [y] from 1 to 2:
    fixed-point evaluation at 1025 points, and monotonicity in between. *)
From Coq Require Import ZArith Reals List Lia Lra.
Import ListNotations.
Local Open Scope R_scope.

Fixpoint series (r : R) (n : nat) (w E : R) : R :=
  match n with O => 0 | S n => w * E + series r n (r * w) (E * E) end.

Lemma series_mono : forall r n w E E', 0 <= r -> 0 <= w -> 0 <= E <= E' -> series r n w E <= series r n w E'.
Proof.
  induction n; intros w E E' Hr Hw HE; cbn [series]; [lra|].
  apply Rplus_le_compat.
  - apply Rmult_le_compat_l; lra.
  - apply IHn; [exact Hr|now apply Rmult_le_pos|]. split; [apply Rmult_le_pos; lra|].
    apply Rmult_le_compat; lra.
Qed.

Lemma series_nonneg : forall r n w E, 0 <= r -> 0 <= w -> 0 <= E -> 0 <= series r n w E.
Proof.
  induction n; intros w E Hr Hw HE; cbn [series]; [lra|].
  assert (0 <= w * E) by now apply Rmult_le_pos.
  specialize (IHn (r * w) (E * E) Hr (Rmult_le_pos _ _ Hr Hw) (Rmult_le_pos _ _ HE HE)). lra.
Qed.

Lemma series_longer : forall r k n w E, 0 <= r -> 0 <= w -> 0 <= E ->
  series r n w E <= series r (n + k) w E.
Proof.
  induction n; intros w E Hr Hw HE; cbn [series Nat.add].
  - now apply series_nonneg.
  - apply Rplus_le_compat_l, IHn; auto using Rmult_le_pos.
Qed.

Lemma series_scale : forall r n c w E, series r n (c * w) E = c * series r n w E.
Proof.
  induction n; intros c w E; cbn [series]; [lra|].
  replace (r * (c * w)) with (c * (r * w)) by ring. rewrite IHn. ring.
Qed.

(** ** Fixed point *)
Definition D : Z := 2 ^ 60.
Lemma D_pos : 0 < IZR D. Proof. apply IZR_lt. reflexivity. Qed.

Fixpoint lo_sum (r : Z) (n : nat) (w e : Z) : Z :=
  match n with O => 0 | S n => w * e + lo_sum r n (r * w) (Z.shiftr (e * e) 60) end%Z.
Fixpoint up_sum (r : Z) (n : nat) (w e : Z) : Z :=
  match n with O => 0 | S n => w * e + up_sum r n (r * w) (Z.shiftr (e * e) 60 + 1) end%Z.

Lemma shift_div : forall a, Z.shiftr a 60 = (a / D)%Z.
Proof. intros a. now rewrite Z.shiftr_div_pow2. Qed.

Lemma lo_sum_ok : forall r n w e E, (0 <= r)%Z -> (0 <= w)%Z -> (0 <= e)%Z -> IZR e <= IZR D * E ->
  IZR (lo_sum r n w e) <= IZR D * series (IZR r) n (IZR w) E.
Proof.
  pose proof D_pos as HD.
  induction n; intros w e E Hr Hw He H; cbn [lo_sum series]; [lra|]. rewrite shift_div.
  rewrite plus_IZR, mult_IZR, Rmult_plus_distr_l. apply Rplus_le_compat.
  - apply IZR_le in Hw. replace (IZR D * (IZR w * E)) with (IZR w * (IZR D * E)) by ring.
    now apply Rmult_le_compat_l.
  - rewrite <- mult_IZR. apply IHn; [exact Hr|lia|apply Z.div_pos; [lia|reflexivity]|].
    apply Rmult_le_reg_l with (1 := HD). apply Rle_trans with (IZR (e * e)).
    + rewrite <- mult_IZR. apply IZR_le. apply Z.mul_div_le. reflexivity.
    + rewrite mult_IZR. replace (IZR D * (IZR D * (E * E))) with ((IZR D * E) * (IZR D * E)) by ring.
      apply IZR_le in He. apply Rmult_le_compat; lra.
Qed.

Lemma up_sum_ok : forall r n w e E, (0 <= r)%Z -> (0 <= w)%Z -> 0 <= E -> IZR D * E <= IZR e ->
  IZR D * series (IZR r) n (IZR w) E <= IZR (up_sum r n w e).
Proof.
  pose proof D_pos as HD.
  induction n; intros w e E Hr Hw HE H; cbn [up_sum series]; [lra|]. rewrite shift_div.
  rewrite plus_IZR, mult_IZR, Rmult_plus_distr_l. apply Rplus_le_compat.
  - apply IZR_le in Hw. replace (IZR D * (IZR w * E)) with (IZR w * (IZR D * E)) by ring.
    now apply Rmult_le_compat_l.
  - rewrite <- mult_IZR. apply IHn; [exact Hr|lia|now apply Rmult_le_pos|].
    apply Rmult_le_reg_l with (1 := HD). apply Rle_trans with (IZR (e * e)).
    + rewrite mult_IZR. replace (IZR D * (IZR D * (E * E))) with ((IZR D * E) * (IZR D * E)) by ring.
      assert (0 <= IZR D * E) by (apply Rmult_le_pos; lra). apply Rmult_le_compat; lra.
    + rewrite <- mult_IZR. apply IZR_le.
      pose proof (Z.mod_pos_bound (e * e) D ltac:(reflexivity)).
      pose proof (Z.div_mod (e * e) D ltac:(discriminate)). lia.
Qed.

(** ** exp near zero *)
(** [1 - t + t^2/2 - t^3/6 <= exp (-t) <= 1 - t + t^2/2] *)
Lemma exp_neg_up : forall t, 0 <= t -> exp (- t) <= 1 - t + t ^ 2 / 2.
Proof.
  intros t Ht. set (f := fun t => 1 - t + t ^ 2 / 2 - exp (- t)).
  destruct (Req_dec t 0) as [->|Nz]; [rewrite Ropp_0, exp_0; lra|].
  assert (Dexp : forall c, derivable_pt_lim (fun x => exp (- x)) c (exp (- c) * - (1))).
  { intros c. apply (derivable_pt_lim_comp (fun x => - x) exp).
    - apply derivable_pt_lim_opp, derivable_pt_lim_id.
    - apply derivable_pt_lim_exp. }
  destruct (MVT_cor2 f (fun u => - (1) + u - exp (- u) * - (1)) 0 t) as (c & Ec & Hc); [lra| |].
  - intros c Hc. unfold f. apply derivable_pt_lim_minus; [|apply Dexp].
    replace (- (1) + c) with (0 - 1 + (2 * c) * / 2) by field.
    apply derivable_pt_lim_plus; [apply derivable_pt_lim_minus|].
    + apply derivable_pt_lim_const.
    + apply derivable_pt_lim_id.
    + apply (derivable_pt_lim_scal_right (fun x => x ^ 2) c (2 * c) (/ 2)).
      replace (2 * c) with (INR 2 * c ^ pred 2) by (cbn; ring). apply derivable_pt_lim_pow.
  - unfold f in Ec. rewrite Ropp_0, exp_0 in Ec.
    pose proof (exp_ineq1_le (- c)). nra.
Qed.

Lemma exp_neg_lo : forall t, 0 <= t -> 1 - t + t ^ 2 / 2 - t ^ 3 / 6 <= exp (- t).
Proof.
  intros t Ht. set (f := fun t => exp (- t) - (1 - t + t ^ 2 / 2 - t ^ 3 / 6)).
  destruct (Req_dec t 0) as [->|Nz]; [rewrite Ropp_0, exp_0; lra|].
  assert (Dexp : forall c, derivable_pt_lim (fun x => exp (- x)) c (exp (- c) * - (1))).
  { intros c. apply (derivable_pt_lim_comp (fun x => - x) exp).
    - apply derivable_pt_lim_opp, derivable_pt_lim_id.
    - apply derivable_pt_lim_exp. }
  destruct (MVT_cor2 f (fun u => exp (- u) * - (1) - (0 - 1 + (2 * u) * / 2 - (3 * u ^ 2) * / 6)) 0 t)
    as (c & Ec & Hc); [lra| |].
  - intros c Hc. unfold f. apply derivable_pt_lim_minus; [apply Dexp|].
    apply derivable_pt_lim_minus; [apply derivable_pt_lim_plus; [apply derivable_pt_lim_minus|]|].
    + apply derivable_pt_lim_const.
    + apply derivable_pt_lim_id.
    + apply (derivable_pt_lim_scal_right (fun x => x ^ 2) c (2 * c) (/ 2)).
      replace (2 * c) with (INR 2 * c ^ pred 2) by (cbn; ring). apply derivable_pt_lim_pow.
    + apply (derivable_pt_lim_scal_right (fun x => x ^ 3) c (3 * c ^ 2) (/ 6)).
      replace (3 * c ^ 2) with (INR 3 * c ^ pred 3) by (cbn; ring). apply derivable_pt_lim_pow.
  - unfold f in Ec. rewrite Ropp_0, exp_0 in Ec. pose proof (exp_neg_up c ltac:(lra)). nra.
Qed.

(** ** The grid: [y = i/1024] *)
Definition base (y : R) : R := exp (- (y / 32768)).
Definition e_up (i : Z) : Z := (D - i * 2 ^ 35 + i * i * 2 ^ 9)%Z.
Definition e_lo (i : Z) : Z := (e_up i - (Z.shiftr (i * i * i) 16 + 1))%Z.

Lemma e_up_ok : forall i, (0 <= i)%Z -> IZR D * base (IZR i / 1024) <= IZR (e_up i).
Proof.
  intros i Hi. unfold e_up, base. rewrite plus_IZR, minus_IZR, !mult_IZR.
  change (IZR (2 ^ 35)) with 34359738368. change (IZR (2 ^ 9)) with 512. change (IZR D) with 1152921504606846976.
  apply IZR_le in Hi. pose proof (exp_neg_up (IZR i / 1024 / 32768) ltac:(lra)). nra.
Qed.

Lemma e_lo_ok : forall i, (0 <= i)%Z -> IZR (e_lo i) <= IZR D * base (IZR i / 1024).
Proof.
  intros i Hi. unfold e_lo, e_up, base.
  assert (Q : IZR (i * i * i) <= 65536 * IZR (Z.shiftr (i * i * i) 16 + 1)).
  { rewrite (Z.shiftr_div_pow2 _ 16) by lia. change (2 ^ 16)%Z with 65536%Z. rewrite <- mult_IZR. apply IZR_le. pose proof (Z.mod_pos_bound (i * i * i) 65536 ltac:(reflexivity)).
    pose proof (Z.div_mod (i * i * i) 65536 ltac:(discriminate)). lia. }
  rewrite minus_IZR, plus_IZR, minus_IZR, !mult_IZR. rewrite !mult_IZR in Q.
  revert Q. generalize (IZR (Z.shiftr (i * i * i) 16 + 1)). intros c Q.
  change (IZR (2 ^ 35)) with 34359738368. change (IZR (2 ^ 9)) with 512. change (IZR D) with 1152921504606846976.
  apply IZR_le in Hi. pose proof (exp_neg_lo (IZR i / 1024 / 32768) ltac:(lra)). nra.
Qed.

Lemma base_pos : forall y, 0 < base y.
Proof. intros y. apply exp_pos. Qed.

Lemma base_decr : forall y y', y <= y' -> base y' <= base y.
Proof.
  intros y y' H. unfold base. destruct (Req_dec y y') as [->|Ne]; [lra|].
  left. apply exp_increasing. lra.
Qed.

Fixpoint grid (n : nat) (i : Z) : list Z :=
  match n with O => [] | S n => i :: grid n (i + 1) end.

Lemma grid_in : forall n i j, (i <= j < i + Z.of_nat n)%Z -> In j (grid n i).
Proof.
  induction n; intros i j H; [lia|]. cbn [grid]. destruct (Z.eq_dec i j) as [->|Ne]; [now left|].
  right. apply IHn. lia.
Qed.

(** 0.7190 <= y A(y), y A(y) <= 0.7225, y^2 B(y) <= 1.0845, where
    2^16 A = series 2 (18 or 20 terms), 4^16 B = 3 series 4 (20 terms). *)
Definition check (i : Z) : bool :=
  (Z.leb (7190 * (2 ^ 26 * D)) (10000 * (i * lo_sum 2 18 1 (e_lo (i + 1)))) && Z.leb 0 (e_lo (i + 1)) &&
   Z.leb (10000 * ((i + 1) * up_sum 2 20 1 (e_up i))) (7225 * (2 ^ 26 * D)) &&
   Z.leb (10000 * ((i + 1) * (i + 1) * (3 * up_sum 4 20 1 (e_up i)))) (10845 * (2 ^ 52 * D)))%bool%Z.

Lemma check_all : forallb check (grid 1024 1024) = true.
Proof. vm_cast_no_check (eq_refl true). Qed.

Lemma cell : forall y, 1 <= y <= 2 -> exists i, (1024 <= i < 2048)%Z /\ IZR i / 1024 <= y <= IZR (i + 1) / 1024.
Proof.
  intros y Hy. destruct (Req_dec y 2) as [->|N2].
  - exists 2047%Z. split; [lia|]. change (IZR (2047 + 1)) with 2048. lra.
  - destruct (archimed (y * 1024)) as [A B]. set (u := up (y * 1024)) in *. exists (u - 1)%Z.
    assert (IZR (u - 1) = IZR u - 1) by (rewrite minus_IZR; reflexivity).
    assert (U1 : IZR 1024 < IZR u) by lra. assert (U2 : IZR (u - 1) < IZR 2048) by lra.
    apply lt_IZR in U1, U2. split; [lia|]. replace (u - 1 + 1)%Z with u by lia. lra.
Qed.

Lemma check_cell : forall i, (1024 <= i < 2048)%Z -> check i = true.
Proof.
  intros i Hi. pose proof check_all as H. rewrite forallb_forall in H. apply H. apply grid_in. lia.
Qed.

Lemma check_R : forall i, check i = true ->
  7190 * (67108864 * IZR D) <= 10000 * (IZR i * IZR (lo_sum 2 18 1 (e_lo (i + 1)))) /\
  (0 <= e_lo (i + 1))%Z /\
  10000 * (IZR (i + 1) * IZR (up_sum 2 20 1 (e_up i))) <= 7225 * (67108864 * IZR D) /\
  10000 * (IZR (i + 1) * IZR (i + 1) * (3 * IZR (up_sum 4 20 1 (e_up i)))) <= 10845 * (4503599627370496 * IZR D).
Proof.
  intros i. unfold check. generalize (lo_sum 2 18 1 (e_lo (i + 1))), (up_sum 2 20 1 (e_up i)), (up_sum 4 20 1 (e_up i)), (e_lo (i + 1)).
  change (2 ^ 26)%Z with 67108864%Z. change (2 ^ 52)%Z with 4503599627370496%Z. generalize D.
  intros d l u u4 e. rewrite !Bool.andb_true_iff, !Z.leb_le. intros [[[C1 C0] C2] C3].
  rewrite <- !mult_IZR. split; [now apply IZR_le|]. split; [exact C0|]. split; now apply IZR_le.
Qed.

(** The arithmetic of one cell. *)
Lemma cell_bound : forall (d a b y s1 s2 s3 t1 t2 t3 l u u4 : R),
  0 < d -> 1 <= a -> a <= y <= b -> 0 <= t1 -> 0 <= s2 -> 0 <= s3 ->
  7190 * (67108864 * d) <= 10000 * (1024 * a * l) ->
  10000 * (1024 * b * u) <= 7225 * (67108864 * d) ->
  10000 * (1024 * b * (1024 * b) * (3 * u4)) <= 10845 * (4503599627370496 * d) ->
  l <= d * t1 -> d * t2 <= u -> d * t3 <= u4 -> t1 <= s1 -> s2 <= t2 -> s3 <= t3 ->
  0.7190 * 65536 <= y * s1 /\ y * s2 <= 0.7225 * 65536 /\ y * y * (3 * s3) <= 1.0845 * 4294967296.
Proof.
  intros d a b y s1 s2 s3 t1 t2 t3 l u u4 Hd Ha Hy Ht Hs2 Hs3 C1 C2 C3 L U U4 M1 M2 M3.
  split; [|split]; apply Rmult_le_reg_l with (1 := Hd).
  - apply Rle_trans with (d * (a * t1)).
    + apply Rle_trans with (a * l); [lra|].
      replace (d * (a * t1)) with (a * (d * t1)) by ring. apply Rmult_le_compat_l; lra.
    + apply Rmult_le_compat_l; [lra|]. apply Rmult_le_compat; lra.
  - apply Rle_trans with (d * (b * t2)).
    + apply Rmult_le_compat_l; [lra|]. apply Rmult_le_compat; lra.
    + apply Rle_trans with (b * u); [|lra].
      replace (d * (b * t2)) with (b * (d * t2)) by ring. apply Rmult_le_compat_l; lra.
  - apply Rle_trans with (d * (b * b * (3 * t3))).
    + apply Rmult_le_compat_l; [lra|].
      apply Rmult_le_compat; [apply Rmult_le_pos; lra|lra| |lra]. apply Rmult_le_compat; lra.
    + apply Rle_trans with (b * b * (3 * u4)).
      * replace (d * (b * b * (3 * t3))) with (b * b * (3 * (d * t3))) by ring.
        apply Rmult_le_compat_l; [apply Rmult_le_pos; lra|lra].
      * replace (1024 * b * (1024 * b) * (3 * u4)) with (1048576 * (b * b * (3 * u4))) in C3 by ring. lra.
Qed.

Lemma series_bounds : forall y, 1 <= y <= 2 ->
  0.7190 * 65536 <= y * series 2 18 1 (base y) /\
  y * series 2 20 1 (base y) <= 0.7225 * 65536 /\
  y * y * (3 * series 4 20 1 (base y)) <= 1.0845 * 4294967296.
Proof.
  intros y Hy. destruct (cell y Hy) as (i & Hi & Y1 & Y2).
  destruct (check_R i (check_cell i Hi)) as (C1 & C0 & C2 & C3).
  pose proof (base_decr _ _ Y1) as B1. pose proof (base_decr _ _ Y2) as B2. pose proof (base_pos y) as B0.
  pose proof (base_pos (IZR i / 1024)) as B01. pose proof (base_pos (IZR (i + 1) / 1024)) as B02.
  assert (I1 : 1024 <= IZR i) by (apply IZR_le; lia).
  eapply (cell_bound (IZR D) (IZR i / 1024) (IZR (i + 1) / 1024) y _ _ _
    (series 2 18 1 (base (IZR (i + 1) / 1024))) (series 2 20 1 (base (IZR i / 1024)))
    (series 4 20 1 (base (IZR i / 1024)))).
  - exact D_pos.
  - lra.
  - lra.
  - apply (series_nonneg 2 18 1 (base (IZR (i + 1) / 1024))); lra.
  - apply series_nonneg; lra.
  - apply series_nonneg; lra.
  - replace (1024 * (IZR i / 1024)) with (IZR i) by field. exact C1.
  - replace (1024 * (IZR (i + 1) / 1024)) with (IZR (i + 1)) by field. exact C2.
  - replace (1024 * (IZR (i + 1) / 1024)) with (IZR (i + 1)) by field. exact C3.
  - apply (lo_sum_ok 2 18 1); [lia|lia|exact C0|apply e_lo_ok; lia].
  - apply (up_sum_ok 2 20 1); [lia|lia|lra|apply e_up_ok; lia].
  - apply (up_sum_ok 4 20 1); [lia|lia|lra|apply e_up_ok; lia].
  - apply series_mono; lra.
  - apply series_mono; lra.
  - apply series_mono; lra.
Qed.

(** ** More terms *)
Lemma series_split : forall r a b w E, series r (a + b) w E = series r a w E + series r b (r ^ a * w) (E ^ (2 ^ a)).
Proof.
  induction a; intros b w E.
  - cbn [Nat.add series pow Nat.pow]. rewrite !Rmult_1_l, Rmult_1_r. lra.
  - cbn [Nat.add series]. rewrite IHa. replace (r ^ a * (r * w)) with (r ^ S a * w) by (cbn; ring).
    replace ((E * E) ^ (2 ^ a)) with (E ^ (2 ^ S a)); [lra|].
    rewrite Rpow_mult_distr, <- pow_add. f_equal. cbn. lia.
Qed.

Lemma series_small : forall r n w E, 0 <= w -> 0 <= E <= 1 -> 0 <= r -> r * E <= / 2 ->
  series r n w E <= 2 * (w * E).
Proof.
  induction n; intros w E Hw HE Hr H; cbn [series].
  - assert (0 <= w * E) by (apply Rmult_le_pos; lra). lra.
  - assert (0 <= w * E) by (apply Rmult_le_pos; lra).
    assert (E * E <= E) by nra. assert (0 <= E * E) by nra.
    specialize (IHn (r * w) (E * E) (Rmult_le_pos _ _ Hr Hw) ltac:(lra) Hr ltac:(nra)).
    replace (2 * (r * w * (E * E))) with (2 * (w * E) * (r * E)) in IHn by ring. nra.
Qed.

Lemma base_pow : forall y, 1 <= y -> 0 <= base y ^ (2 ^ 20) <= / 4294967296.
Proof.
  intros y Hy. pose proof (base_pos y). split; [apply pow_le; lra|].
  assert (E : base y ^ (2 ^ 20) = exp (- (32 * y))).
  { unfold base. rewrite <- Rpower_pow by apply exp_pos. unfold Rpower. rewrite ln_exp. f_equal.
    replace (INR (2 ^ 20)) with 1048576; [field|]. rewrite pow_INR. cbn [INR]. cbn [pow]. lra. }
  rewrite E. apply Rle_trans with (exp (- (32))).
  - destruct (Req_dec y 1) as [->|]; [right; f_equal; lra|]. left. apply exp_increasing. lra.
  - rewrite exp_Ropp. apply Rinv_le_contravar; [lra|].
    replace 32 with (INR 32 * 1) by (rewrite INR_IZR_INZ; cbn; lra).
    replace (exp (INR 32 * 1)) with (exp 1 ^ 32).
    + replace 4294967296 with (2 ^ 32) by (cbn [pow]; lra). apply pow_incr.
      pose proof (exp_ineq1_le 1). lra.
    + rewrite <- Rpower_pow by apply exp_pos. unfold Rpower. now rewrite ln_exp.
Qed.

Lemma series_up_all : forall y n, 1 <= y <= 2 ->
  y * series 2 n 1 (base y) <= 0.72251 * 65536 /\
  y * y * (3 * series 4 n 1 (base y)) <= 1.08451 * 4294967296.
Proof.
  intros y n Hy. destruct (series_bounds y Hy) as (_ & U2 & U4).
  pose proof (Rlt_le _ _ (base_pos y)) as B0. pose proof (base_pow y (proj1 Hy)) as BP.
  pose proof (series_longer 2 20 n 1 (base y) ltac:(lra) ltac:(lra) B0) as L2.
  pose proof (series_longer 4 20 n 1 (base y) ltac:(lra) ltac:(lra) B0) as L4.
  rewrite (Nat.add_comm n 20), series_split in L2, L4.
  generalize dependent (base y ^ (2 ^ 20)). intros e BP L2 L4.
  assert (S2 : series 2 n (2 ^ 20 * 1) e <= 2 * (2 ^ 20 * 1 * e)) by (apply series_small; lra).
  assert (S4 : series 4 n (4 ^ 20 * 1) e <= 2 * (4 ^ 20 * 1 * e)) by (apply series_small; lra).
  assert (X2 : series 2 n (2 ^ 20 * 1) e <= 0.001) by lra.
  assert (X4 : series 4 n (4 ^ 20 * 1) e <= 512) by lra.
  set (a := series 2 20 1 (base y)) in *. set (b := series 4 20 1 (base y)) in *.
  set (a' := series 2 n 1 (base y)) in *. set (b' := series 4 n 1 (base y)) in *.
  clearbody a b a' b'. split.
  - apply Rle_trans with (y * (a + 0.001)); [apply Rmult_le_compat_l; lra|lra].
  - apply Rle_trans with (y * y * (3 * (b + 512))); [|nra].
    apply Rmult_le_compat_l; [nra|lra].
Qed.
