(** * The polynomial of the no_std logarithm approximates the function *)
From Coq Require Import Reals Lra ZArith Lia List Bool.
From Coquelicot Require Import Coquelicot.
From Verif Require Import LogConst.
Local Open Scope R_scope.
Definition P (z : R) : R :=
  z * (c_LG1 + z * (c_LG2 + z * (c_LG3 + z * (c_LG4 + z * (c_LG5 + z * (c_LG6 + z * c_LG7)))))).

Definition gap (s : R) : R := ln (1 + s) - ln (1 - s) - 2 * s - s * P (s * s).

Definition gap' (s : R) : R :=
  let z := s * s in
  / (1 + s) + / (1 - s) - 2 -
  z * (3 * c_LG1 + z * (5 * c_LG2 + z * (7 * c_LG3 + z * (9 * c_LG4 + z * (11 * c_LG5 +
    z * (13 * c_LG6 + z * (15 * c_LG7))))))).

Lemma gap_derive : forall s, -1 < s < 1 -> derivable_pt_lim gap s (gap' s).
Proof.
  intros s Hs. unfold gap, gap', P.
  apply is_derive_Reals. auto_derive. { lra. }
  field. lra.
Qed.

(* The derivative of the gap is a polynomial in s * s over 1 - s * s. *)
Definition Q (z : R) : R :=
  z * ((2 - 3 * c_LG1) + z * ((3 * c_LG1 - 5 * c_LG2) + z * ((5 * c_LG2 - 7 * c_LG3) +
    z * ((7 * c_LG3 - 9 * c_LG4) + z * ((9 * c_LG4 - 11 * c_LG5) + z * ((11 * c_LG5 - 13 * c_LG6) +
      z * ((13 * c_LG6 - 15 * c_LG7) + z * (15 * c_LG7)))))))).

Lemma gap'_Q : forall s, -1 < s < 1 -> gap' s = Q (s * s) / (1 - s * s).
Proof. intros s Hs. unfold gap', Q. field. split; nra. Qed.

(** ** Bounding a polynomial with integer coefficients piece by piece *)
Fixpoint peval (l : list Z) (x : R) : R :=
  match l with nil => 0 | a :: l => IZR a + x * peval l x end.

Fixpoint padd (l r : list Z) : list Z :=
  match l, r with
  | nil, r => r
  | l, nil => l
  | a :: l, b :: r => (a + b)%Z :: padd l r
  end.

Fixpoint shift (n : Z) (l : list Z) : list Z :=
  match l with
  | nil => nil
  | a :: l => let r := shift n l in padd (a :: nil) (padd (map (Z.mul n) r) (0%Z :: r))
  end.

Definition norm (l : list Z) : Z := fold_right (fun a s => (Z.abs a + s)%Z) 0%Z l.

Lemma padd_eval : forall l r x, peval (padd l r) x = peval l x + peval r x.
Proof.
  induction l as [|a l IH]; intros [|b r] x; cbn [padd peval]; try ring.
  rewrite IH, plus_IZR. ring.
Qed.

Lemma pmul_eval : forall n l x, peval (map (Z.mul n) l) x = IZR n * peval l x.
Proof.
  intros n. induction l as [|a l IH]; intros x; cbn [map peval]; [ring|]. rewrite IH, mult_IZR. ring.
Qed.

Lemma shift_eval : forall n l h, peval (shift n l) h = peval l (IZR n + h).
Proof.
  intros n. induction l as [|a l IH]; intros h; cbn [shift]; [reflexivity|].
  cbv zeta. rewrite !padd_eval, pmul_eval. cbn [peval]. rewrite IH. ring.
Qed.

Lemma norm_bound : forall l h, Rabs h <= 1 -> Rabs (peval l h) <= IZR (norm l).
Proof.
  induction l as [|a l IH]; intros h Hh; cbn [peval norm fold_right].
  - rewrite Rabs_R0. apply Rle_refl.
  - fold (norm l). rewrite plus_IZR, abs_IZR. eapply Rle_trans; [apply Rabs_triang|].
    apply Rplus_le_compat_l. rewrite Rabs_mult. pose proof (IH h Hh). pose proof (Rabs_pos h).
    pose proof (Rabs_pos (peval l h)). rewrite <- (Rmult_1_l (IZR _)).
    apply Rmult_le_compat; auto.
Qed.

(* [k] pieces of width two from [a] on *)
Fixpoint covered (l : list Z) (m : Z) (a : Z) (k : nat) : bool :=
  match k with
  | O => true
  | S k => (norm (shift (a + 1) l) <=? m)%Z && covered l m (a + 2) k
  end.

Lemma covered_ok : forall l m k a x, (0 < k)%nat -> covered l m a k = true ->
  IZR a <= x <= IZR (a + 2 * Z.of_nat k) -> Rabs (peval l x) <= IZR m.
Proof.
  intros l m. induction k as [|k IH]; intros a x Hk H [L U]; [lia|].
  cbn [covered] in H. apply andb_true_iff in H. destruct H as [H1 H2].
  destruct (Rle_dec x (IZR (a + 2))) as [G|G].
  - replace x with (IZR (a + 1) + (x - IZR (a + 1))) by ring. rewrite <- shift_eval.
    eapply Rle_trans; [apply norm_bound|apply IZR_le; now apply Z.leb_le].
    rewrite plus_IZR in *. apply Rabs_le. lra.
  - destruct k as [|k].
    + exfalso. apply G. exact U.
    + apply (IH (a + 2)%Z); [lia|exact H2|]. split; [lra|].
      replace (a + 2 + 2 * Z.of_nat (S k))%Z with (a + 2 * Z.of_nat (S (S k)))%Z by lia. exact U.
Qed.

(* The coefficients for an argument in units of [1 / d], times a power of [d]. *)
Fixpoint scaled (d : Z) (l : list Z) : list Z :=
  match l with nil => nil | a :: r => (a * d ^ Z.of_nat (length r))%Z :: scaled d r end.

Lemma scaled_eval : forall d l x,
  IZR d * peval (scaled d l) (IZR d * x) = IZR d ^ length l * peval l x.
Proof.
  intros d. induction l as [|a l IH]; intros x; cbn [scaled peval length].
  - ring.
  - rewrite mult_IZR, <- pow_IZR. rewrite <- tech_pow_Rmult.
    transitivity (IZR d * (IZR a * IZR d ^ length l + x * (IZR d * peval (scaled d l) (IZR d * x))));
      [ring|]. rewrite IH. ring.
Qed.

(* The coefficients of [Q] times [2^55]. *)
Definition Q_coeffs : list Z :=
  (0 ::
   -740 ::
   1064636 ::
   -435440310 ::
   77575868599 ::
   -7028457532515 ::
   338455847965815 ::
   -8248104562506729 ::
   79974194068509180 :: nil)%Z.

Lemma Q_peval : forall z, Q z = peval Q_coeffs z / 36028797018963968.
Proof.
  intros z. unfold Q, Q_coeffs, c_LG1, c_LG2, c_LG3, c_LG4, c_LG5, c_LG6, c_LG7.
  cbn [peval]. field.
Qed.

Definition Q_scaled : list Z := Eval vm_compute in scaled 20000 Q_coeffs.

Lemma Q_bound : forall m a k z, (0 < k)%nat ->
  covered Q_scaled (m * (20 * 20000 ^ 7)) a k = true ->
  IZR a / 20000 <= z <= IZR (a + 2 * Z.of_nat k) / 20000 -> Rabs (Q z) <= IZR m / 1000 / 36028797018963968.
Proof.
  intros m a k z Hk H Hz. rewrite Q_peval. unfold Rdiv at 1. rewrite Rabs_mult.
  rewrite (Rabs_pos_eq (/ _)) by lra. apply Rmult_le_compat_r; [lra|].
  assert (B : Rabs (peval Q_scaled (20000 * z)) <= IZR (m * (20 * 20000 ^ 7))).
  { apply (covered_ok _ _ k a); auto. lra. }
  pose proof (scaled_eval 20000 Q_coeffs z) as E.
  change (scaled 20000 Q_coeffs) with Q_scaled in E. change (length Q_coeffs) with 9%nat in E.
  rewrite <- tech_pow_Rmult, Rmult_assoc in E. apply Rmult_eq_reg_l in E; [|lra].
  rewrite E, Rabs_mult in B. change (20000 ^ 7)%Z with (20000 ^ Z.of_nat 7)%Z in B.
  rewrite !mult_IZR, <- pow_IZR in B. rewrite <- tech_pow_Rmult in B.
  assert (D : 0 < 20000 ^ 7) by (apply pow_lt; lra). generalize dependent (20000 ^ 7).
  intros d B D. rewrite (Rabs_pos_eq (20000 * d)) in B by lra.
  apply Rmult_le_reg_r with (20000 * d); lra.
Qed.

Lemma Q_1 : forall z, 0 <= z <= 0.0162 -> Rabs (Q z) <= 0.6 / 2 ^ 54.
Proof.
  intros z Hz. eapply Rle_trans; [apply (Q_bound (1200) 0 162); [lia|vm_compute; reflexivity|cbn; lra]|lra].
Qed.

Lemma Q_2 : forall z, 0.0161 <= z <= 0.0217 -> Rabs (Q z) <= 0.9 / 2 ^ 54.
Proof.
  intros z Hz. eapply Rle_trans; [apply (Q_bound (1800) 322 56); [lia|vm_compute; reflexivity|cbn; lra]|lra].
Qed.

Lemma Q_3 : forall z, 0.0216 <= z <= 0.0261 -> Rabs (Q z) <= 1.35 / 2 ^ 54.
Proof.
  intros z Hz. eapply Rle_trans; [apply (Q_bound (2700) 432 45); [lia|vm_compute; reflexivity|cbn; lra]|lra].
Qed.

Lemma Q_4 : forall z, 0.0260 <= z <= 0.0287 -> Rabs (Q z) <= 2.4 / 2 ^ 54.
Proof.
  intros z Hz. eapply Rle_trans; [apply (Q_bound (4800) 520 27); [lia|vm_compute; reflexivity|cbn; lra]|lra].
Qed.

Lemma Q_5 : forall z, 0.0286 <= z <= 0.0295 -> Rabs (Q z) <= 11.5 / 2 ^ 54.
Proof.
  intros z Hz. eapply Rle_trans; [apply (Q_bound (23000) 572 9); [lia|vm_compute; reflexivity|cbn; lra]|lra].
Qed.

Lemma step : forall a b m s, 0 <= a <= s -> s <= b -> b <= 0.17161 -> 0 <= m ->
  (forall z, a * a <= z <= b * b -> Rabs (Q z) <= m / 2 ^ 54) ->
  Rabs (gap s) <= Rabs (gap a) + m / 2 ^ 54 / 0.97 * (s - a).
Proof.
  intros a b m s Ha Hs Hb Hm H. destruct (Req_dec s a) as [->|N].
  { rewrite Rminus_eq_0, Rmult_0_r. lra. }
  destruct (MVT_cor2 gap gap' a s ltac:(lra)) as (c & Ec & Hc).
  { intros c Hc. apply gap_derive. lra. }
  replace (gap s) with (gap a + gap' c * (s - a)) by lra.
  eapply Rle_trans; [apply Rabs_triang|]. apply Rplus_le_compat_l.
  rewrite Rabs_mult, (Rabs_pos_eq (s - a)) by lra. apply Rmult_le_compat_r; [lra|].
  rewrite gap'_Q by lra. unfold Rdiv at 1. rewrite Rabs_mult.
  assert (Z1 : a * a <= c * c) by (apply Rmult_le_compat; lra).
  assert (Z2 : c * c <= b * b) by (apply Rmult_le_compat; lra).
  assert (Z3 : b * b <= 0.17161 * 0.17161) by (apply Rmult_le_compat; lra).
  assert (0 < 1 - c * c) by lra.
  rewrite Rabs_inv, (Rabs_pos_eq (1 - c * c)) by lra.
  apply Rmult_le_compat; [apply Rabs_pos|apply Rlt_le, Rinv_0_lt_compat; lra|apply H; lra|].
  apply Rinv_le_contravar; lra.
Qed.

Lemma gap_0 : gap 0 = 0.
Proof. unfold gap. rewrite Rplus_0_r, Rminus_0_r, ln_1. ring. Qed.

Lemma gap_pos : forall s, 0 <= s <= 0.17161 -> Rabs (gap s) <= / 2 ^ 54 * s.
Proof.
  assert (E0 : Rabs (gap 0) = 0) by (rewrite gap_0; apply Rabs_R0).
  assert (S1 : forall s, 0 <= s <= 0.127 -> Rabs (gap s) <= 0.6 / 2 ^ 54 / 0.97 * (s - 0)).
  { intros s Hs. assert (S0 : Rabs (gap s) <= Rabs (gap 0) + 0.6 / 2 ^ 54 / 0.97 * (s - 0)).
    { apply step with 0.127; try lra. intros z Hz. apply Q_1. lra. }
    lra. }
  assert (S2 : forall s, 0.127 <= s <= 0.1473 ->
    Rabs (gap s) <= Rabs (gap 0.127) + 0.9 / 2 ^ 54 / 0.97 * (s - 0.127)).
  { intros s Hs. apply step with 0.1473; try lra. intros z Hz. apply Q_2. lra. }
  assert (S3 : forall s, 0.1473 <= s <= 0.1615 ->
    Rabs (gap s) <= Rabs (gap 0.1473) + 1.35 / 2 ^ 54 / 0.97 * (s - 0.1473)).
  { intros s Hs. apply step with 0.1615; try lra. intros z Hz. apply Q_3. lra. }
  assert (S4 : forall s, 0.1615 <= s <= 0.1694 ->
    Rabs (gap s) <= Rabs (gap 0.1615) + 2.4 / 2 ^ 54 / 0.97 * (s - 0.1615)).
  { intros s Hs. apply step with 0.1694; try lra. intros z Hz. apply Q_4. lra. }
  assert (S5 : forall s, 0.1694 <= s <= 0.17161 ->
    Rabs (gap s) <= Rabs (gap 0.1694) + 11.5 / 2 ^ 54 / 0.97 * (s - 0.1694)).
  { intros s Hs. apply step with 0.17161; try lra. intros z Hz. apply Q_5. lra. }
  pose proof (S1 0.127 ltac:(lra)). pose proof (S2 0.1473 ltac:(lra)).
  pose proof (S3 0.1615 ltac:(lra)). pose proof (S4 0.1694 ltac:(lra)).
  intros s Hs.
  destruct (Rle_dec s 0.127); [pose proof (S1 s ltac:(lra)); lra|].
  destruct (Rle_dec s 0.1473); [pose proof (S2 s ltac:(lra)); lra|].
  destruct (Rle_dec s 0.1615); [pose proof (S3 s ltac:(lra)); lra|].
  destruct (Rle_dec s 0.1694); [pose proof (S4 s ltac:(lra)); lra|].
  pose proof (S5 s ltac:(lra)). lra.
Qed.

Lemma gap_odd : forall s, gap (- s) = - gap s.
Proof.
  intros s. unfold gap. replace (1 - - s) with (1 + s) by ring.
  replace (1 + - s) with (1 - s) by ring. replace (- s * - s) with (s * s) by ring. ring.
Qed.

Lemma gap_small : forall s, Rabs s <= 0.17161 -> Rabs (gap s) <= / 2 ^ 54 * Rabs s.
Proof.
  pose proof gap_pos as H. intros s Hs. destruct (Rle_dec 0 s) as [Ps|Ns].
  - rewrite (Rabs_pos_eq s) in * by auto. apply H. lra.
  - rewrite (Rabs_left s) in * by lra. rewrite <- (Ropp_involutive s) at 1.
    rewrite gap_odd, Rabs_Ropp. apply H. lra.
Qed.
