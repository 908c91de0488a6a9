(** * The corrected estimate grows with the raw estimate

    At every precision but 5 and 6 the raw estimates of the tables increase, and so does the raw
    estimate minus the bias (it is the cardinality the entry was measured at). *)
From Coq Require Import NArith ZArith Reals Lra Lia List Bool.
From Flocq Require Import Core BinarySingleNaN.
From Verif Require Import ModelRust ModelF64 ModelEnv ModelCommon ModelConstants ModelPlus
  SpecReal SpecBuild BitFacts F64Facts RawFacts BiasTables BiasFacts.
Import ListNotations.
Local Open Scope R_scope.

(** ** Interpolation in increasing tables *)
Section Interpolation.
Variable xs ys : list R.
Hypothesis Hlen : length xs = length ys.
Hypothesis Hstep : forall i x0 y0 x1 y1, nth_error xs i = Some x0 -> nth_error ys i = Some y0 ->
  nth_error xs (S i) = Some x1 -> nth_error ys (S i) = Some y1 -> x0 < x1 /\ x0 - y0 <= x1 - y1.

Let at_ (i : nat) (x y : R) := nth_error xs i = Some x /\ nth_error ys i = Some y.

Lemma at_some : forall i, (i < length xs)%nat -> exists x y, at_ i x y.
Proof.
  intros i Hi. destruct (nth_some _ xs i Hi) as [x Hx].
  destruct (nth_some _ ys i ltac:(lia)) as [y Hy]. exists x, y. split; auto.
Qed.

Lemma at_lt : forall i x y, at_ i x y -> (i < length xs)%nat.
Proof. intros i x y [H _]. apply nth_error_Some. congruence. Qed.

Lemma at_fun : forall i x y x' y', at_ i x y -> at_ i x' y' -> x = x' /\ y = y'.
Proof. intros i x y x' y' [A B] [C D]. split; congruence. Qed.

Lemma at_mono : forall i j x y x' y', at_ i x y -> at_ j x' y' -> (i < j)%nat ->
  x < x' /\ x - y <= x' - y'.
Proof.
  intros i j x y x' y' Hi Hj L. revert x' y' Hj. induction L as [|j L IH]; intros x' y' Hj.
  - destruct Hi, Hj. eauto.
  - destruct (at_some j) as (x2 & y2 & H2); [pose proof (at_lt _ _ _ Hj); lia|].
    destruct (IH _ _ H2). destruct H2, Hj. destruct (Hstep j x2 y2 x' y'); auto. lra.
Qed.

Lemma at_le : forall i j x y x' y', at_ i x y -> at_ j x' y' -> (i <= j)%nat ->
  x <= x' /\ x - y <= x' - y'.
Proof.
  intros i j x y x' y' Hi Hj L. destruct (Nat.eq_dec i j) as [->|Ne].
  - destruct (at_fun _ _ _ _ _ Hi Hj); subst; lra.
  - destruct (at_mono _ _ _ _ _ _ Hi Hj ltac:(lia)); lra.
Qed.

(** The three positions of an abscissa. *)
Inductive position (x y : R) : Prop :=
| PLeft x0 : at_ 0 x0 y -> x <= x0 -> position x y
| PRight xl : at_ (length xs - 1) xl y -> xl <= x -> position x y
| PMid i x0 y0 x1 y1 : at_ i x0 y0 -> at_ (S i) x1 y1 -> x0 <= x <= x1 -> x0 < x1 ->
    y = y0 + (x - x0) / (x1 - x0) * (y1 - y0) -> position x y.

Lemma interpolated_position : forall x y, interpolated xs ys x y -> position x y.
Proof.
  intros x y [(x0 & y0 & A & B & C & ->)|[(xl & yl & A & B & C & ->)|
    (i & x0 & y0 & x1 & y1 & A & B & C & D & _ & E & F)]].
  - apply (PLeft x y0 x0); [split|]; auto.
  - apply (PRight x yl xl); [split|]; auto. now rewrite Hlen.
  - destruct (Hstep i x0 y0 x1 y1) as [L _]; auto. rewrite Rmin_left, Rmax_right in E by lra.
    apply (PMid x y i x0 y0 x1 y1); auto; split; auto.
Qed.

Lemma mid_eq : forall x0 y0 x1 y1 x, x0 < x1 ->
  x - (y0 + (x - x0) / (x1 - x0) * (y1 - y0)) =
  (x0 - y0) + (x - x0) / (x1 - x0) * ((x1 - y1) - (x0 - y0)).
Proof. intros. field. lra. Qed.

Lemma frac_bounds : forall x0 x1 x, x0 < x1 -> x0 <= x <= x1 -> 0 <= (x - x0) / (x1 - x0) <= 1.
Proof.
  intros x0 x1 x L B. split.
  - apply Rmult_le_pos; [lra|]. apply Rlt_le, Rinv_0_lt_compat. lra.
  - apply Rmult_le_reg_r with (x1 - x0); [lra|]. unfold Rdiv. rewrite Rmult_assoc, Rinv_l by lra. lra.
Qed.

Lemma position_below : forall x y j xj yj, position x y -> at_ j xj yj -> x <= xj -> x - y <= xj - yj.
Proof.
  intros x y j xj yj [x0 A B|xl A B|i x0 y0 x1 y1 A B C D E] J L.
  - destruct (at_le _ _ _ _ _ _ A J); [lia|]. lra.
  - pose proof (at_lt _ _ _ J). destruct (at_le _ _ _ _ _ _ J A) as [F G]; [lia|].
    destruct (Nat.eq_dec j (length xs - 1)) as [->|Ne].
    + destruct (at_fun _ _ _ _ _ A J); subst. lra.
    + destruct (at_mono _ _ _ _ _ _ J A); [lia|]. lra.
  - rewrite E, mid_eq by auto. pose proof (frac_bounds x0 x1 x D C) as FB.
    destruct (at_mono _ _ _ _ _ _ A B ltac:(lia)) as [_ M].
    destruct (Nat.le_gt_cases (S i) j) as [K|K].
    + destruct (at_le _ _ _ _ _ _ B J K). nra.
    + destruct (at_le _ _ _ _ _ _ J A ltac:(lia)) as [G _]. assert (x = x0) by lra. subst x.
      destruct (Nat.eq_dec j i) as [->|Ne].
      * destruct (at_fun _ _ _ _ _ A J); subst.
        unfold Rdiv. rewrite (Rminus_diag_eq xj xj eq_refl). lra.
      * destruct (at_mono _ _ _ _ _ _ J A); [lia|]. lra.
Qed.

Lemma position_above : forall x y j xj yj, position x y -> at_ j xj yj -> xj <= x -> xj - yj <= x - y.
Proof.
  intros x y j xj yj [x0 A B|xl A B|i x0 y0 x1 y1 A B C D E] J L.
  - destruct (Nat.eq_dec j 0) as [->|Ne].
    + destruct (at_fun _ _ _ _ _ A J); subst. lra.
    + destruct (at_mono _ _ _ _ _ _ A J); [lia|]. lra.
  - pose proof (at_lt _ _ _ J). destruct (at_le _ _ _ _ _ _ J A); [lia|]. lra.
  - rewrite E, mid_eq by auto. pose proof (frac_bounds x0 x1 x D C) as FB.
    destruct (at_mono _ _ _ _ _ _ A B ltac:(lia)) as [_ M].
    destruct (Nat.le_gt_cases (S i) j) as [K|K].
    + destruct (at_le _ _ _ _ _ _ B J K) as [G _]. assert (x = x1) by lra. subst x.
      destruct (Nat.eq_dec j (S i)) as [->|Ne].
      * destruct (at_fun _ _ _ _ _ B J); subst. unfold Rdiv. rewrite Rinv_r by lra. lra.
      * destruct (at_mono _ _ _ _ _ _ B J); [lia|]. lra.
    + destruct (at_le _ _ _ _ _ _ J A ltac:(lia)). nra.
Qed.

Lemma interpolated_mono : forall x y x' y', interpolated xs ys x y -> interpolated xs ys x' y' ->
  x <= x' -> x - y <= x' - y'.
Proof.
  intros x y x' y' H H' L. apply interpolated_position in H, H'.
  assert (PT : forall j xj yj, at_ j xj yj -> x <= xj -> xj <= x' -> x - y <= x' - y').
  { intros j xj yj J A B. pose proof (position_below _ _ _ _ _ H J A).
    pose proof (position_above _ _ _ _ _ H' J B). lra. }
  destruct H as [x0 A B|xl A B|i x0 y0 x1 y1 A B C D E];
    destruct H' as [x0' A' B'|xl' A' B'|i' x0' y0' x1' y1' A' B' C' D' E'].
  - destruct (at_fun _ _ _ _ _ A A'); subst. lra.
  - destruct (at_le _ _ _ _ _ _ A A'); [lia|]. apply (PT _ _ _ A'); lra.
  - destruct (at_le _ _ _ _ _ _ A A'); [lia|]. apply (PT _ _ _ A'); lra.
  - destruct (at_le _ _ _ _ _ _ A' A); [lia|]. apply (PT _ _ _ A); lra.
  - destruct (at_fun _ _ _ _ _ A A'); subst. lra.
  - pose proof (at_lt _ _ _ B'). destruct (at_le _ _ _ _ _ _ B' A); [lia|]. apply (PT _ _ _ A); lra.
  - destruct (at_le _ _ _ _ _ _ A' A); [lia|]. apply (PT _ _ _ A); lra.
  - pose proof (at_lt _ _ _ B). destruct (at_le _ _ _ _ _ _ B A'); [lia|]. apply (PT _ _ _ B); lra.
  - destruct (Nat.lt_trichotomy i i') as [K|[->|K]].
    + destruct (at_le _ _ _ _ _ _ B A'); [lia|]. apply (PT _ _ _ A'); lra.
    + destruct (at_fun _ _ _ _ _ A A'); subst x0' y0'. destruct (at_fun _ _ _ _ _ B B'); subst x1' y1'.
      rewrite E, E', !mid_eq by auto. destruct (at_mono _ _ _ _ _ _ A B ltac:(lia)) as [_ M].
      apply Rplus_le_compat_l. apply Rmult_le_compat_r; [lra|]. unfold Rdiv.
      apply Rmult_le_compat_r; [|lra]. apply Rlt_le, Rinv_0_lt_compat. lra.
    + destruct (at_le _ _ _ _ _ _ B' A); [lia|]. apply (PT _ _ _ A); lra.
Qed.
End Interpolation.

(** ** The tables *)
Fixpoint mono_ok (E B : list f64) : bool :=
  match E, B with
  | e0 :: ((e1 :: _) as E'), b0 :: ((b1 :: _) as B') =>
      flt e0 e1 && fle (fadd (fsub e0 b0) (lit 5 1)) (fsub e1 b1) && mono_ok E' B'
  | _, _ => true
  end.

Lemma tables_mono :
  forallb (fun p => (p =? 5)%N || (p =? 6)%N ||
     mono_ok (nth (N.to_nat (p - 4)) RAW_ESTIMATE_DATA []) (nth (N.to_nat (p - 4)) BIAS_DATA []))
    precisions = true.
Proof. vm_compute. reflexivity. Qed.

Lemma mono_ok_spec : forall p E B i x0 y0 x1 y1, (4 <= p <= 18)%N -> mono_ok E B = true ->
  (forall i x y, nth_error E i = Some x -> nth_error B i = Some y ->
     fin x /\ fin y /\ 0 <= val x <= 5 * m_R p /\ - m_R p <= val y <= m_R p) ->
  nth_error E i = Some x0 -> nth_error B i = Some y0 ->
  nth_error E (S i) = Some x1 -> nth_error B (S i) = Some y1 ->
  val x0 < val x1 /\ val x0 - val y0 <= val x1 - val y1.
Proof.
  intros p E B i x0 y0 x1 y1 Hp. revert B i. induction E as [|a E IH]; intros B i HM HG H1 H2 H3 H4.
  { destruct i; discriminate. }
  destruct E as [|a' E]; [destruct i; discriminate|]. destruct B as [|b B]; [destruct i; discriminate|].
  destruct B as [|b' B]; [destruct i; discriminate|].
  cbn [mono_ok] in HM. apply andb_true_iff in HM. destruct HM as [HM1 HM2].
  apply andb_true_iff in HM1. destruct HM1 as [HMa HMb]. destruct i as [|i].
  - cbn in H1, H2, H3, H4. injection H1 as ->. injection H2 as ->. injection H3 as ->. injection H4 as ->.
    destruct (HG 0%nat x0 y0 eq_refl eq_refl) as (Fx0 & Fy0 & Bx0 & By0).
    destruct (HG 1%nat x1 y1 eq_refl eq_refl) as (Fx1 & Fy1 & Bx1 & By1).
    pose proof (m_R_bounds p (proj1 Hp) (proj2 Hp)) as Hm.
    split; [rewrite flt_spec in HMa by auto; revert HMa; case Rlt_bool_spec; auto; discriminate|].
    assert (S0 : Rabs (val x0 - val y0) <= 1600000) by (apply Rabs_le; lra).
    assert (S1 : Rabs (val x1 - val y1) <= 1600000) by (apply Rabs_le; lra).
    destruct (fsub_is x0 y0 Fx0 Fy0) as [F0 V0]; [apply big; lra|].
    destruct (fsub_is x1 y1 Fx1 Fy1) as [F1 V1]; [apply big; lra|].
    assert (R0 := rnd_close (val x0 - val y0) ltac:(lra)). assert (R1 := rnd_close (val x1 - val y1) ltac:(lra)).
    rewrite <- V0 in R0. rewrite <- V1 in R1. apply Rabs_le_inv in R0, R1, S0, S1.
    assert (H5 : is (lit 5 1) 0.5).
    { assert (E5 : B2SF (lit 5 1) = SpecFloat.S754_finite false 4503599627370496 (-53)) by (vm_compute; reflexivity).
      split; [unfold fin; destruct (lit 5 1); (reflexivity || discriminate)|].
      unfold val. rewrite <- SF2R_B2SF, E5. unfold SF2R, F2R. cbn [Fnum Fexp cond_Zopp].
      change (bpow radix2 (-53)) with (/ 9007199254740992). lra. }
    destruct H5 as [F5 V5].
    destruct (fadd_is (fsub x0 y0) (lit 5 1) F0 F5) as [Fa Va]; [apply big; apply Rabs_le; rewrite V5; lra|].
    assert (Ra := rnd_close (val (fsub x0 y0) + val (lit 5 1)) ltac:(apply Rabs_le; rewrite V5; lra)).
    rewrite <- Va, V5 in Ra. apply Rabs_le_inv in Ra.
    apply fle_true in HMb; auto. lra.
  - apply (IH (b' :: B) i); auto. intros j x y Hx Hy. apply (HG (S j)); auto.
Qed.

Lemma corrected_mono : forall p x y x' y', (4 <= p <= 18)%N -> p <> 5%N -> p <> 6%N ->
  interpolated (reals (est_table p)) (reals (bias_table p)) x y ->
  interpolated (reals (est_table p)) (reals (bias_table p)) x' y' ->
  x <= x' -> x - y <= x' - y'.
Proof.
  intros p x y x' y' Hp H5 H6. destruct (tables_good p (proj1 Hp) (proj2 Hp)) as (G1 & _ & G3 & _).
  pose proof tables_mono as T. rewrite forallb_forall in T.
  specialize (T p (precisions_in p (proj1 Hp) (proj2 Hp))). cbv beta in T.
  rewrite (proj2 (N.eqb_neq _ _) H5), (proj2 (N.eqb_neq _ _) H6) in T. cbn [orb] in T.
  fold (est_table p) in T. fold (bias_table p) in T.
  apply interpolated_mono; [unfold reals; now rewrite !map_length|].
  intros i x0 y0 x1 y1 A B C D. unfold reals in A, B, C, D. rewrite nth_error_map in A, B, C, D.
  destruct (nth_error (est_table p) i) as [a|] eqn:Ea; [|discriminate]. injection A as <-.
  destruct (nth_error (bias_table p) i) as [b|] eqn:Eb; [|discriminate]. injection B as <-.
  destruct (nth_error (est_table p) (S i)) as [a'|] eqn:Ea'; [|discriminate]. injection C as <-.
  destruct (nth_error (bias_table p) (S i)) as [b'|] eqn:Eb'; [|discriminate]. injection D as <-.
  apply (mono_ok_spec p (est_table p) (bias_table p) i a b a' b'); auto.
  intros j u v Hu Hv. destruct (G3 j u v Hu Hv) as (F1 & F2 & F3 & F4 & _). auto.
Qed.
