(** * What a successful table check says *)
From Coq Require Import NArith ZArith Reals List Bool Lia Lra.
From Flocq Require Import Core BinarySingleNaN.
From Verif Require Import ModelRust ModelF64 ModelEnv ModelCommon ModelConstants ModelPlus
  SpecReal SpecBuild BitFacts F64Facts RawFacts BiasTables BiasFacts BiasMono HarmonicNum MeanTable MeanRows BiasCheck.
Import ListNotations.
Local Open Scope R_scope.

(** ** The points *)
Definition scale (p : N) : R := bpow radix2 (56 - Z.of_N p).

Lemma scale_pos : forall p, 0 < scale p.
Proof. intros. apply bpow_gt_0. Qed.

Lemma scale_m : forall p, scale p * m_R p = IZR U.
Proof.
  intros p. unfold scale, m_R, U. rewrite two_pow, <- bpow_plus.
  replace (56 - Z.of_N p + Z.of_N p)%Z with 56%Z by lia. reflexivity.
Qed.


Lemma fix_ok : forall p x z, fix_ p x = Some z -> IZR z = val x * scale p.
Proof.
  intros p x z H. destruct x as [s|s| |s m e He]; try discriminate.
  - injection H as <-. unfold val. cbn [B2R]. lra.
  - cbn [fix_] in H. destruct (Z.leb_spec 0 (e + 56 - Z.of_N p)) as [L|]; [|discriminate].
    injection H as <-. unfold val, scale. cbn [B2R]. unfold F2R. cbn [Fnum Fexp].
    rewrite mult_IZR, Rmult_assoc, <- bpow_plus. f_equal.
    replace (e + (56 - Z.of_N p))%Z with (e + 56 - Z.of_N p)%Z by lia. apply (IZR_Zpower radix2). exact L.
Qed.

Lemma floor_ok : forall p x z, floor_ p x = Some z -> IZR z <= val x * scale p < IZR z + 1.
Proof.
  intros p x z H. destruct x as [s|s| |s m e He]; try discriminate.
  - injection H as <-. unfold val. cbn [B2R]. lra.
  - cbn [floor_] in H. injection H as <-. unfold val, scale. cbn [B2R]. unfold F2R. cbn [Fnum Fexp].
    set (c := cond_Zopp s (Zpos m)). rewrite Rmult_assoc, <- bpow_plus.
    replace (e + (56 - Z.of_N p))%Z with (e + 56 - Z.of_N p)%Z by lia. set (k := (e + 56 - Z.of_N p)%Z).
    destruct (Z.leb_spec 0 k) as [L|L].
    + rewrite mult_IZR. rewrite <- (IZR_Zpower radix2 k L). change (Z.pow_pos radix2) with (Z.pow_pos 2). 
      change (Z.pow radix2 k) with (2 ^ k)%Z. lra.
    + assert (P : (0 < 2 ^ (- k))%Z) by (apply Z.pow_pos_nonneg; lia).
      pose proof (Z.div_mod c (2 ^ (- k)) ltac:(lia)) as E. pose proof (Z.mod_pos_bound c (2 ^ (- k)) P) as B.
      replace k with (- (- k))%Z at 2 3 by lia. rewrite bpow_opp, <- (IZR_Zpower radix2 (- k)) by lia.
      change (Z.pow radix2 (- k)) with (2 ^ (- k))%Z.
      apply IZR_lt in P. change (IZR 0) with 0 in P. split.
      * apply Rmult_le_reg_r with (1 := P). rewrite Rmult_assoc, Rinv_l, Rmult_1_r by lra.
        rewrite <- mult_IZR. apply IZR_le. lia.
      * apply Rmult_lt_reg_r with (1 := P). rewrite Rmult_assoc, Rinv_l, Rmult_1_r by lra.
        rewrite <- plus_IZR, <- mult_IZR. apply IZR_lt. lia.
Qed.

(** What a point says. *)
Definition point (p : N) (x y : R) (a : Z * Z) : Prop :=
  IZR (fst a) = x * scale p /\ IZR (snd a) - 1 < (x - y) * scale p <= IZR (snd a).

Lemma points_ok : forall p E B l, points p E B = Some l ->
  length l = length E /\ length l = length B /\
  forall i x y, nth_error E i = Some x -> nth_error B i = Some y ->
  exists a, nth_error l i = Some a /\ point p (val x) (val y) a.
Proof.
  intros p. induction E as [|e E IH]; intros [|b B] l H; try discriminate.
  - injection H as <-. repeat split. intros [|i] x y; discriminate.
  - cbn [points] in H. destruct (fix_ p e) as [u|] eqn:Hu; [|discriminate].
    destruct (floor_ p b) as [w|] eqn:Hw; [|discriminate]. destruct (points p E B) as [l'|] eqn:Hl; [|discriminate].
    injection H as <-. destruct (IH B l' Hl) as (L1 & L2 & A). cbn [length]. rewrite L1 at 1. rewrite L2.
    repeat split. intros [|i] x y Hx Hy.
    + injection Hx as <-. injection Hy as <-. exists (u, (u - w)%Z). split; [reflexivity|].
      apply fix_ok in Hu. apply floor_ok in Hw. split; cbn [fst snd]; [exact Hu|]. rewrite minus_IZR, Hu. lra.
    + cbn in Hx, Hy |- *. apply A; assumption.
Qed.

(** ** The segments *)
Lemma consec_in : forall l i a b, nth_error l i = Some a -> nth_error l (S i) = Some b -> In (a, b) (consec l).
Proof.
  induction l as [|c l IH]; intros i a b Ha Hb; [destruct i; discriminate|].
  destruct l as [|d l]; [destruct i; cbn in Hb; try destruct i; discriminate|].
  destruct i as [|i].
  - injection Ha as <-. injection Hb as <-. left. reflexivity.
  - right. apply (IH i); assumption.
Qed.

Lemma in_consec : forall l a b, In (a, b) (consec l) -> exists i, nth_error l i = Some a /\ nth_error l (S i) = Some b.
Proof.
  induction l as [|c l IH]; intros a b H; [contradiction|]. destruct l as [|d l]; [contradiction|].
  destruct H as [E|H].
  - injection E as <- <-. exists 0%nat. auto.
  - destruct (IH a b H) as (i & A & B). exists (S i). auto.
Qed.

(** A corrected estimate lies on a segment, up to the rounding of the biases. *)
Definition on_seg (R V : R) (s : (Z * Z) * (Z * Z)) : Prop :=
  let '((u0, v0), (u1, v1)) := s in
  IZR u0 <= R <= IZR u1 /\
  (IZR v0 - 1) * (IZR u1 - R) + (IZR v1 - 1) * (R - IZR u0) <= V * (IZR u1 - IZR u0)
  <= IZR v0 * (IZR u1 - R) + IZR v1 * (R - IZR u0).

Section Table.
Variable p : N.
Hypothesis Hp : (7 <= p <= 18)%N.
Variable l : list (Z * Z).
Hypothesis Hl : points p (est_table p) (bias_table p) = Some l.
Hypothesis Hs : forallb seg_ok (track l) = true.
Let xs := reals (est_table p).
Let ys := reals (bias_table p).
Let k := scale p.

Lemma table_len : length xs = length ys /\ length xs = length l /\ (2 <= length xs)%nat.
Proof.
  destruct (points_ok _ _ _ _ Hl) as (A & B & _). destruct (tables_good p ltac:(lia) ltac:(lia)) as (_ & C & _).
  unfold xs, ys, reals. rewrite !map_length. lia.
Qed.

Lemma table_step : forall i x0 y0 x1 y1, nth_error xs i = Some x0 -> nth_error ys i = Some y0 ->
  nth_error xs (S i) = Some x1 -> nth_error ys (S i) = Some y1 -> x0 < x1 /\ x0 - y0 <= x1 - y1.
Proof.
  intros i x0 y0 x1 y1 A B C D. destruct (tables_good p ltac:(lia) ltac:(lia)) as (G1 & _ & G3 & _).
  pose proof tables_mono as T. rewrite forallb_forall in T.
  specialize (T p (precisions_in p ltac:(lia) ltac:(lia))). cbv beta in T.
  rewrite (proj2 (N.eqb_neq p 5) ltac:(lia)), (proj2 (N.eqb_neq p 6) ltac:(lia)) in T. cbn [orb] in T.
  fold (est_table p) in T. fold (bias_table p) in T.
  unfold xs, ys, reals in A, B, C, D. rewrite nth_error_map in A, B, C, D.
  destruct (nth_error (est_table p) i) as [a|] eqn:Ea; [|discriminate]. injection A as <-.
  destruct (nth_error (bias_table p) i) as [b|] eqn:Eb; [|discriminate]. injection B as <-.
  destruct (nth_error (est_table p) (S i)) as [a'|] eqn:Ea'; [|discriminate]. injection C as <-.
  destruct (nth_error (bias_table p) (S i)) as [b'|] eqn:Eb'; [|discriminate]. injection D as <-.
  apply (mono_ok_spec p (est_table p) (bias_table p) i a b a' b'); auto; [lia|].
  intros j u v Hu Hv. destruct (G3 j u v Hu Hv) as (F1 & F2 & F3 & F4 & _). auto.
Qed.

Lemma table_point : forall i x y, nth_error xs i = Some x -> nth_error ys i = Some y ->
  exists a, nth_error l i = Some a /\ point p x y a.
Proof.
  intros i x y Hx Hy. destruct (points_ok _ _ _ _ Hl) as (_ & _ & A).
  unfold xs, ys, reals in Hx, Hy. rewrite nth_error_map in Hx, Hy.
  destruct (nth_error (est_table p) i) as [a|] eqn:Ea; [|discriminate]. injection Hx as <-.
  destruct (nth_error (bias_table p) i) as [b|] eqn:Eb; [|discriminate]. injection Hy as <-.
  apply (A i); assumption.
Qed.

Lemma seg_lt : forall s, In s (track l) -> (fst (fst s) < fst (snd s))%Z.
Proof.
  intros s H. clear Hl. rewrite forallb_forall in Hs. specialize (Hs s H). destruct s as [[u0 v0] [u1 v1]].
  cbn [fst snd seg_ok] in *. now apply Z.ltb_lt.
Qed.

(** ** The bias is defined everywhere *)
Lemma interpolation_exists : forall r, exists y, interpolated xs ys r y.
Proof.
  intros r. pose proof table_len as (L1 & L2 & L3).
  assert (AT : forall i, (i < length xs)%nat -> exists x y, nth_error xs i = Some x /\ nth_error ys i = Some y).
  { intros i Hi. destruct (at_some xs ys L1 i Hi) as (x & y & A & B). eauto. }
  destruct (AT 0%nat ltac:(lia)) as (x0 & y0 & A0 & B0).
  destruct (Rle_or_lt r x0) as [H0|H0]; [exists y0; left; exists x0, y0; auto|].
  assert (Q : forall j xj, (j < length xs)%nat -> nth_error xs j = Some xj -> r <= xj -> exists y, interpolated xs ys r y).
  { induction j as [|j IH]; intros xj Hj Ej Lj.
    - rewrite A0 in Ej. injection Ej as <-. lra.
    - destruct (AT j ltac:(lia)) as (xi & yi & Ai & Bi). destruct (Rle_or_lt r xi) as [Hi|Hi].
      + apply (IH xi); auto. lia.
      + destruct (AT (S j) Hj) as (x1 & y1 & C & D). rewrite Ej in C. injection C as <-.
        exists (yi + (r - xi) / (xj - xi) * (y1 - yi)). right. right. exists j, xi, yi, xj, y1.
        repeat (split; [assumption|]). destruct (table_step j xi yi xj y1) as [T _]; auto.
        split; [lra|]. split; [|reflexivity]. rewrite Rmin_left, Rmax_right by lra. lra. }
  destruct (AT (length xs - 1)%nat ltac:(lia)) as (xl & yl & Al & Bl).
  destruct (Rle_or_lt xl r) as [Hr|Hr].
  - exists yl. right. left. exists xl, yl. rewrite <- L1. auto.
  - apply (Q (length xs - 1)%nat xl); auto; lra || lia.
Qed.

Lemma table_mono : forall r y r' y', interpolated xs ys r y -> interpolated xs ys r' y' -> r <= r' -> r - y <= r' - y'.
Proof. intros. apply (corrected_mono p); auto; lia. Qed.

(** ** A segment gives the correction at its points *)
Lemma at_point : forall i a, nth_error l i = Some a ->
  exists x y, nth_error xs i = Some x /\ nth_error ys i = Some y /\ point p x y a.
Proof.
  intros i a Ha. pose proof table_len as (L1 & L2 & _).
  assert (Hi : (i < length xs)%nat) by (rewrite L2; apply nth_error_Some; congruence).
  destruct (at_some xs ys L1 i Hi) as (x & y & A & B). exists x, y. split; [exact A|]. split; [exact B|].
  destruct (table_point i x y A B) as (a' & Ha' & P). rewrite Ha in Ha'. injection Ha' as <-. exact P.
Qed.

Lemma seg_value : forall s r, In s (track l) -> IZR (fst (fst s)) <= r * k <= IZR (fst (snd s)) ->
  exists y, interpolated xs ys r y /\ on_seg (r * k) ((r - y) * k) s.
Proof.
  intros s r Hin Hr. pose proof (seg_lt _ Hin) as Lt. apply IZR_lt in Lt.
  pose proof table_len as (L1 & L2 & L3). assert (K : 0 < k) by apply scale_pos.
  unfold track in Hin. destruct Hin as [E|Hin].
  - destruct (nth_error l 0) as [[u v]|] eqn:E0; [|apply nth_error_None in E0; lia].
    rewrite (nth_error_nth _ _ _ E0) in E. subst s. cbn [fst snd] in *. change (IZR 0) with 0 in *.
    destruct (at_point 0 _ E0) as (x0 & y0 & A & B & P1 & P2). cbn [fst snd] in P1, P2. fold k in P1, P2.
    exists y0. split.
    + left. exists x0, y0. repeat split; auto. apply Rmult_le_reg_r with k; [exact K|]. lra.
    + cbn [on_seg]. rewrite minus_IZR. change (IZR 0) with 0. split; [lra|].
      assert (EV : (r - y0) * k = r * k - IZR u + (x0 - y0) * k) by (rewrite P1; ring).
      rewrite EV. set (R := r * k) in *. set (w := (x0 - y0) * k) in *. clearbody w R. nra.
  - apply in_app_or in Hin. destruct Hin as [Hin|[E|[]]].
    + destruct s as [[u0 v0] [u1 v1]]. cbn [fst snd] in *. destruct (in_consec _ _ _ Hin) as (i & Ea & Eb).
      destruct (at_point i _ Ea) as (x0 & y0 & A & B & P1 & P2). destruct (at_point (S i) _ Eb) as (x1 & y1 & C & D & Q1 & Q2).
      cbn [fst snd] in P1, P2, Q1, Q2. fold k in P1, P2, Q1, Q2.
      assert (X01 : x0 < x1) by (apply Rmult_lt_reg_r with k; lra).
      assert (X0 : x0 <= r) by (apply Rmult_le_reg_r with k; lra). assert (X1 : r <= x1) by (apply Rmult_le_reg_r with k; lra).
      set (y := y0 + (r - x0) / (x1 - x0) * (y1 - y0)). exists y. split.
      * right. right. exists i, x0, y0, x1, y1. repeat (split; [assumption|]).
        split; [lra|]. split; [|reflexivity]. rewrite Rmin_left, Rmax_right by lra. lra.
      * cbn [on_seg]. split; [lra|].
        assert (EV : (r - y) * k * (IZR u1 - IZR u0)
          = (x0 - y0) * k * (IZR u1 - r * k) + (x1 - y1) * k * (r * k - IZR u0)).
        { rewrite P1, Q1. unfold y. field. lra. }
        rewrite EV. assert (0 <= IZR u1 - r * k) by lra. assert (0 <= r * k - IZR u0) by lra.
        set (R := r * k) in *. set (w0 := (x0 - y0) * k) in *. set (w1 := (x1 - y1) * k) in *. clearbody R w0 w1 y.
        split; nra.
    + destruct (nth_error l (length l - 1)) as [[u v]|] eqn:E0; [|apply nth_error_None in E0; lia].
      rewrite (nth_error_nth _ _ _ E0) in E. subst s. cbn [fst snd] in *.
      destruct (at_point _ _ E0) as (xl & yl & A & B & P1 & P2). cbn [fst snd] in P1, P2. fold k in P1, P2.
      exists yl. split.
      * right. left. exists xl, yl. rewrite <- L1, L2. split; [exact A|]. split; [exact B|]. split; [|reflexivity].
        apply Rmult_le_reg_r with k; [exact K|]. lra.
      * cbn [on_seg]. rewrite plus_IZR, minus_IZR, mult_IZR in *. split; [lra|].
        assert (EV : (r - yl) * k = r * k - IZR u + (xl - yl) * k) by (rewrite P1; ring).
        rewrite EV. set (R := r * k) in *. set (w := (xl - yl) * k) in *. set (T := 8 * IZR U) in *. clearbody w R T. nra.
Qed.

Lemma scale_to : forall r, (r / k) * k = r.
Proof. intros r. field. assert (0 < k) by apply scale_pos. lra. Qed.

(** Up to [w], resp. from [w] on. *)
Lemma seg_upper : forall u0 v0 u1 v1 w r y, In ((u0, v0), (u1, v1)) (track l) -> (u0 <= w <= u1)%Z ->
  r * k <= IZR w -> interpolated xs ys r y ->
  (r - y) * k * (IZR u1 - IZR u0) <= IZR v0 * (IZR u1 - IZR w) + IZR v1 * (IZR w - IZR u0).
Proof.
  intros u0 v0 u1 v1 w r y Hin [Hw1 Hw2] Hr I. apply IZR_le in Hw1, Hw2. pose proof (seg_lt _ Hin) as Lt. cbn [fst snd] in Lt.
  apply IZR_lt in Lt. assert (K : 0 < k) by apply scale_pos.
  destruct (seg_value _ (IZR w / k) Hin) as (z & Iz & O); [rewrite scale_to; cbn [fst snd]; lra|]. rewrite scale_to in O.
  destruct O as [_ [_ O]]. eapply Rle_trans; [|exact O]. apply Rmult_le_compat_r; [lra|]. apply Rmult_le_compat_r; [lra|].
  apply table_mono with (1 := I) (2 := Iz). apply Rmult_le_reg_r with k; [exact K|]. rewrite scale_to. exact Hr.
Qed.

Lemma seg_lower : forall u0 v0 u1 v1 w r y, In ((u0, v0), (u1, v1)) (track l) -> (u0 <= w <= u1)%Z ->
  IZR w <= r * k -> interpolated xs ys r y ->
  (IZR v0 - 1) * (IZR u1 - IZR w) + (IZR v1 - 1) * (IZR w - IZR u0) <= (r - y) * k * (IZR u1 - IZR u0).
Proof.
  intros u0 v0 u1 v1 w r y Hin [Hw1 Hw2] Hr I. apply IZR_le in Hw1, Hw2. pose proof (seg_lt _ Hin) as Lt. cbn [fst snd] in Lt.
  apply IZR_lt in Lt. assert (K : 0 < k) by apply scale_pos.
  destruct (seg_value _ (IZR w / k) Hin) as (z & Iz & O); [rewrite scale_to; cbn [fst snd]; lra|]. rewrite scale_to in O.
  destruct O as [_ [O _]]. eapply Rle_trans; [exact O|]. apply Rmult_le_compat_r; [lra|]. apply Rmult_le_compat_r; [lra|].
  apply table_mono with (1 := Iz) (2 := I). apply Rmult_le_reg_r with k; [exact K|]. rewrite scale_to. exact Hr.
Qed.

(** ** The walk *)
Lemma pow_38 : IZR (2 ^ 38) = IZR U / 262144.
Proof. unfold U. change (2 ^ 56)%Z with (2 ^ 38 * 262144)%Z. rewrite mult_IZR. field. Qed.

Lemma up_at_ok : forall i w s r y, In s (track l) -> up_at i w s = true -> r * k <= IZR w -> interpolated xs ys r y ->
  (r - y) * k <= 1.01 * (IZR i / 262144) * IZR U.
Proof.
  intros i w [[u0 v0] [u1 v1]] r y Hin H Hr I. unfold up_at in H. apply andb_true_iff in H. destruct H as [H H3].
  apply andb_true_iff in H. destruct H as [H1 H2]. apply Z.leb_le in H1, H2, H3.
  pose proof (seg_upper u0 v0 u1 v1 w r y Hin (conj H1 H2) Hr I) as S.
  pose proof (seg_lt _ Hin) as Lt. cbn [fst snd] in Lt. apply IZR_lt in Lt.
  apply IZR_le in H3. repeat rewrite ?mult_IZR, ?plus_IZR, ?minus_IZR in H3. rewrite pow_38 in H3.
  apply Rmult_le_reg_r with (IZR u1 - IZR u0); [lra|]. set (V := (r - y) * k) in *. set (u := IZR U) in *. clearbody V u.
  generalize dependent (IZR v0 * (IZR u1 - IZR w) + IZR v1 * (IZR w - IZR u0)). intros Z H3 S. lra.
Qed.

Lemma lo_at_ok : forall j w s r y, In s (track l) -> lo_at j w s = true -> IZR w <= r * k -> interpolated xs ys r y ->
  0.99 * (IZR j / 262144) * IZR U <= (r - y) * k.
Proof.
  intros j w [[u0 v0] [u1 v1]] r y Hin H Hr I. unfold lo_at in H. apply andb_true_iff in H. destruct H as [H H3].
  apply andb_true_iff in H. destruct H as [H1 H2]. apply Z.leb_le in H1, H2, H3.
  pose proof (seg_lower u0 v0 u1 v1 w r y Hin (conj H1 H2) Hr I) as S.
  pose proof (seg_lt _ Hin) as Lt. cbn [fst snd] in Lt. apply IZR_lt in Lt.
  apply IZR_le in H3. repeat rewrite ?mult_IZR, ?plus_IZR, ?minus_IZR in H3. rewrite pow_38 in H3.
  apply Rmult_le_reg_r with (IZR u1 - IZR u0); [lra|]. set (V := (r - y) * k) in *. set (u := IZR U) in *. clearbody V u.
  generalize dependent ((IZR v0 - 1) * (IZR u1 - IZR w) + (IZR v1 - 1) * (IZR w - IZR u0)). intros Z H3 S. lra.
Qed.

Lemma top_at_ok : forall r y, existsb top_at (track l) = true -> r * k <= 5 * IZR U -> interpolated xs ys r y ->
  (r - y) * k <= 5.02 * IZR U.
Proof.
  intros r y H Hr I. apply existsb_exists in H. destruct H as ([[u0 v0] [u1 v1]] & Hin & H). unfold top_at in H.
  cbv zeta in H. destruct (u0 <=? 5 * U)%Z eqn:H1; [|discriminate]. destruct (5 * U <=? u1)%Z eqn:H2; [|discriminate].
  cbn [andb] in H. apply Z.leb_le in H1, H2, H. rewrite <- (mult_IZR 5) in Hr.
  pose proof (seg_upper u0 v0 u1 v1 _ r y Hin (conj H1 H2) Hr I) as S.
  pose proof (seg_lt _ Hin) as Lt. cbn [fst snd] in Lt. apply IZR_lt in Lt.
  apply IZR_le in H. repeat rewrite ?mult_IZR, ?plus_IZR, ?minus_IZR in H. rewrite mult_IZR in S.
  apply Rmult_le_reg_r with (IZR u1 - IZR u0); [lra|]. set (V := (r - y) * k) in *. set (u := IZR U) in *. clearbody V u.
  generalize dependent (IZR v0 * (IZR u1 - 5 * u) + IZR v1 * (5 * u - IZR u0)). intros Z H S. lra.
Qed.

Lemma drop_in : forall w ss s, In s (drop w ss) -> In s ss.
Proof.
  induction ss as [|a ss IH]; intros s H; [contradiction|]. cbn [drop] in H.
  destruct (fst (snd a) <? w)%Z; [right; auto|exact H].
Qed.

(** A cell of the walk around [x]. *)
Lemma walk_ok : forall al rs i a0 a1 su sl x, walk al i a1 rs su sl = true ->
  (forall s, In s su -> In s (track l)) -> (forall s, In s sl -> In s (track l)) ->
  rs <> [] -> IZR i <= x <= IZR (fst (fst (last rs (0, 0, 0)%Z))) ->
  exists c c0 c1 d d0 d1 s s', In (c, c0, c1) ((i, a0, a1) :: rs) /\ In (d, d0, d1) rs /\ IZR c <= x <= IZR d /\
    (0 < r_lo al c1)%Z /\ under c (r_hi al d0) = true /\
    In s (track l) /\ up_at c (r_hi al d0) s = true /\ In s' (track l) /\ lo_at d (r_lo al c1) s' = true.
Proof.
  intros al. induction rs as [|[[j b0] b1] rs IH]; intros i a0 a1 su sl x H Su Sl Hn Hx; [contradiction|]. clear Hn.
  cbn [walk] in H. cbv zeta in H. destruct (drop (r_hi al b0) su) as [|s su'] eqn:Eu; [discriminate|].
  destruct (drop (r_lo al a1) sl) as [|s' sl'] eqn:El; [discriminate|].
  assert (Iu : forall z, In z (s :: su') -> In z (track l)) by (intros z Hz; apply Su, drop_in with (r_hi al b0); rewrite Eu; exact Hz).
  assert (Il : forall z, In z (s' :: sl') -> In z (track l)) by (intros z Hz; apply Sl, drop_in with (r_lo al a1); rewrite El; exact Hz).
  match type of H with (if ?b then _ else _) = true => destruct b eqn:C; [|discriminate] end.
  apply andb_true_iff in C. destruct C as [C C5]. apply andb_true_iff in C. destruct C as [C C4].
  apply andb_true_iff in C. destruct C as [C C3]. apply andb_true_iff in C. destruct C as [C1 C2].
  apply Z.ltb_lt in C1.
  destruct (Rle_or_lt x (IZR j)) as [L|L].
  - exists i, a0, a1, j, b0, b1, s, s'. split; [now left|]. split; [now left|]. split; [lra|]. split; [exact C1|].
    split; [exact C3|]. split; [apply Iu; now left|]. split; [exact C4|]. split; [apply Il; now left|exact C5].
  - destruct rs as [|r rs]; [cbn in Hx; lra|].
    destruct (IH j b0 b1 _ _ x H Iu Il ltac:(discriminate)) as (c & c0 & c1 & d & d0 & d1 & z & z' & A1 & A2 & A3).
    + split; [lra|]. apply Hx.
    + exists c, c0, c1, d, d0, d1, z, z'. split; [now right|]. split; [now right|]. exact A3.
Qed.
End Table.
