(** * The no_std logarithm is accurate *)
From Coq Require Import NArith ZArith Reals Lra Lia Bool.
From Flocq Require Import Core BinarySingleNaN Plus_error.
From Verif Require Import IntervalZ.
From Verif Require Import ModelRust ModelF64 ModelLog F64Facts LogFacts LogConst LogPoly.
Local Open Scope R_scope.

(** ** Rounding errors counted in units of [u] *)
Definition near (k : R) (x : f64) (X : R) : Prop := fin x /\ rel (k * u) (val x) X.

Definition sized (x : R) : Prop := bpow radix2 (-900) <= Rabs x <= bpow radix2 900.

Lemma near_is : forall x X, is x X -> near 0 x X.
Proof. intros x X [F <-]. split; auto. rewrite Rmult_0_l. apply rel_refl. Qed.

Lemma near_le : forall k k' x X, k <= k' -> near k x X -> near k' x X.
Proof.
  intros k k' x X H [F R]. split; auto. eapply rel_le; [|exact R].
  apply Rmult_le_compat_r; auto. apply Rlt_le, u_pos.
Qed.

Lemma two_pow : forall e, bpow radix2 (e + 1) = 2 * bpow radix2 e.
Proof. intros. rewrite bpow_plus. change (bpow radix2 1) with 2. ring. Qed.

Lemma near_rnd : forall k r X, 0 <= k <= 100 -> sized X -> rel (k * u) r X ->
  Rabs r <= bpow radix2 1023 /\ rel ((k + 1.001) * u) (rnd r) X.
Proof.
  intros k r X Hk [L U] R. pose proof u_pos. pose proof u_val as Eu.
  destruct R as (d & Hd & E).
  assert (D : Rabs d <= / 10000). { eapply Rle_trans; [exact Hd|]. rewrite Eu. lra. }
  assert (A : / 2 * Rabs X <= Rabs r <= 2 * Rabs X).
  { rewrite E, Rabs_mult. apply Rabs_le_inv in D. pose proof (Rabs_pos X).
    rewrite (Rabs_pos_eq (1 + d)) by lra. nra. }
  split.
  - eapply Rle_trans; [apply A|]. apply Rle_trans with (2 * bpow radix2 900); [lra|].
    rewrite <- two_pow. apply bpow_le. lia.
  - destruct (rnd_rel r) as (d' & Hd' & E').
    { apply Rle_trans with (/ 2 * bpow radix2 (-900)); [|lra].
      change (-900)%Z with (-901 + 1)%Z. rewrite two_pow.
      replace (/ 2 * (2 * bpow radix2 (-901))) with (bpow radix2 (-901)) by lra.
      apply bpow_le. lia. }
    exists (d + d' + d * d'). split; [|rewrite E', E; ring].
    eapply Rle_trans; [apply Rabs_triang|]. rewrite Rabs_mult.
    pose proof (Rabs_triang d d'). pose proof (Rabs_pos d). pose proof (Rabs_pos d'). nra.
Qed.

Lemma near_mul : forall k1 k2 x y X Y, 0 <= k1 <= 49 -> 0 <= k2 <= 49 -> near k1 x X ->
  near k2 y Y -> sized (X * Y) -> near (k1 + k2 + 1.002) (fmul x y) (X * Y).
Proof.
  intros k1 k2 x y X Y H1 H2 [Fx Rx] [Fy Ry] S.
  assert (R : rel ((k1 + k2 + 0.001) * u) (val x * val y) (X * Y)).
  { eapply rel_le; [|apply (rel_mul _ _ _ _ _ _ Rx Ry)]. pose proof u_pos. pose proof u_val.
    assert (k1 * u * (k2 * u) <= 0.001 * u); [|lra].
    replace (k1 * u * (k2 * u)) with (k1 * k2 * u * u) by ring.
    apply Rmult_le_compat_r; [lra|]. rewrite u_val. nra. }
  apply near_rnd in R; auto; [|lra]. destruct R as [B R].
  destruct (fmul_is x y Fx Fy B) as [F V]. split; auto. rewrite V.
  eapply rel_le; [|exact R]. apply Rmult_le_compat_r; [apply Rlt_le, u_pos|lra].
Qed.

Lemma near_div : forall k1 k2 x y X Y, 0 <= k1 <= 49 -> 0 <= k2 <= 49 -> near k1 x X ->
  near k2 y Y -> Y <> 0 -> sized (X / Y) -> near (k1 + k2 + 1.003) (fdiv x y) (X / Y).
Proof.
  intros k1 k2 x y X Y H1 H2 [Fx Rx] [Fy Ry] NY S. pose proof u_pos as Pu. pose proof u_val as Eu.
  assert (small (k1 * u)) by (unfold small; rewrite Eu; lra).
  assert (small (k2 * u)) by (unfold small; rewrite Eu; lra).
  assert (Q : k2 * u / (1 - k2 * u) <= (k2 + 0.001) * u).
  { unfold small in *. apply Rmult_le_reg_r with (1 - k2 * u); [lra|].
    unfold Rdiv. rewrite Rmult_assoc, Rinv_l by lra. rewrite Eu. nra. }
  assert (Q0 : 0 <= k2 * u / (1 - k2 * u)).
  { unfold small in *. apply Rmult_le_pos; [lra|]. apply Rlt_le, Rinv_0_lt_compat. lra. }
  assert (R : rel ((k1 + k2 + 0.002) * u) (val x / val y) (X / Y)).
  { eapply rel_le; [|apply (rel_div _ _ _ _ _ _ Rx Ry); auto; unfold small in *; lra].
    assert (k1 * u * (k2 * u / (1 - k2 * u)) <= 0.001 * u); [|lra].
    apply Rle_trans with (k1 * u * ((k2 + 0.001) * u)).
    - apply Rmult_le_compat_l; auto. unfold small in *. lra.
    - replace (k1 * u * ((k2 + 0.001) * u)) with (k1 * (k2 + 0.001) * u * u) by ring.
      apply Rmult_le_compat_r; [lra|]. rewrite u_val. nra. }
  apply near_rnd in R; auto; [|lra]. destruct R as [B R].
  destruct (fdiv_is x y Fx Fy) as [F V]; auto.
  { destruct Ry as (d & Hd & ->). apply Rmult_integral_contrapositive_currified; auto.
    unfold small in *. apply Rabs_le_inv in Hd. lra. }
  split; auto. rewrite V.
  eapply rel_le; [|exact R]. apply Rmult_le_compat_r; lra.
Qed.

(** [q] bounds the weight of the second summand. *)
Lemma near_add : forall q k1 k2 x y X Y, 0 <= k1 -> 0 <= k2 -> 0 <= q -> k1 + q * k2 <= 90 ->
  near k1 x X -> near k2 y Y -> 0 <= X -> 0 <= Y -> Y <= q * X -> sized (X + Y) ->
  near (k1 + q * k2 + 1.002) (fadd x y) (X + Y).
Proof.
  intros q k1 k2 x y X Y H1 H2 Hq HK [Fx Rx] [Fy Ry] PX PY W S. pose proof u_pos as Pu.
  assert (Hp : 0 < X + Y).
  { destruct S as [L _]. rewrite Rabs_pos_eq in L by lra.
    eapply Rlt_le_trans; [apply bpow_gt_0|exact L]. }
  assert (R : rel ((k1 + q * k2) * u) (val x + val y) (X + Y)).
  { apply rel_bounds in Rx; auto. apply rel_bounds in Ry; auto. apply rel_of_bounds; auto.
    assert (Y * (k2 * u) <= X * (q * k2 * u)).
    { replace (X * (q * k2 * u)) with (q * X * (k2 * u)) by ring.
      apply Rmult_le_compat_r; auto. apply Rmult_le_pos; lra. }
    assert (0 <= Y * ((k1 + q * k2) * u)) by (repeat apply Rmult_le_pos; nra).
    split; lra. }
  apply near_rnd in R; auto; [|nra]. destruct R as [B R].
  destruct (fadd_is x y Fx Fy B) as [F V]. split; auto. rewrite V.
  eapply rel_le; [|exact R]. apply Rmult_le_compat_r; lra.
Qed.

Lemma rnd_add_err : forall x y : f64,
  Rabs (rnd (val x + val y) - (val x + val y)) <= u * Rabs (val x + val y).
Proof.
  intros x y.
  destruct (FLT_plus_error_N_ex radix2 (-1074) 53 (fun x => negb (Z.even x))
              (val x) (val y)) as (d & Hd & E); try apply (generic_format_B2R 53 1024).
  change (round radix2 (FLT_exp (-1074) 53) (Znearest (fun x => negb (Z.even x))) (val x + val y))
    with (rnd (val x + val y)) in E.
  apply rel_abs. exists d. split; [|exact E].
  eapply Rle_trans; [exact Hd|].
  unfold Relative.u_ro. change (bpow radix2 (- (53) + 1)) with (/ 4503599627370496).
  rewrite u_val.
  apply Rmult_le_reg_r with (1 + / 2 * / 4503599627370496); [lra|].
  unfold Rdiv. rewrite Rmult_assoc, Rinv_l; lra.
Qed.

Lemma rnd_sub_err : forall x y : f64,
  Rabs (rnd (val x - val y) - (val x - val y)) <= u * Rabs (val x - val y).
Proof. intros. apply rel_abs, rnd_sub_rel. Qed.

(** ** The terms of the polynomial part *)
Definition S_ (F : R) : R := F / (2 + F).
Definition T_ (F : R) : R := S_ F * (/ 2 * F * F + P (S_ F * S_ F)).

Lemma sized_of : forall x, bpow radix2 (-400) <= Rabs x <= 1024 -> sized x.
Proof.
  intros x [A B]. split.
  - eapply Rle_trans; [|exact A]. apply bpow_le. lia.
  - eapply Rle_trans; [exact B|]. change 1024 with (bpow radix2 10). apply bpow_le. lia.
Qed.

Lemma sized_pos : forall e x, (-400 <= e)%Z -> bpow radix2 e <= x <= 1024 -> sized x.
Proof.
  intros e x He [A B]. apply sized_of. pose proof (bpow_gt_0 radix2 e).
  rewrite Rabs_pos_eq by lra. split; auto. eapply Rle_trans; [|exact A]. now apply bpow_le.
Qed.

Lemma half_is : is (lit 5 1) (/ 2).
Proof.
  pose proof (lit_correct 5 1 ltac:(lia) ltac:(lia)) as H.
  replace (IZR 5 / 10 ^ N.to_nat 1) with (bpow radix2 (-1)) in H.
  - rewrite rnd_generic in H by (apply bpow_generic; lia). exact H.
  - simpl. lra.
Qed.

(** The polynomial terms in floats. *)
Definition s_f (f : f64) : f64 := fdiv f (fadd (of_Z 2) f).
Definition h_f (f : f64) : f64 := fmul (fmul (lit 5 1) f) f.
Definition r_f (f : f64) : f64 :=
  let z := fmul (s_f f) (s_f f) in
  let w := fmul z z in
  fadd (fmul z (fadd LG1 (fmul w (fadd LG3 (fmul w (fadd LG5 (fmul w LG7)))))))
       (fmul w (fadd LG2 (fmul w (fadd LG4 (fmul w LG6))))).
Definition t_f (f : f64) : f64 := fmul (s_f f) (fadd (h_f f) (r_f f)).

Lemma log_poly_eq : forall x k, log_poly x k =
  fadd (fadd (fsub (fadd (t_f (fsub x (of_Z 1))) (fmul (of_Z k) LN2_LO))
                   (h_f (fsub x (of_Z 1)))) (fsub x (of_Z 1))) (fmul (of_Z k) LN2_HI).
Proof. intros. unfold log_poly, t_f, h_f, r_f, s_f. reflexivity. Qed.

Section Terms.
  Variables (f : f64) (F : R).
  Hypothesis Hf : is f F.
  Hypothesis HF : -0.29289341 <= F <= 0.41421319.
  Hypothesis HF0 : bpow radix2 (-53) <= Rabs F.

  Let s := S_ F.
  Let z := s * s.
  Let w := z * z.

  Lemma F_abs : Rabs F <= 0.41421319.
  Proof. apply Rabs_le. lra. Qed.

  Lemma s_abs : bpow radix2 (-55) <= Rabs s <= 0.17161.
  Proof.
    unfold s, S_, Rdiv. rewrite Rabs_mult. split.
    - change (-55)%Z with (-53 + -2)%Z. rewrite bpow_plus.
      apply Rmult_le_compat; auto; try apply bpow_ge_0.
      rewrite Rabs_inv, Rabs_pos_eq by lra. change (bpow radix2 (-2)) with (/ 4).
      apply Rinv_le; lra.
    - rewrite <- Rabs_mult. change (F * / (2 + F)) with (F / (2 + F)). clear - HF.
      replace (F / (2 + F)) with (1 - 2 / (2 + F)) by (field; lra).
      bound_cut 60%Z F (-29289341)%Z 41421319%Z 100000000%Z 1%nat.
  Qed.

  Lemma z_range : bpow radix2 (-110) <= z <= 0.02946.
  Proof.
    destruct s_abs as [A B]. assert (E : z = Rabs s * Rabs s).
    { unfold z. rewrite <- Rabs_mult, Rabs_pos_eq; auto. nra. }
    rewrite E. pose proof (Rabs_pos s). split; [|nra].
    change (-110)%Z with (-55 + -55)%Z. rewrite bpow_plus.
    apply Rmult_le_compat; auto; apply bpow_ge_0.
  Qed.

  Lemma w_range : bpow radix2 (-220) <= w <= 0.000868.
  Proof.
    destruct z_range as [A B]. pose proof (bpow_gt_0 radix2 (-110)). split; [|unfold w; nra].
    change (-220)%Z with (-110 + -110)%Z. rewrite bpow_plus. unfold w.
    apply Rmult_le_compat; auto; apply bpow_ge_0.
  Qed.

  Lemma c_range :
    (0.6666 <= c_LG1 <= 0.6667 /\ 0.3999 <= c_LG2 <= 0.4001 /\ 0.2857 <= c_LG3 <= 0.2858) /\
    (0.2222 <= c_LG4 <= 0.2223 /\ 0.1818 <= c_LG5 <= 0.1819 /\ 0.1531 <= c_LG6 <= 0.1532) /\
    0.1479 <= c_LG7 <= 0.148.
  Proof. unfold c_LG1, c_LG2, c_LG3, c_LG4, c_LG5, c_LG6, c_LG7. lra. Qed.

  Lemma s_near : near 2.01 (s_f f) s.
  Proof.
    pose proof F_abs as FA. destruct Hf as [Ff Vf].
    destruct (of_Z_exact 2 ltac:(lia)) as [F2 V2].
    assert (D : near 1.001 (fadd (of_Z 2) f) (2 + F)).
    { assert (S : sized (2 + F)).
      { apply (sized_pos 0); [lia|]. change (bpow radix2 0) with 1. lra. }
      destruct (near_rnd 0 (2 + F) (2 + F) ltac:(lra) S) as [B R].
      { rewrite Rmult_0_l. apply rel_refl. }
      rewrite Rplus_0_l in R.
      assert (E : 2 + F = val (of_Z 2) + val f) by now rewrite V2, Vf.
      rewrite E in B. destruct (fadd_is _ _ F2 Ff B) as [Fa Va]. split; auto.
      rewrite Va, <- E. exact R. }
    apply near_le with (0 + 1.001 + 1.003); [lra|].
    apply near_div; try lra; auto.
    - now apply near_is.
    - change (F / (2 + F)) with s. apply sized_of. destruct s_abs. split; [|lra].
      eapply Rle_trans; [|eassumption]. apply bpow_le. lia.
  Qed.

  Lemma z_near : near 5.03 (fmul (s_f f) (s_f f)) z.
  Proof.
    apply near_le with (2.01 + 2.01 + 1.002); [lra|]. apply near_mul; try lra; try apply s_near.
    apply (sized_pos (-110)); [lia|]. change (s * s) with z. pose proof z_range. lra.
  Qed.

  Lemma w_near : near 11.07 (fmul (fmul (s_f f) (s_f f)) (fmul (s_f f) (s_f f))) w.
  Proof.
    apply near_le with (5.03 + 5.03 + 1.002); [lra|]. apply near_mul; try lra; try apply z_near.
    apply (sized_pos (-220)); [lia|]. change (z * z) with w. pose proof w_range. lra.
  Qed.

  (** One Horner step [c + w * y]. *)
  Lemma step : forall c cr y Y, is c cr -> 0.1 <= cr <= 1 -> 0.1 <= Y <= 1 -> near 1.1 y Y ->
    Y <= 2 * cr ->
    near 1.1 (fadd c (fmul (fmul (fmul (s_f f) (s_f f)) (fmul (s_f f) (s_f f))) y)) (cr + w * Y) /\
    cr <= cr + w * Y <= cr + 0.000868 * Y.
  Proof.
    intros c cr y Y Hc Rc RY Ny Hq. pose proof w_range as [WL WU].
    pose proof (bpow_gt_0 radix2 (-220)) as Wp.
    assert (WY : bpow radix2 (-224) <= w * Y <= 0.000868 * Y).
    { change (-224)%Z with (-220 + -4)%Z. rewrite bpow_plus. change (bpow radix2 (-4)) with (/ 16).
      split; [|nra]. apply Rmult_le_compat; lra. }
    pose proof (bpow_gt_0 radix2 (-224)).
    split; [|lra].
    apply near_le with (0 + 0.002 * (11.07 + 1.1 + 1.002) + 1.002); [lra|].
    apply near_add; try lra.
    - now apply near_is.
    - apply near_mul; try lra; auto. apply w_near. apply (sized_pos (-224)); [lia|]. lra.
    - apply (sized_pos (-4)); [lia|]. change (bpow radix2 (-4)) with (/ 16). lra.
  Qed.

  Lemma last_step : forall c cr d dr, is c cr -> is d dr -> 0.1 <= cr <= 1 -> 0.1 <= dr <= 1 ->
    dr <= 2 * cr ->
    near 1.1 (fadd c (fmul (fmul (fmul (s_f f) (s_f f)) (fmul (s_f f) (s_f f))) d)) (cr + w * dr) /\
    cr <= cr + w * dr <= cr + 0.000868 * dr.
  Proof.
    intros. apply step; auto. apply near_le with 0; [lra|]. now apply near_is.
  Qed.

  Lemma r_near : near 8.5 (r_f f) (P z).
  Proof.
    destruct c_range as ((R1 & R2 & R3) & (R4 & R5 & R6) & R7).
    pose proof w_range as [WL WU]. pose proof z_range as [ZL ZU].
    pose proof (bpow_gt_0 radix2 (-220)) as Wp. pose proof (bpow_gt_0 radix2 (-110)) as Zp.
    destruct (last_step _ _ _ _ LG4_is LG6_is ltac:(lra) ltac:(lra) ltac:(lra)) as [N4 B4].
    destruct (step _ _ _ (c_LG4 + w * c_LG6) LG2_is ltac:(lra) ltac:(lra) N4 ltac:(lra)) as [N2 B2].
    destruct (last_step _ _ _ _ LG5_is LG7_is ltac:(lra) ltac:(lra) ltac:(lra)) as [N5 B5].
    destruct (step _ _ _ (c_LG5 + w * c_LG7) LG3_is ltac:(lra) ltac:(lra) N5 ltac:(lra)) as [N3 B3].
    destruct (step _ _ _ (c_LG3 + w * (c_LG5 + w * c_LG7)) LG1_is ltac:(lra) ltac:(lra) N3 ltac:(lra)) as [N1 B1].
    set (A := c_LG1 + _) in *. set (B := c_LG2 + _) in *.
    assert (EP : P z = z * A + w * B).
    { unfold P, A, B, w. ring. }
    assert (RA : 0.66 <= A <= 0.67) by lra. assert (RB : 0.39 <= B <= 0.41) by lra.
    clearbody A B. rewrite EP. unfold r_f. cbv zeta.
    assert (NA := near_mul 5.03 1.1 _ _ _ _ ltac:(lra) ltac:(lra) z_near N1).
    assert (NB := near_mul 11.07 1.1 _ _ _ _ ltac:(lra) ltac:(lra) w_near N2).
    assert (ZA : bpow radix2 (-112) <= z * A <= 1).
    { change (-112)%Z with (-110 + -2)%Z. rewrite bpow_plus. change (bpow radix2 (-2)) with (/ 4).
      split; [apply Rmult_le_compat; lra|]. rewrite <- (Rmult_1_r 1). apply Rmult_le_compat; lra. }
    assert (WB : bpow radix2 (-222) <= w * B <= 1).
    { change (-222)%Z with (-220 + -2)%Z. rewrite bpow_plus. change (bpow radix2 (-2)) with (/ 4).
      split; [apply Rmult_le_compat; lra|]. rewrite <- (Rmult_1_r 1). apply Rmult_le_compat; lra. }
    apply near_le with (5.03 + 1.1 + 1.002 + 0.02 * (11.07 + 1.1 + 1.002) + 1.002); [lra|].
    pose proof (bpow_gt_0 radix2 (-112)). pose proof (bpow_gt_0 radix2 (-222)).
    apply near_add; try lra.
    - apply NA. apply (sized_pos (-112)); [lia|]. lra.
    - apply NB. apply (sized_pos (-222)); [lia|]. lra.
    - assert (z * B <= 0.02946 * 0.41) by (apply Rmult_le_compat; lra).
      unfold w. replace (0.02 * (z * A)) with (z * (0.02 * A)) by ring. rewrite Rmult_assoc.
      apply Rmult_le_compat_l; lra.
    - apply (sized_pos (-112)); [lia|]. lra.
  Qed.

  Lemma h_range : bpow radix2 (-107) <= / 2 * F * F <= 0.0858.
  Proof.
    pose proof F_abs as FA. assert (E : / 2 * F * F = / 2 * (Rabs F * Rabs F)).
    { rewrite <- Rabs_mult, (Rabs_pos_eq (F * F)); [ring|nra]. }
    rewrite E. pose proof (bpow_gt_0 radix2 (-53)). split; [|nra].
    change (-107)%Z with (-1 + (-53 + -53))%Z. rewrite !bpow_plus.
    change (bpow radix2 (-1)) with (/ 2). nra.
  Qed.

  Lemma h_near : near 2.01 (h_f f) (/ 2 * F * F).
  Proof.
    pose proof F_abs as FA. pose proof h_range as HR. pose proof (bpow_gt_0 radix2 (-107)).
    apply near_le with (0 + 0 + 1.002 + 0 + 1.002); [lra|].
    apply near_mul; try lra.
    - apply near_mul; try lra; try (apply near_is; auto; apply half_is).
      apply sized_of. rewrite Rabs_mult, (Rabs_pos_eq (/ 2)) by lra. split; [|lra].
      apply Rle_trans with (/ 2 * bpow radix2 (-53)); [|lra].
      change (/ 2) with (bpow radix2 (-1)). rewrite <- bpow_plus. apply bpow_le. lia.
    - now apply near_is.
    - apply (sized_pos (-107)); [lia|]. lra.
  Qed.

  Lemma P_range : 0 <= P z <= 0.0202.
  Proof.
    pose proof z_range as [ZL ZU]. pose proof (bpow_gt_0 radix2 (-110)) as Zp.
    assert (0 <= z <= 0.02946) by lra. clear ZL. unfold P.
    destruct c_range as ((R1 & R2 & R3) & (R4 & R5 & R6) & R7). clearbody z.
    split; [|unfold c_LG1, c_LG2, c_LG3, c_LG4, c_LG5, c_LG6, c_LG7; bound_cut 60%Z z 0%Z 2946%Z 100000%Z 1%nat].
    repeat (apply Rmult_le_pos; [lra|]; try lra; apply Rplus_le_le_0_compat; [lra|]).
    apply Rmult_le_pos; lra.
  Qed.

  Lemma t_near : near 12.6 (t_f f) (T_ F).
  Proof.
    pose proof h_range as HR. pose proof P_range as PR. pose proof s_abs as [SL SU].
    pose proof (bpow_gt_0 radix2 (-107)) as Hp.
    assert (NS : near 9.51 (fadd (h_f f) (r_f f)) (/ 2 * F * F + P z)).
    { destruct h_near as [Fh Rh]. destruct r_near as [Fr Rr].
      assert (Sz : sized (/ 2 * F * F + P z)).
      { apply (sized_pos (-107)); [lia|]. lra. }
      assert (R : rel (8.5 * u) (val (h_f f) + val (r_f f)) (/ 2 * F * F + P z)).
      { apply rel_add; try lra; auto. eapply rel_le; [|exact Rh].
        apply Rmult_le_compat_r; [apply Rlt_le, u_pos|lra]. }
      apply near_rnd in R; auto; [|lra]. destruct R as [B R].
      destruct (fadd_is _ _ Fh Fr B) as [Fa Va]. split; auto. rewrite Va.
      eapply rel_le; [|exact R]. apply Rmult_le_compat_r; [apply Rlt_le, u_pos|lra]. }
    apply near_le with (2.01 + 9.51 + 1.002); [lra|].
    unfold t_f, T_. apply near_mul; try lra; auto. { apply s_near. }
    change (S_ F) with s. change (s * s) with z. apply sized_of.
    rewrite Rabs_mult, (Rabs_pos_eq (_ + _)) by lra. split.
    - change (-400)%Z with (-55 + -345)%Z. rewrite bpow_plus.
      apply Rmult_le_compat; auto; try apply bpow_ge_0.
      apply Rle_trans with (bpow radix2 (-107)); [apply bpow_le; lia|lra].
    - pose proof (Rabs_pos s). nra.
  Qed.
End Terms.

Lemma T_abs : forall F, -0.29289341 <= F <= 0.41421319 -> Rabs (T_ F) <= 0.0445 * Rabs F.
Proof.
  intros F HF.
  replace (T_ F) with ((/ 2 * F * F + P (S_ F * S_ F)) / (2 + F) * F).
  2:{ unfold T_. unfold S_ at 3. field. lra. }
  rewrite Rabs_mult. apply Rmult_le_compat_r; [apply Rabs_pos|].
  unfold P, S_, c_LG1, c_LG2, c_LG3, c_LG4, c_LG5, c_LG6, c_LG7.
  bound_cut 60%Z F (-29289341)%Z 41421319%Z 100000000%Z 64%nat.
Qed.

Lemma T_sum : forall F, -0.29289341 <= F <= 0.41421319 ->
  F - / 2 * F * F + T_ F = ln (1 + F) - gap (S_ F).
Proof.
  intros F HF. unfold gap.
  assert (E1 : 1 + S_ F = 2 * (1 + F) / (2 + F)) by (unfold S_; field; lra).
  assert (E2 : 1 - S_ F = 2 / (2 + F)) by (unfold S_; field; lra).
  assert (H2 : 0 < 2 / (2 + F)) by (apply Rdiv_lt_0_compat; lra).
  replace (ln (1 + S_ F)) with (ln (1 + F) + ln (1 - S_ F)).
  2:{ rewrite <- ln_mult; [|lra|rewrite E2; auto]. f_equal. rewrite E1, E2. field. lra. }
  assert (E : F - / 2 * F * F + S_ F * (/ 2 * F * F) = 2 * S_ F) by (unfold S_; field; lra).
  unfold T_. lra.
Qed.

(** ** The result *)
Lemma x_minus_1 : forall x r, is x r -> 0.70710659 <= r < 1.41421319 ->
  (exists n, r = IZR n * bpow radix2 (-53)) ->
  is (fsub x (of_Z 1)) (r - 1) /\ (r - 1 = 0 \/ bpow radix2 (-53) <= Rabs (r - 1)).
Proof.
  intros x r [Fx Vx] Hr [n En]. destruct (of_Z_exact 1 ltac:(lia)) as [F1 V1].
  pose proof (bpow_gt_0 radix2 (-53)) as Pb.
  assert (E : r - 1 = IZR (n - 2 ^ 53) * bpow radix2 (-53)).
  { rewrite minus_IZR, Rmult_minus_distr_r, <- En. f_equal.
    change (IZR (2 ^ 53)) with (bpow radix2 53). now rewrite <- bpow_plus. }
  assert (Hn : (Z.abs (n - 2 ^ 53) <= 2 ^ 53)%Z).
  { apply le_IZR. rewrite abs_IZR. apply Rmult_le_reg_r with (bpow radix2 (-53)); auto.
    rewrite <- (Rabs_pos_eq (bpow radix2 (-53))) at 1 by lra. rewrite <- Rabs_mult, <- E.
    change (IZR (2 ^ 53)) with (bpow radix2 53). rewrite <- bpow_plus. simpl. apply Rabs_le. lra. }
  destruct (fsub_is x (of_Z 1) Fx F1) as [Fs Vs].
  { rewrite Vx, V1. apply Rle_trans with 1; [apply Rabs_le; lra|].
    change 1 with (bpow radix2 0). apply bpow_le. lia. }
  split.
  - split; auto. rewrite Vs, Vx, V1. apply rnd_generic. rewrite E.
    destruct (Z.eq_dec (Z.abs (n - 2 ^ 53)) (2 ^ 53)) as [Ee|Ne].
    { exfalso. assert (Rabs (IZR (n - 2 ^ 53)) = bpow radix2 53).
      { rewrite <- abs_IZR, Ee. reflexivity. }
      assert (A : Rabs (r - 1) = 1).
      { rewrite E, Rabs_mult, H, (Rabs_pos_eq (bpow radix2 (-53))) by lra.
        now rewrite <- bpow_plus. }
      revert A. unfold Rabs. destruct (Rcase_abs _); lra. }
    apply generic_format_FLT. exists (Float radix2 (n - 2 ^ 53) (-53)); [reflexivity| |cbn; lia].
    cbn [Fnum]. change (radix2 ^ 53)%Z with (2 ^ 53)%Z. lia.
  - destruct (Z.eq_dec (n - 2 ^ 53) 0) as [Ez|Nz].
    + left. rewrite E, Ez. ring.
    + right. rewrite E, Rabs_mult, (Rabs_pos_eq (bpow radix2 (-53))) by lra.
      rewrite <- (Rmult_1_l (bpow radix2 (-53))) at 1. apply Rmult_le_compat_r; [lra|].
      rewrite <- abs_IZR. apply IZR_le. lia.
Qed.

(** All roundings, as absolute errors. *)
Lemma near_err : forall k x X, near k x X -> fin x /\ Rabs (val x - X) <= k * u * Rabs X.
Proof. intros k x X [F R]. split; auto. now apply rel_abs. Qed.

Lemma terms_err : forall f F, is f F -> -0.29289341 <= F <= 0.41421319 ->
  (F = 0 \/ bpow radix2 (-53) <= Rabs F) ->
  (fin (t_f f) /\ Rabs (val (t_f f) - T_ F) <= 12.6 * u * Rabs (T_ F)) /\
  (fin (h_f f) /\ Rabs (val (h_f f) - / 2 * F * F) <= 2.01 * u * Rabs (/ 2 * F * F)).
Proof.
  intros f F Hf HF [Z|H0].
  2:{ split; apply near_err; [apply t_near|apply h_near]; auto. }
  subst F. destruct Hf as [Ff Vf].
  assert (M0 : forall x y, fin x -> fin y -> val x = 0 -> is (fmul x y) 0).
  { intros x y Fx Fy V. rewrite <- rnd_0. rewrite <- (Rmult_0_l (val y)), <- V.
    apply fmul_is; auto. rewrite V, Rmult_0_l, Rabs_R0. apply bpow_ge_0. }
  assert (M1 : forall x y, fin x -> fin y -> val y = 0 -> is (fmul x y) 0).
  { intros x y Fx Fy V. rewrite <- rnd_0. rewrite <- (Rmult_0_r (val x)), <- V.
    apply fmul_is; auto. rewrite V, Rmult_0_r, Rabs_R0. apply bpow_ge_0. }
  assert (A0 : forall x y, fin x -> fin y -> Rabs (val x + val y) <= 2 -> fin (fadd x y)).
  { intros x y Fx Fy B. apply fadd_is; auto. eapply Rle_trans; [exact B|].
    change 2 with (bpow radix2 1). apply bpow_le. lia. }
  assert (S0 : is (s_f f) 0).
  { destruct (of_Z_exact 2 ltac:(lia)) as [F2 V2].
    assert (D : is (fadd (of_Z 2) f) 2).
    { replace 2 with (rnd (val (of_Z 2) + val f)).
      - apply fadd_is; auto. rewrite V2, Vf, Rplus_0_r, Rabs_pos_eq by lra.
        change 2 with (bpow radix2 1). apply bpow_le. lia.
      - rewrite V2, Vf, Rplus_0_r. apply rnd_generic. change 2 with (bpow radix2 1).
        apply bpow_generic. lia. }
    destruct D as [Fd Vd]. rewrite <- rnd_0. replace 0 with (val f / val (fadd (of_Z 2) f)).
    2:{ rewrite Vf. unfold Rdiv. ring. }
    apply fdiv_is; auto; rewrite ?Vd; [lra|]. rewrite Vf. unfold Rdiv. rewrite Rmult_0_l, Rabs_R0.
    apply bpow_ge_0. }
  destruct S0 as [Fs Vs].
  assert (Z0 : is (fmul (s_f f) (s_f f)) 0) by (apply M0; auto). destruct Z0 as [Fz Vz].
  assert (W0 : is (fmul (fmul (s_f f) (s_f f)) (fmul (s_f f) (s_f f))) 0) by (apply M0; auto).
  destruct W0 as [Fw Vw].
  destruct (M1 (lit 5 1) f) as [Fl Vl]; auto. { apply half_is. }
  destruct (M0 (fmul (lit 5 1) f) f) as [Fh Vh]; auto.
  assert (ST : forall c cr y, is c cr -> 0 <= cr <= 1 -> fin y ->
     fin (fadd c (fmul (fmul (fmul (s_f f) (s_f f)) (fmul (s_f f) (s_f f))) y))).
  { intros c cr y [Fc Vc] Rc Fy. destruct (M0 _ y Fw Fy Vw) as [Fm Vm].
    apply A0; auto. rewrite Vm, Vc. rewrite Rabs_pos_eq; lra. }
  destruct c_range as ((R1 & R2 & R3) & (R4 & R5 & R6) & R7).
  assert (FR : is (r_f f) 0).
  { unfold r_f. cbv zeta.
    assert (Q4 := ST _ _ _ LG4_is ltac:(lra) (proj1 LG6_is)).
    assert (Q2 := ST _ _ _ LG2_is ltac:(lra) Q4).
    assert (Q5 := ST _ _ _ LG5_is ltac:(lra) (proj1 LG7_is)).
    assert (Q3 := ST _ _ _ LG3_is ltac:(lra) Q5).
    assert (Q1 := ST _ _ _ LG1_is ltac:(lra) Q3).
    destruct (M0 _ _ Fz Q1 Vz) as [Fa Va]. destruct (M0 _ _ Fw Q2 Vw) as [Fb Vb].
    rewrite <- rnd_0. replace 0 with (0 + 0) at 1 by ring. rewrite <- Va at 1. rewrite <- Vb.
    apply fadd_is; auto. rewrite Va, Vb, Rplus_0_r, Rabs_R0. apply bpow_ge_0. }
  destruct FR as [Fr Vr].
  assert (FS : fin (fadd (h_f f) (r_f f))).
  { apply A0; auto. change (val (h_f f)) with (val (fmul (fmul (lit 5 1) f) f)).
    rewrite Vh, Vr, Rplus_0_r, Rabs_R0. lra. }
  assert (ET : T_ 0 = 0). { unfold T_, S_. unfold Rdiv. ring. }
  destruct (M0 _ _ Fs FS Vs) as [Ft Vt].
  split; (split; [auto|]).
  - change (val (t_f f)) with (val (fmul (s_f f) (fadd (h_f f) (r_f f)))).
    rewrite Vt, ET, Rminus_0_r, Rabs_R0. lra.
  - change (val (h_f f)) with (val (fmul (fmul (lit 5 1) f) f)).
    rewrite Vh. replace (/ 2 * 0 * 0) with 0 by ring. rewrite Rminus_0_r, Rabs_R0. lra.
Qed.

Lemma P_pos : forall z, 0 <= z -> 0 <= P z.
Proof.
  intros z Hz. destruct c_range as ((R1 & R2 & R3) & (R4 & R5 & R6) & R7). unfold P.
  repeat first [apply Rmult_le_pos; [exact Hz|] | apply Rplus_le_le_0_compat; [lra|] | lra].
Qed.

Lemma ln_1F : forall F, -0.29289341 <= F <= 0.41421319 ->
  0.824 * Rabs F <= Rabs (ln (1 + F)) /\ Rabs (gap (S_ F)) <= 0.3 * u * Rabs F /\
  Rabs (gap (S_ F)) <= 0.086 * u /\ Rabs (ln (1 + F)) <= 0.34658.
Proof.
  intros F HF.
  assert (SA : Rabs (S_ F) <= 0.586 * Rabs F).
  { unfold S_, Rdiv. rewrite Rabs_mult, Rmult_comm. apply Rmult_le_compat_r; [apply Rabs_pos|].
    bound_cut 60%Z F (-29289341)%Z 41421319%Z 100000000%Z 1%nat. }
  assert (SB : 0.4142 * Rabs F <= Rabs (S_ F)).
  { unfold S_, Rdiv. rewrite Rabs_mult, Rmult_comm. apply Rmult_le_compat_l; [apply Rabs_pos|].
    bound_cut 60%Z F (-29289341)%Z 41421319%Z 100000000%Z 1%nat. }
  assert (SU : Rabs (S_ F) <= 0.17161). 
  { unfold S_. replace (F / (2 + F)) with (1 - 2 / (2 + F)) by (field; lra).
    bound_cut 60%Z F (-29289341)%Z 41421319%Z 100000000%Z 1%nat. }
  pose proof (gap_small _ SU) as G. pose proof (Rabs_pos (S_ F)) as Ps.
  assert (Eu : / 2 ^ 54 = / 2 * u). { rewrite u_val. simpl. lra. }
  rewrite Eu in G. pose proof u_pos as Pu.
  assert (Q : Rabs (ln (1 + F)) >= 1.99 * Rabs (S_ F)).
  { assert (L : ln (1 + F) = S_ F * (2 + P (S_ F * S_ F)) + gap (S_ F)).
    { unfold gap.
      pose proof (T_sum F HF) as TS. unfold gap, T_ in TS.
      assert (E : F - / 2 * F * F + S_ F * (/ 2 * F * F) = 2 * S_ F) by (unfold S_; field; lra).
      lra. }
    assert (PP : 0 <= P (S_ F * S_ F)) by (apply P_pos; nra).
    pose proof (Rabs_triang_inv (S_ F * (2 + P (S_ F * S_ F))) (- gap (S_ F))) as I.
    rewrite Rabs_Ropp in I. unfold Rminus in I. rewrite Ropp_involutive, <- L in I.
    rewrite Rabs_mult, (Rabs_pos_eq (2 + _)) in I by lra.
    rewrite u_val in *. nra. }
  split; [lra|]. split; [|split].
  - eapply Rle_trans; [exact G|]. rewrite u_val. lra.
  - eapply Rle_trans; [exact G|]. rewrite u_val. lra.
  - bound_cut 60%Z F (-29289341)%Z 41421319%Z 100000000%Z 1%nat.
Qed.

Lemma rnd_add_bound : forall (x y : f64) B, Rabs (val x + val y) <= B ->
  Rabs (rnd (val x + val y) - (val x + val y)) <= B * u.
Proof.
  intros x y B H. eapply Rle_trans; [apply rnd_add_err|]. rewrite Rmult_comm.
  apply Rmult_le_compat_r; auto. apply Rlt_le, u_pos.
Qed.

Lemma rnd_sub_bound : forall (x y : f64) B, Rabs (val x - val y) <= B ->
  Rabs (rnd (val x - val y) - (val x - val y)) <= B * u.
Proof.
  intros x y B H. eapply Rle_trans; [apply rnd_sub_err|]. rewrite Rmult_comm.
  apply Rmult_le_compat_r; auto. apply Rlt_le, u_pos.
Qed.

Lemma le_big : forall x b, x <= b -> b <= 100000 -> x <= bpow radix2 1023.
Proof.
  intros x b H Hb. apply Rle_trans with (bpow radix2 17).
  - change (bpow radix2 17) with 131072. lra.
  - apply bpow_le. lia.
Qed.

Ltac absl := repeat match goal with
  | H : Rabs _ <= _ |- _ => apply Rabs_le_inv in H
  end.

Lemma log_poly_k0 : forall x r, is x r -> 0.70710659 <= r < 1.41421319 ->
  (exists n, r = IZR n * bpow radix2 (-53)) ->
  fin (log_poly x 0) /\ Rabs (val (log_poly x 0) - ln r) <= 4 * u * Rabs (ln r).
Proof.
  intros x r Hx Hr Hn. destruct (x_minus_1 x r Hx Hr Hn) as [[Ff Vf] H0]. rewrite log_poly_eq.
  generalize dependent (fsub x (of_Z 1)). intros f Ff Vf.
  set (F := r - 1) in *. assert (Er : r = 1 + F) by (unfold F; ring). clearbody F. subst r.
  assert (HF : -0.29289341 <= F <= 0.41421319) by lra.
  destruct (terms_err f F (conj Ff Vf) HF H0) as [[Ft Et] [Fh Eh]].
  pose proof (T_abs F HF) as TA. pose proof (T_sum F HF) as TS.
  destruct (ln_1F F HF) as (L1 & L2 & _ & L4).
  set (G := Rabs F) in *. assert (PG : 0 <= G) by apply Rabs_pos.
  assert (GU : G <= 0.41421319) by (apply Rabs_le; lra).
  assert (HH : Rabs (/ 2 * F * F) <= 0.2072 * G).
  { rewrite !Rabs_mult, (Rabs_pos_eq (/ 2)) by lra. fold G. nra. }
  set (H := / 2 * F * F) in *. set (T := T_ F) in *.
  assert (Et' : Rabs (val (t_f f) - T) <= 0.561 * u * G).
  { eapply Rle_trans; [exact Et|]. pose proof u_pos. rewrite u_val. lra. }
  assert (Eh' : Rabs (val (h_f f) - H) <= 0.417 * u * G).
  { eapply Rle_trans; [exact Eh|]. pose proof u_pos. rewrite u_val. lra. }
  clear Et Eh. clearbody H T.
  (* dk * LN2_LO and dk * LN2_HI are zeros *)
  assert (Z : forall c, fin c -> is (fmul (of_Z 0) c) 0).
  { intros c Fc. destruct (of_Z_exact 0 ltac:(lia)) as [F0 V0].
    rewrite <- rnd_0, <- (Rmult_0_l (val c)), <- V0. apply fmul_is; auto.
    rewrite V0, Rmult_0_l, Rabs_R0. apply bpow_ge_0. }
  destruct (Z LN2_LO (proj1 LN2_LO_is)) as [Fl Vl]. destruct (Z LN2_HI (proj1 LN2_HI_is)) as [Fi Vi].
  rewrite u_val in *.
  (* first addition: exact *)
  destruct (fadd_is (t_f f) _ Ft Fl) as [F1 V1].
  { apply (le_big _ 1); [|lra]. rewrite Vl, Rplus_0_r. apply Rabs_le. absl. lra. }
  rewrite Vl, Rplus_0_r, rnd_id in V1.
  destruct (fsub_is _ (h_f f) F1 Fh) as [F2 V2].
  { apply (le_big _ 1); [|lra]. rewrite V1. apply Rabs_le. absl. lra. }
  pose proof (rnd_sub_bound (fadd (t_f f) (fmul (of_Z 0) LN2_LO)) (h_f f) (0.253 * G)) as E2.
  rewrite V1 in *. rewrite <- V2, u_val in E2.
  assert (E2' := E2 ltac:(apply Rabs_le; absl; lra)). clear E2.
  destruct (fadd_is _ f F2 Ff) as [F3 V3].
  { apply (le_big _ 1); [|lra]. rewrite Vf. apply Rabs_le.
    assert (Rabs F <= G) by (unfold G; lra). absl. lra. }
  pose proof (rnd_add_err (fsub (fadd (t_f f) (fmul (of_Z 0) LN2_LO)) (h_f f)) f) as E3.
  rewrite <- V3, u_val in E3.
  destruct (fadd_is _ _ F3 Fi) as [F4 V4].
  { rewrite Vi, Rplus_0_r. rewrite V3. apply rnd_abs_le; [lia|].
    apply (le_big _ 1); [|lra]. rewrite Vf. apply Rabs_le.
    assert (Rabs F <= G) by (unfold G; lra). absl. lra. }
  rewrite Vi, Rplus_0_r, rnd_id in V4. split; auto. rewrite V4.
  rewrite Vf in E3. set (Y := val (fadd (fsub _ _) _)) in *.
  set (W := val (fsub _ _)) in *. clearbody Y W.
  set (L := ln (1 + F)) in *.
  assert (EW : Rabs (W + F - L) <= 1.54 * / 9007199254740992 * G).
  { apply Rabs_le. absl. lra. }
  assert (WL : Rabs (W + F) <= 1.01 * Rabs L).
  { replace (W + F) with (W + F - L + L) by ring. eapply Rle_trans; [apply Rabs_triang|]. lra. }
  assert (YL : Rabs (Y - (W + F)) <= 1.01 * / 9007199254740992 * Rabs L) by lra.
  replace (Y - L) with (Y - (W + F) + (W + F - L)) by ring.
  eapply Rle_trans; [apply Rabs_triang|]. lra.
Qed.

Lemma hi_exact : forall k, (-1200 <= k <= 1200)%Z ->
  is (fmul (of_Z k) LN2_HI) (IZR k * c_LN2_HI).
Proof.
  intros k Hk. destruct (of_Z_exact k ltac:(lia)) as [Fk Vk]. destruct LN2_HI_is as [Fh Vh].
  assert (Q : c_LN2_HI = IZR 2977044471 * bpow radix2 (-32)).
  { unfold c_LN2_HI. simpl. lra. }
  assert (Bk : Rabs (IZR k) <= 1200) by (rewrite <- abs_IZR; apply IZR_le; lia).
  destruct (fmul_is _ _ Fk Fh) as [F V].
  { apply (le_big _ (1200 * 1)); [|lra]. rewrite Vk, Vh, Rabs_mult.
    apply Rmult_le_compat; auto using Rabs_pos. unfold c_LN2_HI. apply Rabs_le. lra. }
  split; auto. rewrite V, Vk, Vh. apply rnd_generic. rewrite Q, <- Rmult_assoc, <- mult_IZR.
  apply generic_format_FLT. exists (Float radix2 (k * 2977044471) (-32)); [reflexivity| |cbn; lia].
  cbn [Fnum]. change (radix2 ^ 53)%Z with 9007199254740992%Z. lia.
Qed.

Lemma ln2_split : Rabs (c_LN2_HI + c_LN2_LO - ln 2) <= / 1208925819614629174706176.
Proof. unfold c_LN2_HI, c_LN2_LO. bound_const 120%Z. Qed.

Lemma log_poly_k : forall x r k, is x r -> 0.70710659 <= r < 1.41421319 ->
  (exists n, r = IZR n * bpow radix2 (-53)) -> (-1200 <= k <= 1200)%Z -> k <> 0%Z ->
  fin (log_poly x k) /\
  Rabs (val (log_poly x k) - (ln r + IZR k * ln 2)) <= 4 * u * Rabs (ln r + IZR k * ln 2).
Proof.
  intros x r k Hx Hr Hn Hk Nk.
  destruct (x_minus_1 x r Hx Hr Hn) as [[Ff Vf] H0]. rewrite log_poly_eq.
  generalize dependent (fsub x (of_Z 1)). intros f Ff Vf.
  set (F := r - 1) in *. assert (Er : r = 1 + F) by (unfold F; ring). clearbody F. subst r.
  assert (HF : -0.29289341 <= F <= 0.41421319) by lra.
  destruct (terms_err f F (conj Ff Vf) HF H0) as [[Ft Et] [Fh Eh]].
  pose proof (T_abs F HF) as TA. pose proof (T_sum F HF) as TS.
  destruct (ln_1F F HF) as (_ & _ & L3 & L4).
  assert (GU : Rabs F <= 0.41421319) by (apply Rabs_le; lra). pose proof (Rabs_pos F) as PG.
  assert (TU : Rabs (T_ F) <= 0.01844) by lra.
  assert (HH : Rabs (/ 2 * F * F) <= 0.0858).
  { rewrite !Rabs_mult, (Rabs_pos_eq (/ 2)) by lra. nra. }
  set (H := / 2 * F * F) in *. set (T := T_ F) in *.
  rewrite u_val in *.
  assert (Et' : Rabs (val (t_f f) - T) <= 0.2324 * / 9007199254740992) by lra.
  assert (Eh' : Rabs (val (h_f f) - H) <= 0.1725 * / 9007199254740992) by lra.
  clear Et Eh. clearbody H T.
  destruct (hi_exact k Hk) as [Fi Vi].
  destruct (of_Z_exact k ltac:(lia)) as [Fk Vk]. destruct LN2_LO_is as [Fo Vo].
  assert (Bk : Rabs (IZR k) <= 1200) by (rewrite <- abs_IZR; apply IZR_le; lia).
  assert (Bk1 : 1 <= Rabs (IZR k)) by (rewrite <- abs_IZR; apply IZR_le; lia).
  assert (LoU : Rabs (IZR k * c_LN2_LO) <= 0.0000003).
  { rewrite Rabs_mult, (Rabs_pos_eq c_LN2_LO) by (unfold c_LN2_LO; lra). unfold c_LN2_LO. lra. }
  destruct (fmul_is _ _ Fk Fo) as [Fl Vl].
  { apply (le_big _ 1); [|lra]. rewrite Vk, Vo. lra. }
  rewrite Vk, Vo in Vl.
  assert (El : Rabs (val (fmul (of_Z k) LN2_LO) - IZR k * c_LN2_LO) <= 0.0001 * / 9007199254740992).
  { rewrite Vl. eapply Rle_trans; [apply (rnd_err _ (-20)); [lia|]|].
    - eapply Rle_trans; [exact LoU|]. simpl. lra.
    - simpl. lra. }
  clear Vl. set (klo := val (fmul (of_Z k) LN2_LO)) in *.
  destruct (fadd_is (t_f f) _ Ft Fl) as [F1 V1].
  { apply (le_big _ 1); [|lra]. fold klo. apply Rabs_le. absl. lra. }
  pose proof (rnd_add_bound (t_f f) (fmul (of_Z k) LN2_LO) 0.0185) as E1. fold klo in E1, V1.
  rewrite <- V1, u_val in E1. assert (E1' := E1 ltac:(apply Rabs_le; absl; lra)). clear E1 V1.
  generalize dependent (fadd (t_f f) (fmul (of_Z k) LN2_LO)). intros a1 F1 E1.
  destruct (fsub_is a1 (h_f f) F1 Fh) as [F2 V2].
  { apply (le_big _ 1); [|lra]. apply Rabs_le. absl. lra. }
  pose proof (rnd_sub_bound a1 (h_f f) 0.1044) as E2.
  rewrite <- V2, u_val in E2. assert (E2' := E2 ltac:(apply Rabs_le; absl; lra)). clear E2 V2.
  generalize dependent (fsub a1 (h_f f)). intros a2 F2 E2.
  assert (LB : Rabs (val a2 + F - (ln (1 + F) + IZR k * c_LN2_LO)) <= 0.62 * / 9007199254740992).
  { apply Rabs_le. absl. lra. }
  destruct (fadd_is a2 f F2 Ff) as [F3 V3].
  { apply (le_big _ 1); [|lra]. rewrite Vf. apply Rabs_le. absl. lra. }
  pose proof (rnd_add_bound a2 f 0.3466) as E3. rewrite Vf in E3, V3.
  rewrite <- V3, u_val in E3. assert (E3' := E3 ltac:(apply Rabs_le; absl; lra)). clear E3 V3.
  generalize dependent (fadd a2 f). intros a3 F3 E3.
  assert (LC : Rabs (val a3 - (ln (1 + F) + IZR k * c_LN2_LO)) <= 0.967 * / 9007199254740992).
  { apply Rabs_le. absl. lra. }
  assert (LK : Rabs (IZR k * (c_LN2_HI + c_LN2_LO) - IZR k * ln 2) <= 0.0001 * / 9007199254740992).
  { rewrite <- Rmult_minus_distr_l, Rabs_mult.
    apply Rle_trans with (1200 * / 1208925819614629174706176).
    - apply Rmult_le_compat; auto using Rabs_pos. apply ln2_split.
    - lra. }
  set (L := ln (1 + F) + IZR k * ln 2) in *.
  assert (LD : Rabs (val a3 + IZR k * c_LN2_HI - L) <= 0.968 * / 9007199254740992).
  { apply Rabs_le. absl. unfold L. lra. }
  assert (LL : 0.3465 <= Rabs L).
  { assert (LN : 0.6931 <= ln 2) by bound_const 60%Z.
    assert (0.6931 <= Rabs (IZR k * ln 2)).
    { rewrite Rabs_mult, (Rabs_pos_eq (ln 2)) by lra. nra. }
    pose proof (Rabs_triang_inv (IZR k * ln 2) (- ln (1 + F))) as I.
    rewrite Rabs_Ropp in I. unfold Rminus in I at 1.
    replace (IZR k * ln 2 - - ln (1 + F)) with L in I by (unfold L; ring). lra. }
  assert (LU : Rabs L <= 1000).
  { unfold L. eapply Rle_trans; [apply Rabs_triang|]. rewrite Rabs_mult.
    assert (Rabs (ln 2) <= 0.6932) by bound_const 60%Z. pose proof (Rabs_pos (IZR k)).
    pose proof (Rabs_pos (ln 2)). nra. }
  destruct (fadd_is a3 _ F3 Fi) as [F4 V4].
  { apply (le_big _ 1001); [|lra]. rewrite Vi.
    replace (val a3 + IZR k * c_LN2_HI) with (val a3 + IZR k * c_LN2_HI - L + L) by ring.
    eapply Rle_trans; [apply Rabs_triang|]. lra. }
  pose proof (rnd_add_err a3 (fmul (of_Z k) LN2_HI)) as E4.
  rewrite <- V4, Vi, u_val in E4. split; auto.
  set (Y := val (fadd _ _)) in *. set (W := val a3 + _) in *. clearbody Y W L.
  assert (WL : Rabs W <= 1.01 * Rabs L).
  { replace W with (W - L + L) by ring. eapply Rle_trans; [apply Rabs_triang|]. lra. }
  replace (Y - L) with (Y - W + (W - L)) by ring.
  eapply Rle_trans; [apply Rabs_triang|]. lra.
Qed.

Lemma reduced_accurate : forall x y, reduced x y ->
  fin y /\ Rabs (val y - ln x) <= 4 * u * Rabs (ln x).
Proof.
  intros x y (x' & k & r & -> & Hx & Hr & -> & Hk & Hn).
  assert (E : ln (r * bpow radix2 k) = ln r + IZR k * ln 2).
  { rewrite ln_mult; [|lra|apply bpow_gt_0]. f_equal.
    rewrite bpow_powerRZ. rewrite powerRZ_Rpower by (simpl; lra). unfold Rpower. apply ln_exp. }
  rewrite E. destruct (Z.eq_dec k 0) as [->|Nk].
  - rewrite Rmult_0_l, Rplus_0_r. now apply log_poly_k0.
  - now apply log_poly_k.
Qed.

(** Accuracy for every positive finite argument. *)
Theorem log_accurate : forall ck x, fin x -> 0 < val x ->
  exists y, log ck x = Ret y /\ fin y /\ Rabs (val y - ln (val x)) <= 4 * u * Rabs (ln (val x)).
Proof.
  intros ck x Fx Px. unfold log.
  destruct (log_bits_cases ck (to_bits x) (to_bits_lt x)) as (y & Ey & C).
  exists y. split; auto. rewrite from_bits_to_bits in C by (destruct x; auto; discriminate).
  destruct x as [s|s| |s m e Hm]; try discriminate.
  - change (val (B754_zero s)) with 0 in Px. lra.
  - destruct s.
    + exfalso. unfold val, B2R, F2R in Px. cbn [cond_Zopp Z.opp Fnum Fexp] in Px.
      assert (0 < IZR (Zpos m) * bpow radix2 e).
      { apply Rmult_lt_0_compat; [now apply IZR_lt|apply bpow_gt_0]. }
      change (IZR (Zneg m)) with (- IZR (Zpos m)) in Px. lra.
    + destruct C as [[Eb ->]|[_ R]]; [|now apply reduced_accurate].
      split; [reflexivity|].
      assert (V : val (B754_finite false m e Hm) = 1).
      { rewrite <- (from_bits_to_bits (B754_finite false m e Hm)) by reflexivity. rewrite Eb.
        pose proof (normal_value 1023 0 ltac:(lia) ltac:(lia) eq_refl) as [_ V].
        change (0x3ff0000000000000)%N with (1023 * 2 ^ 52 + 0)%N. rewrite V.
        change (IZR (Z.of_N (2 ^ 52 + 0))) with (bpow radix2 52). now rewrite <- bpow_plus. }
      rewrite V, ln_1. change (val pzero) with 0. rewrite Rminus_0_r, Rabs_R0. lra.
Qed.
