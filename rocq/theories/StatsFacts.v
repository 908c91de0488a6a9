(** * The statistics of exp.py, and real numbers *)
From Coq Require Import NArith ZArith Reals List Permutation Bool Lia Lra Psatz.
From Flocq Require Import Core BinarySingleNaN Relative.
From Verif Require Import ModelRust ModelF64 ModelStats SpecStats F64Facts RawFacts LogAccuracy.
Import ListNotations.
Local Open Scope R_scope.

(** ** Rounding *)
Definition tiny : R := bpow radix2 (-1075).

Lemma tiny_pos : 0 < tiny.
Proof. apply bpow_gt_0. Qed.

Lemma rnd_both : forall x, 0 <= x -> x * (1 - u) - tiny <= rnd x <= x * (1 + u) + tiny.
Proof.
  intros x Hx.
  destruct (error_N_FLT radix2 (-1074) 53 eq_refl (fun x => negb (Z.even x)) x) as (d & t & Hd & Ht & _ & E).
  change (rnd x = x * (1 + d) + t) in E. rewrite E.
  assert (D : Rabs d <= u).
  { eapply Rle_trans; [exact Hd|]. rewrite u_val. change (bpow radix2 (- (53) + 1)) with (/ 4503599627370496). lra. }
  assert (T : Rabs t <= tiny).
  { eapply Rle_trans; [exact Ht|]. unfold tiny. change (-1075)%Z with (-1 + -1074)%Z. rewrite bpow_plus.
    change (bpow radix2 (-1)) with (/ 2). lra. }
  apply Rabs_le_inv in D. apply Rabs_le_inv in T. split; nra.
Qed.

Lemma rnd_pos : forall x, 0 <= x -> 0 <= rnd x.
Proof. intros x H. rewrite <- rnd_0. now apply rnd_le. Qed.

(** ** Sums *)
Lemma total_app : forall a b, total (a ++ b) = total a + total b.
Proof. induction a as [|x a IH]; intros b; unfold total in *; cbn; [lra|]. rewrite IH. lra. Qed.

Lemma total_perm : forall a b, Permutation a b -> total a = total b.
Proof. induction 1; cbn in *; unfold total in *; cbn; lra. Qed.

Lemma total_pos : forall l, List.Forall (fun x => 0 <= x) l -> 0 <= total l.
Proof. induction 1; cbn; unfold total in *; lra. Qed.

Definition good (x : f64) : Prop := fin x /\ 0 <= val x.

Lemma good_total : forall l, List.Forall good l -> 0 <= total (map val l).
Proof. induction 1 as [|x l [_ H]]; cbn; unfold total in *; lra. Qed.

Lemma pow_up : forall n, 1 <= (1 + u) ^ n.
Proof. intros n. apply pow_R1_Rle. pose proof u_pos. lra. Qed.

Lemma pow_down : forall n, 0 <= (1 - u) ^ n <= 1.
Proof.
  intros n. pose proof u_pos. assert (u < 1) by (rewrite u_val; lra). split; [apply pow_le; lra|].
  apply Rle_trans with (1 ^ n); [apply pow_incr; lra|rewrite pow1; lra].
Qed.

Lemma up_le : forall n m, (n <= m)%nat -> (1 + u) ^ n <= (1 + u) ^ m.
Proof. intros. apply Rle_pow; auto. pose proof u_pos. lra. Qed.

Lemma down_le : forall n m, (n <= m)%nat -> (1 - u) ^ m <= (1 - u) ^ n.
Proof.
  intros n m H. replace m with ((m - n) + n)%nat by lia. rewrite pow_add. pose proof (pow_down (m - n)).
  pose proof (pow_down n). nra.
Qed.

Lemma added_fin : forall l s, added l s -> List.Forall good l ->
  total (map val l) * (1 + u) ^ length l <= bpow radix2 1023 ->
  fin s /\ total (map val l) * (1 - u) ^ Nat.pred (length l) <= val s <= total (map val l) * (1 + u) ^ Nat.pred (length l) /\
  (length l = 1%nat -> val s = total (map val l)) /\ (length l = 2%nat -> val s = rnd (total (map val l))).
Proof.
  induction 1 as [g|x|l1 l2 l x y A1 IH1 A2 IH2 P]; intros G B.
  - split; [easy|]. cbn. split; [lra|]. split; [easy|easy].
  - apply Forall_inv in G. split; [apply G|]. cbn. split; [lra|]. split; [intros _; lra|easy].
  - assert (G' : List.Forall good (l1 ++ l2)).
    { apply Forall_forall. intros z Hz. rewrite Forall_forall in G. apply G. now apply (Permutation_in _ P). }
    assert (E : total (map val l) = total (map val l1) + total (map val l2)).
    { rewrite <- total_app, <- map_app. apply total_perm. apply Permutation_sym. now apply Permutation_map. }
    assert (L : length l = (length l1 + length l2)%nat).
    { rewrite <- app_length. symmetry. now apply Permutation_length. }
    apply Forall_app in G'. destruct G' as [G1 G2].
    pose proof (good_total _ G1) as T1. pose proof (good_total _ G2) as T2.
    rewrite L, E in *. rewrite pow_add in B.
    pose proof (pow_up (length l1)) as U1. pose proof (pow_up (length l2)) as U2.
    set (a := total (map val l1)) in *. set (b := total (map val l2)) in *.
    set (p1 := (1 + u) ^ length l1) in *. set (p2 := (1 + u) ^ length l2) in *.
    assert (B1 : a * p1 <= bpow radix2 1023) by (eapply Rle_trans; [|exact B]; assert (p1 <= p1 * p2) by nra; nra).
    assert (B2 : b * p2 <= bpow radix2 1023) by (eapply Rle_trans; [|exact B]; assert (p2 <= p1 * p2) by nra; nra).
    destruct (IH1 G1 B1) as (F1 & (D1 & V1) & O1 & _). destruct (IH2 G2 B2) as (F2 & (D2 & V2) & O2 & W2).
    pose proof (IH1 G1 B1) as (_ & _ & _ & W1).
    assert (X1 : 0 <= val x). { eapply Rle_trans; [|exact D1]. apply Rmult_le_pos; auto. apply pow_down. }
    assert (X2 : 0 <= val y). { eapply Rle_trans; [|exact D2]. apply Rmult_le_pos; auto. apply pow_down. }
    assert (S : Rabs (val x + val y) <= bpow radix2 1023).
    { rewrite Rabs_pos_eq by lra. eapply Rle_trans; [|exact B].
      assert (Q1 : (1 + u) ^ Nat.pred (length l1) <= p1 * p2).
      { apply Rle_trans with p1; [apply up_le; lia|nra]. }
      assert (Q2 : (1 + u) ^ Nat.pred (length l2) <= p1 * p2).
      { apply Rle_trans with p2; [apply up_le; lia|nra]. }
      assert (val x <= a * (p1 * p2)) by (eapply Rle_trans; [exact V1|]; now apply Rmult_le_compat_l).
      assert (val y <= b * (p1 * p2)) by (eapply Rle_trans; [exact V2|]; now apply Rmult_le_compat_l). lra. }
    destruct (fadd_is _ _ F1 F2 S) as [F V]. split; [exact F|]. rewrite V. clear B B1 B2 S.
    assert (Z1 : l1 = [] -> a = 0 /\ val x = 0).
    { intros ->. assert (a = 0) by reflexivity. split; [assumption|]. cbn [length Nat.pred] in *. rewrite H in *. lra. }
    assert (Z2 : l2 = [] -> b = 0 /\ val y = 0).
    { intros ->. assert (b = 0) by reflexivity. split; [assumption|]. cbn [length Nat.pred] in *. rewrite H in *. lra. }
    destruct l1 as [|z1 l1].
    { destruct Z1 as [-> ->]; [reflexivity|]. rewrite !Rplus_0_l, rnd_id. cbn [length plus] in *. repeat split; auto. }
    destruct l2 as [|z2 l2].
    { destruct Z2 as [-> ->]; [reflexivity|]. rewrite !Rplus_0_r, rnd_id. cbn [length] in *. rewrite !Nat.add_0_r. repeat split; auto. }
    split.
    + pose proof (rnd_add_err x y) as R. rewrite (Rabs_pos_eq (val x + val y)) in R by lra. apply Rabs_le_inv in R.
      cbn [length Nat.pred] in *. replace (Nat.pred (S (length l1) + S (length l2))) with (S (length l1 + length l2)) by lia.
      cbn [pow]. pose proof u_pos. assert (u < 1) by (rewrite u_val; lra).
      pose proof (up_le (length l1) (length l1 + length l2) ltac:(lia)).
      pose proof (up_le (length l2) (length l1 + length l2) ltac:(lia)).
      pose proof (down_le (length l1) (length l1 + length l2) ltac:(lia)).
      pose proof (down_le (length l2) (length l1 + length l2) ltac:(lia)).
      set (h := (1 + u) ^ (length l1 + length l2)) in *. set (w := (1 - u) ^ (length l1 + length l2)) in *.
      assert (val x + val y <= (a + b) * h) by nra. assert ((a + b) * w <= val x + val y) by nra.
      split; [apply Rle_trans with ((1 - u) * (val x + val y)); nra|apply Rle_trans with ((1 + u) * (val x + val y)); nra].
    + cbn [length] in *. split; [lia|]. intros K. rewrite O1, O2 by lia. reflexivity.
Qed.

(** ** The mean *)
Lemma pow_nu : forall n, INR n <= 2 ^ 50 + 8 -> INR n * u <= / 4.
Proof. intros n H. rewrite u_val. lra. Qed.

Lemma small_powers : forall n, INR n <= 2 ^ 50 + 8 -> (1 + u) ^ n <= 3 / 2.
Proof. intros n H. pose proof (pow_nu n H). pose proof (pow_upper n ltac:(lra)). lra. Qed.

Lemma count_is : forall n, INR n <= 2 ^ 50 -> is (of_N (N.of_nat n)) (INR n).
Proof.
  intros n H. assert (K : (Z.of_nat n <= 2 ^ 50)%Z).
  { apply le_IZR. rewrite <- INR_IZR_INZ. eapply Rle_trans; [exact H|]. change (2 ^ 50)%Z with 1125899906842624%Z. lra. }
  destruct (of_N_exact (N.of_nat n)) as [F V]; [lia|]. split; [exact F|]. rewrite V, nat_N_Z. symmetry. apply INR_IZR_INZ.
Qed.

Lemma mean_range : forall xs m, xs <> [] -> INR (length xs) <= 2 ^ 50 -> List.Forall good xs ->
  total (map val xs) <= bpow radix2 1000 -> np_mean xs m ->
  fin m /\ 0 <= val m /\ mean (map val xs) * (1 - u) ^ length xs - tiny <= val m <= mean (map val xs) * (1 + u) ^ length xs + tiny /\
  (length xs = 1%nat -> val m = total (map val xs)) /\ (length xs = 2%nat -> val m = rnd (rnd (total (map val xs)) / 2)).
Proof.
  intros xs m Hn Hl G T (s & A & ->). pose proof (good_total _ G) as P. unfold mean. rewrite map_length.
  set (t := total (map val xs)) in *. pose proof (small_powers (length xs) ltac:(lra)) as Hp. pose proof (pow_up (length xs)) as Hp1.
  assert (B : 2 * bpow radix2 1000 <= bpow radix2 1023).
  { change 2 with (bpow radix2 1). rewrite <- bpow_plus. apply bpow_le. lia. }
  destruct (added_fin _ _ A G) as (F & (D & V) & O & W); [fold t; nra|]. fold t in D, V, O, W.
  destruct (count_is _ Hl) as [Fn Vn].
  assert (N1 : 1 <= INR (length xs)).
  { destruct xs as [|x xs]; [easy|]. cbn [length]. rewrite S_INR. pose proof (pos_INR (length xs)). lra. }
  set (n := length xs) in *.
  assert (V0 : 0 <= val s).
  { eapply Rle_trans; [|exact D]. apply Rmult_le_pos; auto. apply pow_down. }
  assert (Q0 : 0 <= val s / INR n) by (apply Rmult_le_pos; [assumption|apply Rlt_le, Rinv_0_lt_compat; lra]).
  assert (I : 0 < / INR n <= 1).
  { split; [apply Rinv_0_lt_compat; lra|]. rewrite <- Rinv_1. apply Rinv_le; lra. }
  assert (Q1 : val s / INR n <= val s) by (unfold Rdiv; nra).
  pose proof (up_le (Nat.pred n) n ltac:(lia)) as U1.
  destruct (fdiv_is s (of_N (N.of_nat n)) F Fn) as [Fm Vm].
  { rewrite Vn. lra. }
  { rewrite Vn, Rabs_pos_eq by assumption. nra. }
  rewrite Vn in Vm. split; [exact Fm|]. rewrite Vm. split; [now apply rnd_pos|].
  split; [|split].
  - pose proof (rnd_both _ Q0) as [R1 R2]. pose proof u_pos. assert (u < 1) by (rewrite u_val; lra).
    assert (En : n = S (Nat.pred n)) by (destruct n; [cbn in N1; lra|reflexivity]).
    split.
    + eapply Rle_trans; [|exact R1]. apply Rplus_le_compat_r. rewrite En at 2. cbn [pow].
      apply Rle_trans with (t * (1 - u) ^ Nat.pred n / INR n * (1 - u)); [apply Req_le; unfold Rdiv; ring|].
      apply Rmult_le_compat_r; [lra|]. apply Rmult_le_compat_r; [lra|exact D].
    + eapply Rle_trans; [exact R2|]. apply Rplus_le_compat_r. rewrite En at 3. cbn [pow].
      apply Rle_trans with (t * (1 + u) ^ Nat.pred n / INR n * (1 + u)); [|apply Req_le; unfold Rdiv; ring].
      apply Rmult_le_compat_r; [lra|]. apply Rmult_le_compat_r; [lra|exact V].
  - intros E1. rewrite <- (O E1). rewrite E1. cbn [INR]. unfold Rdiv. rewrite Rinv_1, Rmult_1_r. apply rnd_id.
  - intros E2. rewrite <- (W E2). rewrite E2. cbn [INR]. f_equal. 
Qed.

Lemma sample_good : forall xs, sample xs -> List.Forall good xs /\ 0 <= total (map val xs) <= INR (length xs) * 2 ^ 400.
Proof.
  intros xs (_ & _ & H). split; [apply Forall_forall; intros x Hx; rewrite Forall_forall in H; destruct (H x Hx); now split|].
  induction H as [|x l [_ [A B]] _ IH]; [cbn; lra|]. cbn [length map total fold_right]. rewrite S_INR. fold (total (map val l)).
  change (B2R x) with (val x) in *. lra.
Qed.

Lemma pow_bpow : forall n, 2 ^ n = bpow radix2 (Z.of_nat n).
Proof. intros n. induction n as [|n IH]; [reflexivity|]. rewrite Nat2Z.inj_succ, <- Z.add_1_l, bpow_plus, <- IH. reflexivity. Qed.

Lemma sample_total : forall xs, sample xs -> total (map val xs) <= bpow radix2 450.
Proof.
  intros xs S. destruct (sample_good xs S) as (_ & _ & T). destruct S as (_ & L & _). eapply Rle_trans; [exact T|].
  apply Rle_trans with (2 ^ 50 * 2 ^ 400); [apply Rmult_le_compat_r; [apply pow_le; lra|exact L]|].
  rewrite !pow_bpow, <- bpow_plus. apply bpow_le. lia.
Qed.

Lemma of_powers : forall n a m t, 0 <= a -> INR n <= 2 ^ 50 + 8 ->
  a * (1 - u) ^ n - t <= m <= a * (1 + u) ^ n + t -> Rabs (m - a) <= INR n * / 2 ^ 52 * a + t.
Proof.
  intros n a m t Ha Hn [H1 H2]. pose proof (pow_nu n Hn). pose proof (pow_upper n ltac:(lra)). pose proof (pow_lower n).
  assert (/ 2 ^ 52 = 2 * u) as -> by (rewrite u_val; lra).
  assert (0 <= INR n * u) by (apply Rmult_le_pos; [apply pos_INR|pose proof u_pos; lra]).
  apply Rabs_le. split; nra.
Qed.

Lemma mean_pos : forall l, 0 <= total l -> 0 <= mean l.
Proof.
  intros l H. unfold mean. destruct (length l) as [|n]; [cbn; unfold Rdiv; rewrite Rinv_0; lra|].
  apply Rmult_le_pos; [exact H|]. apply Rlt_le, Rinv_0_lt_compat. apply lt_0_INR. lia.
Qed.

Lemma mean_close : forall xs m, sample xs -> np_mean xs m ->
  is_finite m = true /\ 0 <= B2R m /\
  Rabs (B2R m - mean (map B2R xs)) <= INR (length xs) * / 2 ^ 52 * mean (map B2R xs) + bpow radix2 (-1075).
Proof.
  intros xs m S M. destruct (sample_good xs S) as (G & P & _). pose proof (sample_total xs S) as T. destruct S as (Hn & Hl & _).
  destruct (mean_range xs m Hn Hl G) as (F & V & R & _); auto.
  { eapply Rle_trans; [exact T|]. apply bpow_le. lia. }
  split; [exact F|]. split; [exact V|]. apply of_powers; auto; [now apply mean_pos|lra].
Qed.

(** ** The standard deviation *)
Lemma total_const : forall (l : list f64) (f g : f64 -> R) a t,
  (forall x, In x l -> f x <= a * g x + t) -> total (map f l) <= a * total (map g l) + INR (length l) * t.
Proof.
  induction l as [|x l IH]; intros f g a t H; [cbn; lra|]. cbn [length map total fold_right]. rewrite S_INR.
  fold (total (map f l)). fold (total (map g l)). pose proof (H x (or_introl eq_refl)).
  specialize (IH f g a t (fun y Hy => H y (or_intror Hy))). lra.
Qed.

Lemma total_const' : forall (l : list f64) (f g : f64 -> R) a t,
  (forall x, In x l -> a * g x - t <= f x) -> a * total (map g l) - INR (length l) * t <= total (map f l).
Proof.
  induction l as [|x l IH]; intros f g a t H; [cbn; lra|]. cbn [length map total fold_right]. rewrite S_INR.
  fold (total (map f l)). fold (total (map g l)). pose proof (H x (or_introl eq_refl)).
  specialize (IH f g a t (fun y Hy => H y (or_intror Hy))). lra.
Qed.

Lemma total_squares : forall (l : list R) c, total (map (fun x => (x - c) ^ 2) l) =
  total (map (fun x => x ^ 2) l) - 2 * c * total l + INR (length l) * c ^ 2.
Proof.
  induction l as [|x l IH]; intros c; [cbn; ring|]. cbn [length map total fold_right]. rewrite S_INR.
  fold (total l). fold (total (map (fun x => x ^ 2) l)). fold (total (map (fun x => (x - c) ^ 2) l)). rewrite IH. ring.
Qed.

Lemma mean_shift : forall (l : list R) c, l <> [] ->
  mean (map (fun x => (x - c) ^ 2) l) = mean (map (fun x => (x - mean l) ^ 2) l) + (c - mean l) ^ 2.
Proof.
  intros l c H. unfold mean at 1 2. rewrite !map_length, !total_squares.
  assert (P : INR (length l) <> 0). { apply not_0_INR. now destruct l. }
  unfold mean. field. exact P.
Qed.

Lemma total_sq_pos : forall (l : list R) c, 0 <= total (map (fun x => (x - c) ^ 2) l).
Proof. intros l c. apply total_pos. apply Forall_forall. intros y Hy. apply in_map_iff in Hy as (x & <- & _). apply pow2_ge_0. Qed.

Lemma square_step : forall x m, fin x -> fin m -> Rabs (val x - val m) <= bpow radix2 460 ->
  let q := fmul (fsub x m) (fsub x m) in
  good q /\ (1 - u) ^ 3 * (val x - val m) ^ 2 - tiny <= val q <= (1 + u) ^ 3 * (val x - val m) ^ 2 + tiny.
Proof.
  intros x m Fx Fm B q.
  destruct (fsub_is x m Fx Fm) as [Fd Vd]. { eapply Rle_trans; [exact B|]. apply bpow_le. lia. }
  destruct (rnd_sub_rel x m) as (d & Hd & E). rewrite E in Vd.
  assert (Bd : Rabs (val (fsub x m)) <= bpow radix2 460).
  { rewrite Vd, <- E. now apply rnd_abs_le. }
  destruct (fmul_is (fsub x m) (fsub x m) Fd Fd) as [Fq Vq].
  { rewrite Rabs_mult. apply Rle_trans with (bpow radix2 460 * bpow radix2 460).
    - apply Rmult_le_compat; auto; apply Rabs_pos.
    - rewrite <- bpow_plus. apply bpow_le. lia. }
  fold q in Fq, Vq. set (z := val x - val m) in *.
  assert (S : 0 <= val (fsub x m) * val (fsub x m)) by (pose proof (pow2_ge_0 (val (fsub x m))); nra).
  split; [split; [exact Fq|rewrite Vq; now apply rnd_pos]|].
  pose proof (rnd_both _ S) as [R1 R2]. rewrite Vq.
  rewrite Vd in R1, R2 |- *.
  pose proof u_pos. assert (U : u < 1) by (rewrite u_val; lra). apply Rabs_le_inv in Hd.
  pose proof (pow2_ge_0 z) as Z.
  assert (A1 : (1 - u) ^ 2 <= (1 + d) ^ 2) by (apply pow_incr; lra).
  assert (A2 : (1 + d) ^ 2 <= (1 + u) ^ 2) by (apply pow_incr; lra).
  replace (z * (1 + d) * (z * (1 + d))) with ((1 + d) ^ 2 * z ^ 2) in * by ring.
  assert (B1 : (1 - u) ^ 2 * z ^ 2 <= (1 + d) ^ 2 * z ^ 2) by now apply Rmult_le_compat_r.
  assert (B2 : (1 + d) ^ 2 * z ^ 2 <= (1 + u) ^ 2 * z ^ 2) by now apply Rmult_le_compat_r.
  split.
  - eapply Rle_trans; [|exact R1]. apply Rplus_le_compat_r. apply Rle_trans with ((1 - u) ^ 2 * z ^ 2 * (1 - u)); [apply Req_le; ring|].
    apply Rmult_le_compat_r; lra.
  - eapply Rle_trans; [exact R2|]. apply Rplus_le_compat_r. apply Rle_trans with ((1 + u) ^ 2 * z ^ 2 * (1 + u)); [|apply Req_le; ring].
    apply Rmult_le_compat_r; lra.
Qed.

Lemma sqrt_is : forall v, fin v -> 0 <= val v -> is (Bsqrt mode_NE v) (rnd (sqrt (val v))).
Proof.
  intros v F P. destruct (Bsqrt_correct 53 1024 _ _ mode_NE v) as (A & B & _). split; [|exact A].
  unfold fin. rewrite B. destruct v as [s|s| |s mx ex H]; try easy. destruct s; [|reflexivity].
  exfalso. revert P. unfold val, B2R. cbn. apply Rlt_not_le. apply F2R_lt_0. reflexivity.
Qed.

Lemma deviation_pos : forall l, 0 <= deviation l.
Proof. intros. apply sqrt_pos. Qed.

(** The square root of what is known up to a factor and a small number. *)
Lemma sqrt_both : forall D v a b t1 t2, 0 <= D -> 0 <= v -> 0 <= a <= 1 -> 1 <= b -> 0 <= t1 -> 0 <= t2 ->
  D * a - t1 ^ 2 <= v <= D * b + t2 ^ 2 -> sqrt D * a - t1 <= sqrt v <= sqrt D * b + t2.
Proof.
  intros D v a b t1 t2 HD Hv Ha Hb H1 H2 [L U]. pose proof (sqrt_pos D) as P. pose proof (sqrt_sqrt D HD) as E.
  set (q := sqrt D) in *. split.
  - destruct (Rle_lt_dec (q * a) t1) as [C|C]; [pose proof (sqrt_pos v); lra|].
    rewrite <- (sqrt_pow2 (q * a - t1)) by lra. apply sqrt_le_1_alt.
    assert (q * a * (q * a) <= D * a). { rewrite <- E. assert (0 <= q * q * a) by nra. nra. }
    eapply Rle_trans; [|exact L]. nra.
  - assert (N0 : 0 <= q * b + t2) by nra. rewrite <- (sqrt_pow2 (q * b + t2)) by exact N0. apply sqrt_le_1_alt.
    eapply Rle_trans; [exact U|]. assert (D * b <= q * b * (q * b)). { rewrite <- E. assert (0 <= q * q * b) by nra. nra. }
    assert (0 <= q * b * t2) by (apply Rmult_le_pos; nra). nra.
Qed.

Lemma std_close : forall xs s, sample xs -> np_std xs s ->
  is_finite s = true /\ 0 <= B2R s /\
  Rabs (B2R s - deviation (map B2R xs)) <=
    (INR (length xs) + 4) * / 2 ^ 52 * (deviation (map B2R xs) + 2 * mean (map B2R xs)) + bpow radix2 (-534).
Proof.
  intros xs s S (m & v & M & MV & ->).
  destruct (mean_close xs m S M) as (Fm & Pm & Cm). change (B2R m) with (val m) in *.
  destruct (sample_good xs S) as (G & T0 & _). pose proof (sample_total xs S) as T. pose proof S as (Hn & Hl & Hx).
  change (map B2R xs) with (map val xs) in *.
  set (mu := mean (map val xs)) in *. set (n := length xs) in *.
  pose proof tiny_pos as Ht. pose proof u_pos as Hu. assert (U1 : u < 1) by (rewrite u_val; lra).
  assert (N1 : 1 <= INR n).
  { subst n. destruct xs as [|x xs']; [easy|]. cbn [length]. rewrite S_INR. pose proof (pos_INR (length xs')). lra. }
  assert (MU0 : 0 <= mu) by now apply mean_pos.
  assert (MU1 : mu <= bpow radix2 450).
  { unfold mu, mean. rewrite map_length. fold n. apply Rle_trans with (total (map val xs)); [|exact T].
    apply Rmult_le_reg_r with (INR n); [lra|]. unfold Rdiv. rewrite Rmult_assoc, Rinv_l by lra. nra. }
  assert (Tle : tiny <= 1) by (change 1 with (bpow radix2 0); apply bpow_le; lia).
  fold tiny in Cm. assert (C0 : INR n * / 2 ^ 52 <= / 2) by lra. assert (P52 : 0 < / 2 ^ 52) by lra.
  assert (Bm : val m <= bpow radix2 452).
  { apply Rabs_le_inv in Cm. assert (H : bpow radix2 452 = 4 * bpow radix2 450) by (change 4 with (bpow radix2 2); now rewrite <- bpow_plus).
    rewrite H. assert (1 <= bpow radix2 450) by (change 1 with (bpow radix2 0); apply bpow_le; lia). nra. }
  assert (Z : forall x, In x xs -> fin x /\ Rabs (val x - val m) <= bpow radix2 460).
  { intros x Hin. rewrite Forall_forall in Hx. destruct (Hx x Hin) as [Fx [X0 X1]]. change (B2R x) with (val x) in *. split; [exact Fx|].
    rewrite pow_bpow in X1. change (Z.of_nat 400) with 400%Z in X1. 
    assert (bpow radix2 400 <= bpow radix2 460) by (apply bpow_le; lia).
    assert (bpow radix2 452 <= bpow radix2 460) by (apply bpow_le; lia). apply Rabs_le. lra. }
  set (sq := fun x => fmul (fsub x m) (fsub x m)) in *.
  assert (Q : forall x, In x xs -> good (sq x) /\ (1 - u) ^ 3 * (val x - val m) ^ 2 - tiny <= val (sq x) <= (1 + u) ^ 3 * (val x - val m) ^ 2 + tiny).
  { intros x Hin. destruct (Z x Hin) as [Fx Bx]. exact (square_step x m Fx Fm Bx). }
  set (W := total (map (fun x => (val x - val m) ^ 2) xs)).
  pose proof (total_const xs (fun x => val (sq x)) (fun x => (val x - val m) ^ 2) _ _ (fun x H => proj2 (proj2 (Q x H)))) as Uq.
  pose proof (total_const' xs (fun x => val (sq x)) (fun x => (val x - val m) ^ 2) _ _ (fun x H => proj1 (proj2 (Q x H)))) as Lq.
  fold W n in Uq, Lq. rewrite <- (map_map sq val) in Uq, Lq.
  assert (W1 : W <= INR n * bpow radix2 920).
  { pose proof (total_const xs (fun x => (val x - val m) ^ 2) (fun _ => 0) 0 (bpow radix2 920)) as K. fold W n in K.
    rewrite Rmult_0_l, Rplus_0_l in K. apply K. intros x Hin. destruct (Z x Hin) as [_ Bx]. rewrite Rmult_0_l, Rplus_0_l, <- pow2_abs.
    change (bpow radix2 920) with (bpow radix2 (460 + 460)). rewrite bpow_plus. cbn [pow]. rewrite Rmult_1_r.
    apply Rmult_le_compat; auto; apply Rabs_pos. }
  assert (EW : map (fun x => (val x - val m) ^ 2) xs = map (fun y => (y - val m) ^ 2) (map val xs)) by now rewrite map_map.
  assert (W0 : 0 <= W). { unfold W. rewrite EW. apply total_sq_pos. }
  assert (Gq : List.Forall good (map sq xs)).
  { apply Forall_forall. intros y Hy. apply in_map_iff in Hy as (x & <- & Hin). now apply Q. }
  assert (Tq : total (map val (map sq xs)) <= bpow radix2 1000).
  { eapply Rle_trans; [exact Uq|].
    pose proof (small_powers 3 ltac:(cbn; lra)) as P3.
    assert (H : bpow radix2 1000 = 2 ^ 51 * (2 ^ 29 * bpow radix2 920)).
    { rewrite !pow_bpow, <- !bpow_plus. reflexivity. }
    assert (1 <= bpow radix2 920) by (change 1 with (bpow radix2 0); apply bpow_le; lia).
    rewrite H. set (b := bpow radix2 920) in *.
    assert ((1 + u) ^ 3 * W <= 3 / 2 * (INR n * b)).
    { apply Rmult_le_compat; auto. apply pow_le. lra. }
    assert (INR n * b <= 2 ^ 50 * b) by (apply Rmult_le_compat_r; lra). nra. }
  assert (Hq : map sq xs <> []) by (destruct xs; easy).
  destruct (mean_range (map sq xs) v Hq) as (Fv & Pv & [Lv Uv] & _); auto.
  { rewrite map_length. exact Hl. }
  rewrite map_length in Lv, Uv. fold n in Lv, Uv.
  set (D := mean (map (fun y => (y - val m) ^ 2) (map val xs))).
  assert (ED : D = W / INR n) by (unfold D, mean, W; rewrite EW, !map_length; reflexivity).
  assert (D0 : 0 <= D) by (apply mean_pos, total_sq_pos).
  assert (I : 0 < / INR n) by (apply Rinv_0_lt_compat; lra).
  assert (Uq' : mean (map val (map sq xs)) <= D * (1 + u) ^ 3 + tiny).
  { unfold mean. rewrite !map_length. fold n. rewrite ED. apply Rle_trans with (((1 + u) ^ 3 * W + INR n * tiny) / INR n).
    - apply Rmult_le_compat_r; lra.
    - apply Req_le. field. lra. }
  assert (Lq' : D * (1 - u) ^ 3 - tiny <= mean (map val (map sq xs))).
  { unfold mean. rewrite !map_length. fold n. rewrite ED. apply Rle_trans with (((1 - u) ^ 3 * W - INR n * tiny) / INR n).
    - apply Req_le. field. lra.
    - apply Rmult_le_compat_r; lra. }
  pose proof (small_powers n ltac:(lra)) as Hp. pose proof (pow_up n) as Hp1. pose proof (pow_down n) as Hd.
  assert (Uv' : val v <= D * (1 + u) ^ (n + 3) + 4 * tiny).
  { eapply Rle_trans; [exact Uv|]. rewrite pow_add.
    assert (mean (map val (map sq xs)) * (1 + u) ^ n <= (D * (1 + u) ^ 3 + tiny) * (1 + u) ^ n) by (apply Rmult_le_compat_r; lra).
    assert (tiny * (1 + u) ^ n <= tiny * (3 / 2)) by (apply Rmult_le_compat_l; lra). lra. }
  assert (Lv' : D * (1 - u) ^ (n + 3) - 2 * tiny <= val v).
  { eapply Rle_trans; [|exact Lv]. rewrite pow_add.
    assert ((D * (1 - u) ^ 3 - tiny) * (1 - u) ^ n <= mean (map val (map sq xs)) * (1 - u) ^ n) by (apply Rmult_le_compat_r; lra).
    assert (tiny * (1 - u) ^ n <= tiny * 1) by (apply Rmult_le_compat_l; lra). lra. }
  pose proof (pow_up (n + 3)) as Hb. pose proof (pow_down (n + 3)) as Ha.
  assert (E1 : (bpow radix2 (-537)) ^ 2 = 2 * tiny).
  { cbn [pow]. rewrite Rmult_1_r, <- bpow_plus. unfold tiny. change 2 with (bpow radix2 1). rewrite <- bpow_plus. reflexivity. }
  assert (E2 : (bpow radix2 (-536)) ^ 2 = 8 * tiny).
  { cbn [pow]. rewrite Rmult_1_r, <- bpow_plus. unfold tiny. change 8 with (bpow radix2 3). rewrite <- bpow_plus. reflexivity. }
  destruct (sqrt_both D (val v) ((1 - u) ^ (n + 3)) ((1 + u) ^ (n + 3)) (bpow radix2 (-537)) (bpow radix2 (-536)) D0 Pv Ha Hb) as [L1 L2];
    try apply bpow_ge_0.
  { rewrite E1, E2. lra. }
  destruct (sqrt_is v Fv Pv) as [Fs Vs]. fold (fin (Bsqrt mode_NE v)). change (B2R (Bsqrt mode_NE v)) with (val (Bsqrt mode_NE v)).
  split; [exact Fs|]. rewrite Vs. split; [apply rnd_pos, sqrt_pos|].
  pose proof (rnd_both _ (sqrt_pos (val v))) as [R1 R2].
  set (q := sqrt D) in *. pose proof (sqrt_pos D) as Q0. fold q in Q0.
  set (t := bpow radix2 (-537)) in *.
  assert (Et : bpow radix2 (-536) = 2 * t). { unfold t. change 2 with (bpow radix2 1). now rewrite <- bpow_plus. }
  assert (Et' : bpow radix2 (-534) = 8 * t). { unfold t. change 8 with (bpow radix2 3). now rewrite <- bpow_plus. }
  assert (Htt : tiny <= t) by (apply bpow_le; lia).
  rewrite Et in L2. rewrite Et'.
  assert (X : Rabs (rnd (sqrt (val v)) - q) <= INR (n + 4) * / 2 ^ 52 * q + 4 * t).
  { apply of_powers; [exact Q0|rewrite plus_INR; cbn; lra|]. replace (n + 4)%nat with (Datatypes.S (n + 3)) by lia. cbn [pow].
    assert (0 <= q * (1 + u) ^ (n + 3)) by nra. assert (0 <= q * (1 - u) ^ (n + 3)) by nra.
    assert (u <= / 4) by (rewrite u_val; lra). split.
    - eapply Rle_trans; [|exact R1]. nra.
    - eapply Rle_trans; [exact R2|]. nra. }
  (* the deviation *)
  set (sd := deviation (map val xs)). set (dl := Rabs (val m - mu)) in *.
  assert (Hne : map val xs <> []) by (destruct xs; easy).
  pose proof (mean_shift (map val xs) (val m) Hne) as SH. fold D mu in SH.
  set (V := mean (map (fun x => (x - mu) ^ 2) (map val xs))) in *.
  assert (V0 : 0 <= V) by (apply mean_pos, total_sq_pos).
  assert (ESD : sd = sqrt V) by reflexivity.
  assert (SD0 : 0 <= sd) by apply deviation_pos.
  assert (DL0 : 0 <= dl) by apply Rabs_pos.
  assert (ED2 : D = sd ^ 2 + dl ^ 2).
  { rewrite SH, ESD. unfold dl. rewrite pow2_sqrt by exact V0. rewrite pow2_abs. reflexivity. }
  assert (QL : sd <= q).
  { unfold q. rewrite <- (sqrt_pow2 sd) by exact SD0. apply sqrt_le_1_alt. rewrite ED2. pose proof (pow2_ge_0 dl). lra. }
  assert (QU : q <= sd + dl).
  { unfold q. rewrite <- (sqrt_pow2 (sd + dl)) by lra. apply sqrt_le_1_alt. rewrite ED2. nra. }
  rewrite plus_INR in X. change (INR 4) with 4 in X || (replace (INR 4) with 4 in X by (cbn; ring)).
  set (e := (INR n + 4) * / 2 ^ 52) in *.
  assert (E0 : 0 <= e <= / 2) by (unfold e; lra).
  assert (Cm' : dl <= e * mu + t). { eapply Rle_trans; [exact Cm|]. assert (INR n * / 2 ^ 52 <= e) by (unfold e; lra). nra. }
  apply Rabs_le_inv in X. assert (e * q <= e * sd + / 2 * dl) by nra.
  apply Rabs_le. split; nra.
Qed.
