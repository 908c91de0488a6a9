(** * The value of count() against the real formulas *)
From Coq Require Import NArith ZArith Reals Lra Lia List Bool Sorted.
From Flocq Require Import Core BinarySingleNaN.
From Verif Require Import IntervalZ.
From Verif Require Import ModelRust ModelF64 ModelEnv ModelCommon ModelPF ModelPlus ModelHistory
  ModelConstants Spec SpecReal SpecCount SpecBuild BitFacts RegFacts EncFacts AbsorbFacts F64Facts LinearFacts
  RawFacts BiasFacts PFInv PlusInv.
Import ListNotations.
Local Open Scope R_scope.
Local Notation ln := Rpower.ln.

(** ** The thresholds *)
Lemma m_R_N : forall p, IZR (Z.of_N (2 ^ p)) = m_R p.
Proof. intros. unfold m_R. now rewrite Z_of_N_pow2. Qed.

Lemma linear_mono : forall m v w, (1 <= v)%N -> (v <= w)%N -> (w <= m)%N ->
  linear_R m w <= linear_R m v.
Proof.
  intros m v w Hv Hw Hm. unfold linear_R.
  assert (1 <= IZR (Z.of_N v)) by (apply N_R; lia).
  assert (IZR (Z.of_N v) <= IZR (Z.of_N w) <= IZR (Z.of_N m)) by (split; apply IZR_le; lia).
  apply Rmult_le_compat_l; [lra|]. apply LinearFacts.ln_le.
  - apply Rdiv_lt_0_compat; lra.
  - apply Rmult_le_compat_l; [lra|]. apply Rinv_le; lra.
Qed.

Definition cut (p : N) : N :=
  nth (N.to_nat (p - 4))
    [9; 24; 35; 69; 109; 235; 426; 851; 1922; 3706; 8121; 17799; 30560; 52469; 68976]%N 0%N.

Lemma precision_cases : forall (Q : N -> Prop),
  Q 4%N -> Q 5%N -> Q 6%N -> Q 7%N -> Q 8%N -> Q 9%N -> Q 10%N -> Q 11%N -> Q 12%N -> Q 13%N ->
  Q 14%N -> Q 15%N -> Q 16%N -> Q 17%N -> Q 18%N -> forall p, (4 <= p <= 18)%N -> Q p.
Proof.
  intros Q; intros. pose proof (precisions_in p (proj1 H14) (proj2 H14)) as I.
  cbn [In BiasTables.precisions] in I.
  repeat (destruct I as [I|I]; [subst p; assumption|]). contradiction.
Qed.

Ltac cut_case :=
  match goal with |- (?a < ?b)%N /\ (?c <= ?d)%N /\ _ =>
    split; [vm_compute; reflexivity|split; [vm_compute; discriminate|]]
  end;
  unfold linear_R, threshold_R; cbn - [Rmult Rdiv Rinv Rminus Rplus];
  split; bound_const 60%Z.

Lemma cut_spec : forall p, (4 <= p <= 18)%N ->
  (1 < cut p)%N /\ (cut p <= 2 ^ p)%N /\
  linear_R (2 ^ p) (cut p) <= threshold_R p * 0.999999 /\
  threshold_R p * 1.000001 <= linear_R (2 ^ p) (cut p - 1).
Proof. apply precision_cases; cut_case. Qed.

(** No number of empty buckets puts the linear count near the threshold. *)
Lemma threshold_gap : forall p v, (4 <= p <= 18)%N -> (1 <= v)%N -> (v <= 2 ^ p)%N ->
  linear_R (2 ^ p) v <= threshold_R p * 0.999999 \/
  threshold_R p * 1.000001 <= linear_R (2 ^ p) v.
Proof.
  intros p v Hp H1 H2. destruct (cut_spec p Hp) as (C1 & C2 & L & U).
  destruct (N.le_gt_cases (cut p) v) as [Hc|Hc].
  - left. eapply Rle_trans; [|exact L]. apply linear_mono; lia.
  - right. eapply Rle_trans; [exact U|]. apply linear_mono; lia.
Qed.

Lemma threshold_is : forall p, (4 <= p <= 18)%N ->
  exists t, threshold p = Ret t /\ is t (threshold_R p) /\ 1 <= threshold_R p.
Proof.
  apply precision_cases;
    (eexists; split; [reflexivity|]; split; [apply of_Z_exact; vm_compute; discriminate|];
     apply IZR_le; vm_compute; discriminate).
Qed.

(** ** Register files *)
Lemma rf_le : forall W p H l, (p <= W)%N -> is_register_file W p H l ->
  Forall (fun v => (v <= W - p + 1)%N) l.
Proof.
  intros W p H l Hp [HL HR]. apply Forall_forall. intros v Hv. apply In_nth_error in Hv.
  destruct Hv as [i Hi]. destruct (HR (N.of_nat i) v) as [_ [->|(h & _ & _ & <-)]].
  - now rewrite Nnat.Nat2N.id.
  - lia.
  - apply rank_bounds; auto.
Qed.

Lemma filter_length_le' : forall l, (length (filter (N.eqb 0) l) <= length l)%nat.
Proof. induction l as [|a l IH]; cbn; auto. destruct a; cbn; lia. Qed.

Lemma filter_lt : forall (l : list N) i v, nth_error l i = Some v -> v <> 0%N ->
  (length (filter (N.eqb 0) l) < length l)%nat.
Proof.
  induction l as [|a l IH]; intros [|i] v H Hv; try discriminate; cbn in H |- *.
  - injection H as ->. destruct v; [contradiction|]. cbn. pose proof (filter_length_le' l). lia.
  - specialize (IH i v H Hv). destruct a; cbn; lia.
Qed.

Lemma rf_zero_lt : forall W p H l h, (p <= W)%N -> is_register_file W p H l ->
  In h H -> (h < 2 ^ W)%N -> (zero_count l < 2 ^ p)%N.
Proof.
  intros W p H l h Hp [HL HR] Hh Hb.
  pose proof (bucket_lt W p h Hp Hb) as B.
  destruct (nth_some _ l (N.to_nat (bucket W p h))) as [v Hv]; [lia|].
  destruct (HR _ _ Hv) as [A _]. specialize (A h Hh eq_refl).
  pose proof (rank_bounds W p h Hp). rewrite <- HL. unfold zero_count.
  pose proof (filter_lt l _ v Hv ltac:(lia)). lia.
Qed.

(** ** HyperLogLogPlus *)
Lemma inv_pow2 : forall n, (0 <= n)%Z -> / IZR (2 ^ n) = bpow radix2 (- n).
Proof. intros. rewrite pow_bpow by auto. now rewrite bpow_opp. Qed.

Lemma alpha_upper : forall p, (4 <= p)%N -> (p <= 18)%N -> alpha_R p <= 0.75.
Proof.
  intros p H4 H18. pose proof (m_R_bounds p H4 H18) as Hm. unfold alpha_R.
  destruct (p =? 4)%N; [lra|]. destruct (p =? 5)%N; [lra|]. destruct (p =? 6)%N; [lra|].
  assert (0 <= 1.079 / m_R p).
  { apply Rmult_le_pos; [lra|]. apply Rlt_le, Rinv_0_lt_compat. lra. }
  apply Rle_trans with (0.7213 / 1); [|lra]. apply Rmult_le_compat_l; [lra|]. apply Rinv_le; lra.
Qed.

Lemma raw_upper : forall p H l, (4 <= p <= 18)%N -> is_register_file 64 p H l ->
  raw_R p l <= 0.75 * bpow radix2 65.
Proof.
  intros p H l [H4 H18] HR. pose proof (rf_le 64 p H l ltac:(lia) HR) as HL.
  pose proof (inv_sum_ge l (64 - p + 1) HL) as L. rewrite (len_m p l (proj1 HR)) in L.
  destruct (alpha_pow2 p H4 H18) as (_ & _ & HA).
  pose proof (alpha_upper p H4 H18) as HB. pose proof (m_R_bounds p H4 H18) as Hm. unfold raw_R.
  assert (E : m_R p = bpow radix2 (Z.of_N p)) by apply RawFacts.two_pow.
  pose proof (bpow_gt_0 radix2 (- Z.of_N (64 - p + 1))) as P1.
  assert (HS : 0 < inv_sum l) by nra.
  apply Rmult_le_reg_r with (inv_sum l); auto. unfold Rdiv.
  rewrite (Rmult_assoc _ (/ _)), Rinv_l, Rmult_1_r by lra.
  apply Rle_trans with (0.75 * bpow radix2 65 * (m_R p * bpow radix2 (- Z.of_N (64 - p + 1)))).
  - replace (0.75 * bpow radix2 65 * (m_R p * bpow radix2 (- Z.of_N (64 - p + 1))))
      with (0.75 * m_R p * (bpow radix2 65 * bpow radix2 (- Z.of_N (64 - p + 1)))) by ring.
    rewrite <- bpow_plus. replace (65 + - Z.of_N (64 - p + 1))%Z with (Z.of_N p) by lia.
    rewrite <- E. assert (0 < m_R p * m_R p) by nra. nra.
  - apply Rmult_le_compat_l; auto. pose proof (bpow_gt_0 radix2 65). lra.
Qed.

Lemma sparse_length : forall p H L, (4 <= p <= 18)%N -> is_code_list p H L ->
  (gap_len 0 L <= sparse_limit p)%N -> (N.of_nat (length L) <= 209715)%N.
Proof.
  intros p H L Hp HL HG. pose proof (gap_len_length L 0). pose proof (sparse_limit_bounds p Hp). lia.
Qed.

Theorem plus_formula_ok : forall e p H c, build_std e -> accurate e -> (4 <= p <= 18)%N ->
  (2 * p < usize_bits e)%N -> Forall (fun h => (h < 2 ^ 64)%N) H -> value_of e p H c ->
  fin c /\ plus_R (reals (est_table p)) (reals (bias_table p)) p H (val c) /\
  (H = [] -> val c = 0) /\ (H <> [] -> 0.2 <= val c) /\ val c <= bpow radix2 65.
Proof.
  intros e p H c [Hb Hs] Ha Hp Hu HH (L & HL & HV).
  assert (LE : H = [] <-> L = []).
  { destruct HL as [_ HS]. split; intros ->.
    - destruct L as [|x L]; auto. exfalso. destruct (proj1 (HS x)); now left.
    - destruct H as [|x H]; auto. exfalso. destruct (proj2 (HS (sparse_code p x))). now left. }
  assert (B28 : bpow radix2 (-28) = / 268435456) by reflexivity.
  assert (B65 : bpow radix2 30 <= bpow radix2 65) by (apply bpow_le; lia).
  change (bpow radix2 30) with 1073741824 in B65.
  unfold plus_R. rewrite !(inv_pow2 28) by lia.
  destruct HV as [[HG Ec]|(HG & l & HR & Hl & Ec)].
  - (* sparse *)
    pose proof (sparse_length p H L Hp HL HG) as HN.
    destruct (linear_ok e (2 ^ 24) (2 ^ 24 - N.of_nat (length L)) Ha) as
      (c' & Ec' & Fc & C0 & C1 & _ & C2); try (change (2 ^ 24)%N with 16777216%N; lia).
    rewrite Ec in Ec'. injection Ec' as <-.
    assert (U : linear_R (2 ^ 24) (2 ^ 24 - N.of_nat (length L)) <= 300000).
    { eapply Rle_trans; [apply (linear_mono _ (2 ^ 24 - 209715));
        change (2 ^ 24)%N with 16777216%N; lia|].
      unfold linear_R. cbn - [Rmult Rdiv]. bound_const 60%Z. }
    split; [auto|]. split.
    { exists L. split; [auto|]. left. split; auto. }
    split; [|split].
    + intros E. apply C0. apply LE in E. subst L. reflexivity.
    + intros E. assert (N.of_nat (length L) <> 0)%N.
      { destruct L; [|discriminate]. exfalso. apply E. now apply LE. }
      assert (LB := C1 ltac:(change (2 ^ 24)%N with 16777216%N; lia)).
      rewrite (Rabs_pos_eq (linear_R _ _)) in C2 by lra. rewrite B28 in C2. apply Rabs_le_inv in C2. lra.
    + destruct (N.eq_dec (N.of_nat (length L)) 0) as [Z|Z].
      * rewrite C0; [lra|]. rewrite Z. reflexivity.
      * assert (LB := C1 ltac:(change (2 ^ 24)%N with 16777216%N; lia)).
        rewrite (Rabs_pos_eq (linear_R _ _)) in C2 by lra. rewrite B28 in C2. apply Rabs_le_inv in C2. lra.
  - (* normal *)
    assert (HNE : H <> []).
    { intros E. apply LE in E. subst L. cbn in HG. lia. }
    destruct H as [|h0 H0]; [contradiction|]. set (H := h0 :: H0) in *.
    assert (HZ : (zero_count l < 2 ^ p)%N).
    { apply (rf_zero_lt 64 p H l h0); auto; [lia|now left|]. now inversion HH. }
    assert (H24 : (2 ^ p <= 2 ^ 18)%N) by now apply pow2_le.
    pose proof (m_R_bounds p (proj1 Hp) (proj2 Hp)) as Hm.
    assert (CORR : forall c, estimate_corrected e p l (2 ^ p) = Ret c ->
       fin c /\ corrected_R (reals (est_table p)) (reals (bias_table p)) p l (val c) /\
       0.2 <= val c <= bpow radix2 65).
    { clear c Ec. intros c Ec.
      destruct (estimate_corrected_ok e p l Hb Hs (proj1 Hp) (proj2 Hp) Hu (proj1 HR) Hl)
        as (c' & Ec' & Fc & HC). rewrite Ec in Ec'. injection Ec' as <-. cbv zeta in HC.
      destruct (raw_f_rel e p l Hb (proj1 Hp) (proj2 Hp) (proj1 HR) Hl) as (Fr & Rr & Br).
      pose proof (raw_upper p H l Hp HR) as RU.
      destruct (raw_R_bounds p l (proj1 Hp) (proj2 Hp) (proj1 HR) Hl) as (_ & RB).
      destruct (alpha_pow2 p (proj1 Hp) (proj2 Hp)) as (_ & _ & HA).
      assert (P0 : 0 <= raw_R p l) by nra.
      pose proof (rel_bounds _ _ _ Rr P0) as RBd.
      assert (B33 : bpow radix2 (-33) = / 8589934592) by reflexivity. rewrite B33 in RBd.
      assert (um : 64 * u * m_R p <= / 536870912) by (rewrite u_val; lra).
      split; [auto|]. split.
      - exists (val (raw_f e p l)). split.
        { unfold approx. rewrite (inv_pow2 33) by lia. now apply rel_abs. }
        destruct HC as [HC|(HC & y & Hy & _ & _ & Hc)]; [left; auto|right].
        split; [auto|]. exists y. split; [auto|]. rewrite (inv_pow2 28) by lia. change (- (28))%Z with (-28)%Z. lra.
      - destruct HC as [[HC1 HC2]|(HC & y & Hy & By & Hpos & Hc)].
        + rewrite HC2. lra.
        + apply Rabs_le_inv in Hc. lra. }
    unfold normal_value in Ec.
    destruct (N.eqb_spec (zero_count l) 0) as [Z|Z]; cbn [negb] in Ec.
    { destruct (CORR c Ec) as (Fc & HC & HB).
      split; [auto|]. split; [|split; [|lra]].
      - exists L. split; [auto|]. right. split; [auto|]. exists l. split; [auto|]. right. auto.
      - intros E. contradiction. }
    destruct (linear_ok e (2 ^ p) (zero_count l) Ha) as
      (c' & Ec' & Fc' & C0 & C1 & _ & C2); try (change (2 ^ 18)%N with 262144%N in H24;
      change (2 ^ 24)%N with 16777216%N; lia).
    rewrite Ec', bind_ret in Ec.
    destruct (threshold_is p Hp) as (t & Et & [Ft Vt] & Ht). rewrite Et, bind_ret in Ec.
    specialize (C1 HZ). rewrite fle_spec, Vt in Ec by auto.
    pose proof (threshold_gap p (zero_count l) Hp ltac:(lia) ltac:(lia)) as TG.
    pose proof C2 as C2'. rewrite (Rabs_pos_eq (linear_R _ _)) in C2' by lra. rewrite B28 in C2'. apply Rabs_le_inv in C2'.
    assert (TU : threshold_R p <= 350000).
    { clear -Hp. revert p Hp. apply precision_cases; apply IZR_le; vm_compute; discriminate. }
    revert Ec. case Rle_bool_spec; intros Cmp Ec.
    + injection Ec as <-. split; [auto|]. split; [|split; [|split]].
      * exists L. split; [auto|]. right. split; [auto|]. exists l. split; [auto|]. left.
        split; [auto|]. split; [|auto]. destruct TG; lra.
      * intros E. contradiction.
      * intros _. lra.
      * lra.
    + destruct (CORR c Ec) as (Fc & HC & HB).
      split; [auto|]. split; [|split; [|lra]].
      * exists L. split; [auto|]. right. split; [auto|]. exists l. split; [auto|]. right.
        split; auto. right. destruct TG; lra.
      * intros E. contradiction.
Qed.

(** ** Small sparse counts *)
Definition excess (n : N) : R := linear_R (2 ^ 24) (2 ^ 24 - n) - IZR (Z.of_N n).

Lemma excess_step : forall n, (n < 2 ^ 24 - 1)%N -> excess n <= excess (n + 1).
Proof.
  intros n Hn. unfold excess, linear_R. change (2 ^ 24)%N with 16777216%N in *.
  set (m := IZR (Z.of_N 16777216)). assert (Em : m = 16777216) by reflexivity.
  assert (E1 : IZR (Z.of_N (16777216 - n)) = m - IZR (Z.of_N n)).
  { rewrite Em, <- minus_IZR. f_equal. lia. }
  assert (E2 : IZR (Z.of_N (16777216 - (n + 1))) = m - IZR (Z.of_N n) - 1).
  { rewrite Em, <- !minus_IZR. f_equal. lia. }
  assert (E3 : IZR (Z.of_N (n + 1)) = IZR (Z.of_N n) + 1).
  { rewrite <- plus_IZR. f_equal. lia. }
  rewrite E1, E2, E3.
  assert (X0 : 0 <= IZR (Z.of_N n)) by (apply IZR_le; lia).
  assert (X1 : IZR (Z.of_N n) + 2 <= m).
  { rewrite Em, <- plus_IZR. apply IZR_le. lia. }
  set (x := IZR (Z.of_N n)) in *. clearbody x m.
  assert (L : ln (m / (m - x - 1)) = ln (m / (m - x)) + ln ((m - x) / (m - x - 1))).
  { rewrite <- ln_mult by (apply Rdiv_lt_0_compat; lra). f_equal. field. lra. }
  pose proof (ln_low (m - x) (m - x - 1) ltac:(lra) ltac:(lra)) as B. rewrite L.
  assert (1 <= m * ln ((m - x) / (m - x - 1))); [|lra].
  apply Rle_trans with (m * / (m - x)).
  - apply Rmult_le_reg_r with (m - x); [lra|]. rewrite Rmult_assoc, Rinv_l; lra.
  - apply Rmult_le_compat_l; lra.
Qed.

Lemma excess_mono : forall a b, (a <= b)%N -> (b < 2 ^ 24)%N -> excess a <= excess b.
Proof.
  intros a b H. replace b with (a + (b - a))%N by lia. generalize (b - a)%N as k.
  clear b H. induction k as [|k IH] using N.peano_ind; intros Hb.
  - rewrite N.add_0_r. apply Rle_refl.
  - eapply Rle_trans; [apply IH; lia|]. replace (a + N.succ k)%N with (a + k + 1)%N by lia.
    apply excess_step. change (2 ^ 24)%N with 16777216%N in *. lia.
Qed.

Lemma excess_bounds : forall n, (1 <= n <= 5791)%N -> / 100000000 <= excess n <= 0.9999.
Proof.
  intros n Hn. split.
  - apply Rle_trans with (excess 1).
    + unfold excess, linear_R. cbn - [Rmult Rdiv Rinv Rminus]. bound_const 80%Z.
    + apply excess_mono; [lia|]. change (2 ^ 24)%N with 16777216%N. lia.
  - apply Rle_trans with (excess 5791).
    + apply excess_mono; [lia|]. reflexivity.
    + unfold excess, linear_R. cbn - [Rmult Rdiv Rinv Rminus]. bound_const 80%Z.
Qed.

Lemma linear_sparse_near : forall e n c, accurate e -> (1 <= n <= 10000)%N ->
  linear_count e (2 ^ 24) (2 ^ 24 - n) = Ret c ->
  fin c /\ Rabs (val c - (IZR (Z.of_N n) + excess n)) <= / 400000000.
Proof.
  intros e n c Ha Hn Ec.
  destruct (linear_ok e (2 ^ 24) (2 ^ 24 - n) Ha) as
      (c' & Ec' & Fc & _ & _ & C1 & _); try (change (2 ^ 24)%N with 16777216%N; lia).
  rewrite Ec in Ec'. injection Ec' as <-. split; [auto|].
  assert (U : linear_R (2 ^ 24) (2 ^ 24 - n) <= 20000).
  { eapply Rle_trans; [apply (linear_mono _ (2 ^ 24 - 10000));
        change (2 ^ 24)%N with 16777216%N; lia|].
      unfold linear_R. cbn - [Rmult Rdiv]. bound_const 60%Z. }
  replace (IZR (Z.of_N n) + excess n) with (linear_R (2 ^ 24) (2 ^ 24 - n)) by (unfold excess; ring).
  eapply Rle_trans; [exact C1|]. rewrite u_val.
  change (IZR (Z.of_N (2 ^ 24))) with 16777216. simpl bpow. lra.
Qed.

Lemma sparse_trunc : forall e n c, accurate e -> (n <= 5791)%N ->
  linear_count e (2 ^ 24) (2 ^ 24 - n) = Ret c ->
  fin c /\ Ztrunc (val c) = Z.of_N n.
Proof.
  intros e n c Ha Hn Ec. destruct (N.eq_dec n 0) as [->|Z].
  - destruct (linear_ok e (2 ^ 24) (2 ^ 24 - 0) Ha) as
      (c' & Ec' & Fc & C0 & _); try (change (2 ^ 24)%N with 16777216%N; lia).
    rewrite Ec in Ec'. injection Ec' as <-. split; [auto|].
    rewrite C0 by reflexivity. now rewrite Ztrunc_IZR.
  - destruct (linear_sparse_near e n c Ha ltac:(lia) Ec) as [F A]. split; [auto|].
    pose proof (excess_bounds n ltac:(lia)) as B. apply Rabs_le_inv in A.
    assert (0 <= IZR (Z.of_N n)) by (apply IZR_le; lia).
    rewrite Ztrunc_floor by lra. apply Zfloor_imp. rewrite plus_IZR. lra.
Qed.

(** One code more is one too many. *)
Lemma sparse_trunc_5792 : forall e c, accurate e ->
  linear_count e (2 ^ 24) (2 ^ 24 - 5792) = Ret c ->
  fin c /\ Ztrunc (val c) = 5793%Z.
Proof.
  intros e c Ha Ec. destruct (linear_sparse_near e 5792 c Ha ltac:(lia) Ec) as [F A]. split; [auto|].
  apply Rabs_le_inv in A. change (IZR (Z.of_N 5792)) with 5792 in A.
  assert (B : 1.00001 <= excess 5792 <= 1.5).
  { unfold excess, linear_R. cbn - [Rmult Rdiv Rinv Rminus]. split; bound_const 80%Z. }
  rewrite Ztrunc_floor by lra. apply Zfloor_imp. rewrite plus_IZR. lra.
Qed.
