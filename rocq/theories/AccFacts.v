(** * From register contents to counts: accuracy for most hash assignments *)
From Coq Require Import NArith ZArith Reals List Bool Lia Lra Permutation Sorted.
From Flocq Require Import Core BinarySingleNaN.
From Verif Require Import ModelRust ModelF64 ModelEnv ModelConstants ModelHistory Spec SpecReal SpecCount SpecDist
  SpecProb SpecBuild BitFacts EncFacts CodeFacts AbsorbFacts DistFacts ProbFacts MomentFacts HarmonicNum
  PlusInv PFInv LinearFacts RawFacts FloatFacts SparseFacts MonoFacts ExtremeFacts ClaimFloat ClaimFacts ClaimDist
  HarmonicMean.
Import ListNotations.
Local Notation ln := Rpower.ln.

(** ** Register files as a function *)
Local Open Scope N_scope.

Fixpoint file_of (W p : N) (hs : list N) : list N :=
  match hs with
  | [] => repeat 0 (N.to_nat (2 ^ p))
  | h :: hs => let l := file_of W p hs in
               update l (bucket W p h) (N.max (nth (N.to_nat (bucket W p h)) l 0) (rank W p h))
  end.

Lemma file_of_ok : forall W p hs, p <= W -> Forall (fun h => h < 2 ^ W) hs ->
  is_register_file W p hs (file_of W p hs).
Proof.
  intros W p hs Hp. induction hs as [|h hs IH]; intros F; [apply is_register_file_nil|].
  inversion F; subst. cbn [file_of]. apply is_register_file_insert; [now apply IH|].
  apply nth_error_nth'. destruct (IH H2) as [L _].
  pose proof (bucket_lt W p h Hp H1). lia.
Qed.

Lemma file_of_files : forall W p n, p <= W -> register_files W p n (file_of W p).
Proof. intros W p n Hp hs [_ F]. now apply file_of_ok. Qed.

(** ** Registers against codes *)
Lemma zero_split : forall l m, N.of_nat (length l) = m ->
  zero_count l + N.of_nat (length (filter (fun i => negb (0 =? nth (N.to_nat i) l 0)) (range m))) = m.
Proof.
  intros l m L. rewrite (nth_range l m L) at 1. unfold zero_count.
  assert (G : forall r, N.of_nat (length (filter (N.eqb 0) (map (fun i => nth (N.to_nat i) l 0) r))) +
    N.of_nat (length (filter (fun i => negb (0 =? nth (N.to_nat i) l 0)) r)) = N.of_nat (length r)).
  { induction r as [|i r IH]; [reflexivity|]. cbn [map filter].
    destruct (0 =? nth (N.to_nat i) l 0); cbn [negb length]; lia. }
  specialize (G (range m)). pose proof (range_length m).
  lia.
Qed.

Lemma nonzero_codes : forall p q H l L, q <= 25 -> is_register_file 64 q H l -> is_code_list p H L ->
  2 ^ q <= zero_count l + N.of_nat (length L).
Proof.
  intros p q H l L Hq RF [_ SS]. destruct (RF) as [LL _].
  rewrite <- (zero_split l _ LL) at 1. apply N.add_le_mono_l.
  rewrite <- (map_length (fun c => code_prefix c / 2 ^ (25 - q)) L).
  assert (I : forall a b : list N, NoDup a -> incl a b -> N.of_nat (length a) <= N.of_nat (length b)).
  { intros a b D J. pose proof (NoDup_incl_length D J). lia. }
  apply I; [apply NoDup_filter, range_NoDup|].
  intros i Hi. apply filter_In in Hi. destruct Hi as [Hi Hz]. apply range_in in Hi.
  destruct (file_nth 64 q H l i RF Hi) as [_ [E|(h & Hh & Hb & _)]].
  - rewrite E in Hz. discriminate Hz.
  - apply in_map_iff. exists (sparse_code p h). split.
    + rewrite code_prefix_ok, <- bucket_prefix by lia. exact Hb.
    + apply SS. now apply in_map.
Qed.

Lemma sorted_nodup : forall L : list N, StronglySorted N.lt L -> NoDup L.
Proof.
  induction L as [|x L IH]; intros S; [constructor|]. inversion S; subst. constructor; [|auto].
  intros I. rewrite Forall_forall in H2. specialize (H2 x I). lia.
Qed.

Lemma code_list_le : forall p H hs L, is_code_list p H L -> same_set H hs ->
  (length L <= length hs)%nat.
Proof.
  intros p H hs L [S SS] E. rewrite <- (map_length (sparse_code p) hs).
  apply NoDup_incl_length; [now apply sorted_nodup|].
  intros c Hc. apply SS in Hc. apply in_map_iff in Hc. destruct Hc as (h & <- & Hh).
  apply in_map. now apply E.
Qed.
Local Open Scope R_scope.

(** ** The raw estimate determines the branch *)
Lemma zero_inv_sum : forall l, IZR (Z.of_N (zero_count l)) <= inv_sum l.
Proof.
  induction l as [|v l IH]; [apply Rle_refl|]. cbn [inv_sum fold_right].
  fold (inv_sum l). unfold zero_count in *. cbn [filter].
  assert (P : 0 < / IZR (2 ^ Z.of_N v)) by (apply Rinv_0_lt_compat, pow2_pos; lia).
  destruct (N.eqb_spec 0 v) as [<-|_].
  - cbn [length]. rewrite Nat2N.inj_succ, N2Z.inj_succ, succ_IZR.
    change (IZR (2 ^ Z.of_N 0)) with 1. rewrite Rinv_1. lra.
  - lra.
Qed.

Lemma threshold_le : forall p, (4 <= p <= 18)%N -> 0 <= threshold_R p <= 1.34 * m_R p.
Proof.
  intros p Hp. assert (C : (p = 4 \/ p = 5 \/ p = 6 \/ p = 7 \/ p = 8 \/ p = 9 \/ p = 10 \/ p = 11 \/ p = 12 \/ p = 13 \/
    p = 14 \/ p = 15 \/ p = 16 \/ p = 17 \/ p = 18)%N) by lia.
  unfold m_R, threshold_R.
  repeat (destruct C as [-> |C]); try (rewrite C); simpl; lra.
Qed.

Lemma linear_past : forall p v, (4 <= p <= 18)%N -> (v <> 0)%N -> IZR (Z.of_N v) <= 0.15 * m_R p ->
  threshold_R p < linear_R (2 ^ p) v.
Proof.
  intros p v Hp Hv B. pose proof (threshold_le p Hp) as T. pose proof (m_R_bounds p (proj1 Hp) (proj2 Hp)) as M.
  unfold linear_R. replace (IZR (Z.of_N (2 ^ p))) with (m_R p) by (unfold m_R; rewrite N2Z.inj_pow; reflexivity).
  apply Rle_lt_trans with (m_R p * 1.34); [lra|]. apply Rmult_lt_compat_l; [lra|].
  assert (V : 1 <= IZR (Z.of_N v)) by (apply IZR_le; lia).
  apply Rlt_le_trans with (ln (/ 0.15)).
  - rewrite <- (ln_exp 1.34). apply ln_increasing; [apply exp_pos|].
    pose proof (exp_neg_lo 1.34 ltac:(lra)) as E. rewrite exp_Ropp in E.
    pose proof (exp_pos 1.34) as P. apply Rmult_lt_reg_r with (/ exp 1.34); [now apply Rinv_0_lt_compat|].
    rewrite Rinv_r by lra. lra.
  - apply ln_le; [lra|]. apply Rmult_le_reg_r with (IZR (Z.of_N v)); [lra|].
    unfold Rdiv. rewrite Rmult_assoc, Rinv_l, Rmult_1_r by lra. lra.
Qed.

Lemma inv_sum_pos : forall l, l <> [] -> 0 < inv_sum l.
Proof.
  intros l H. destruct l as [|v l]; [congruence|]. cbn [inv_sum fold_right]. fold (inv_sum l).
  assert (P : 0 < / IZR (2 ^ Z.of_N v)) by (apply Rinv_0_lt_compat, pow2_pos; lia).
  assert (Q : 0 <= inv_sum l).
  { clear H. induction l as [|w l IH]; [apply Rle_refl|]. cbn [inv_sum fold_right]. fold (inv_sum l).
    assert (0 < / IZR (2 ^ Z.of_N w)) by (apply Rinv_0_lt_compat, pow2_pos; lia). lra. }
  lra.
Qed.

Lemma file_inv_pos : forall W p H l, is_register_file W p H l -> 0 < inv_sum l.
Proof.
  intros W p H l [L _]. apply inv_sum_pos. intros ->. cbn [length] in L.
  pose proof (N.pow_nonzero 2 p ltac:(discriminate)). simpl in L. lia.
Qed.

Lemma plus_over : forall xs ys p H l c, (4 <= p <= 18)%N -> is_register_file 64 p H l ->
  5 * m_R p * (1 + / IZR (2 ^ 32)) <= raw_R p l -> plus_R xs ys p H c ->
  approx (/ IZR (2 ^ 33)) c (raw_R p l).
Proof.
  intros xs ys p H l c Hp RF B (L & HL & C).
  pose proof (m_R_bounds p (proj1 Hp) (proj2 Hp)) as M.
  pose proof (alpha_upper p (proj1 Hp) (proj2 Hp)) as A. pose proof (alpha_lower p Hp) as A'.
  pose proof (file_inv_pos _ _ _ _ RF) as P.
  change (IZR (2 ^ 32)) with 4294967296 in B.
  assert (I : inv_sum l <= 0.15 * m_R p).
  { unfold raw_R in B. apply (Rmult_le_compat_r (inv_sum l)) in B; [|lra].
    replace (alpha_R p * (m_R p * m_R p) / inv_sum l * inv_sum l) with (alpha_R p * (m_R p * m_R p)) in B by (field; lra).
    apply Rmult_le_reg_l with (5 * m_R p); [lra|]. apply Rle_trans with (5 * m_R p * (1 + / 4294967296) * inv_sum l).
    - apply Rmult_le_compat_r; lra.
    - nra. }
  pose proof (zero_inv_sum l) as Z0.
  destruct C as [[S _]|[_ (l' & RF' & C)]].
  { exfalso. pose proof (nonzero_codes p p H l L ltac:(lia) RF HL) as N1.
    pose proof (gap_len_length L 0) as G. unfold sparse_limit in S.
    assert (N2 : (5 * N.of_nat (length L) <= 4 * 2 ^ p)%N).
    { pose proof (N.mul_div_le (4 * 2 ^ p) 5 ltac:(discriminate)). lia. }
    assert (N3 : (2 ^ p <= 5 * zero_count l)%N) by lia.
    apply N2Z.inj_le, IZR_le in N3. rewrite N2Z.inj_mul, mult_IZR, N2Z.inj_pow in N3.
    change (IZR (Z.of_N 2 ^ Z.of_N p)) with (m_R p) in N3. change (IZR (Z.of_N 5)) with 5 in N3. lra. }
  rewrite (is_register_file_unique 64 p H l' l ltac:(lia) RF' RF) in C. clear l' RF'.
  destruct C as [(Nz & T & _)|(_ & raw & A1 & C)].
  { exfalso. pose proof (linear_past p _ Hp Nz ltac:(lra)). lra. }
  destruct C as [[_ ->]|[C _]]; [exact A1|]. exfalso.
  unfold approx in A1. rewrite (Rabs_pos_eq (raw_R p l)) in A1 by lra. apply Rabs_le_inv in A1.
  change (IZR (2 ^ 33)) with 8589934592 in A1. lra.
Qed.

(** ** Large cardinalities *)
Definition rare_harmonic (W p : N) (n : nat) (t : R) (hs : list N) : Prop :=
  t * (m_R p * mean W p n inv_pow2) <= Rabs (inv_sum (file_of W p hs) - m_R p * mean W p n inv_pow2).

Lemma raw_bounds_gen : forall W p n g t hs l, (4 <= p <= 18)%N -> (p < W)%N ->
  4 * m_R p <= INR n -> 0 < g -> INR n / m_R p * mean W p n inv_pow2 <= g -> 0 < t < 1 ->
  hash_list W n hs -> is_register_file W p hs l -> ~ rare_harmonic W p n t hs ->
  alpha_R p / g * INR n / (1 + t) <= raw_R p l <= alpha_R p * (1 + / m_R p) / 0.7190 * INR n / (1 - t).
Proof.
  intros W p n g t hs l Hp HW Hlo Hg U Ht HH RF NR.
  pose proof (m_R_bounds p (proj1 Hp) (proj2 Hp)) as M. pose proof (alpha_lower p Hp) as A.
  pose proof (mean_lo W p n (proj1 Hp) HW Hlo) as L.
  pose proof (mean_pos W p n (proj1 Hp) HW Hlo) as MP.
  fold (m_R p) in L. unfold rare_harmonic in NR.
  rewrite (is_register_file_unique W p hs _ l ltac:(lia) (file_of_ok W p hs ltac:(lia) (proj2 HH)) RF) in NR.
  apply Rnot_le_lt, Rabs_lt_inv in NR. pose proof (file_inv_pos _ _ _ _ RF) as P.
  unfold raw_R. set (mu := mean W p n inv_pow2) in *. set (m := m_R p) in *. set (z := inv_sum l) in *.
  set (a := alpha_R p) in *. set (x := INR n) in *. clearbody mu m z a x.
  clear RF HH.
  assert (U' : x * mu <= g * m).
  { apply Rmult_le_reg_r with (/ m); [apply Rinv_0_lt_compat; lra|].
    replace (g * m * / m) with g by (field; lra). unfold Rdiv in U. nra. }
  assert (L' : 0.7190 * m <= x * (1 + / m) * mu).
  { apply Rmult_le_reg_r with (/ m); [apply Rinv_0_lt_compat; lra|].
    replace (0.7190 * m * / m) with 0.7190 by (field; lra). unfold Rdiv in L. nra. }
  set (k := 1 + / m) in *. assert (K : 1 < k) by (unfold k; pose proof (Rinv_0_lt_compat m); lra). clearbody k.
  split.
  - apply Rmult_le_reg_r with (z * (1 + t)); [apply Rmult_lt_0_compat; lra|].
    replace (a / g * x / (1 + t) * (z * (1 + t))) with (a / g * (x * z)) by (field; lra).
    replace (a * (m * m) / z * (z * (1 + t))) with (a / g * (g * m * (m * (1 + t)))) by (field; lra).
    apply Rmult_le_compat_l; [left; apply Rdiv_lt_0_compat; lra|].
    apply Rle_trans with (x * ((1 + t) * (m * mu))); [apply Rmult_le_compat_l; lra|].
    replace (x * ((1 + t) * (m * mu))) with (x * mu * (m * (1 + t))) by ring.
    apply Rmult_le_compat_r; [nra|exact U'].
  - apply Rmult_le_reg_r with (z * (1 - t)); [apply Rmult_lt_0_compat; lra|].
    replace (a * k / 0.7190 * x / (1 - t) * (z * (1 - t))) with (a / 0.7190 * (x * k * z)) by (field; lra).
    replace (a * (m * m) / z * (z * (1 - t))) with (a / 0.7190 * (0.7190 * m * (m * (1 - t)))) by (field; lra).
    apply Rmult_le_compat_l; [lra|].
    apply Rle_trans with (x * k * ((1 - t) * (m * mu))); [|apply Rmult_le_compat_l; [nra|lra]].
    replace (x * k * ((1 - t) * (m * mu))) with (x * k * mu * (m * (1 - t))) by ring.
    apply Rmult_le_compat_r; [nra|exact L'].
Qed.

Lemma raw_bounds : forall W p n t hs l, (4 <= p <= 18)%N -> (p < W)%N ->
  4 * m_R p <= INR n -> INR n <= IZR (2 ^ Z.of_N W) / 32 -> 0 < t < 1 ->
  hash_list W n hs -> is_register_file W p hs l -> ~ rare_harmonic W p n t hs ->
  alpha_R p / 0.7229 * INR n / (1 + t) <= raw_R p l <= alpha_R p * (1 + / m_R p) / 0.7190 * INR n / (1 - t).
Proof.
  intros W p n t hs l Hp HW Hlo Hhi Ht HH RF NR. apply (raw_bounds_gen W p n 0.7229 t hs); auto; [lra|].
  apply (mean_up W p n (proj1 Hp) HW Hlo Hhi).
Qed.

Lemma harmonic_is_rare : forall W p n t, (4 <= p)%N -> (p < W)%N ->
  4 * m_R p <= INR n -> INR n <= IZR (2 ^ Z.of_N W) / 32 -> 0 < t ->
  rare W n ((2.0983 * (1 + / m_R p) ^ 2 - 1) / (m_R p * t ^ 2)) (rare_harmonic W p n t).
Proof.
  intros W p n t H4 HW Hlo Hhi Ht. apply harmonic_rare; auto. apply file_of_files. lia.
Qed.

Lemma alpha_ratio : forall p, (4 <= p <= 18)%N -> alpha_R p * (1 + / m_R p) / 0.7190 <= 1.0033.
Proof.
  intros p Hp. pose proof (m_R_bounds p (proj1 Hp) (proj2 Hp)) as M. unfold alpha_R.
  destruct (N.eqb_spec p 4) as [->|]; [change (m_R 4) with 16; lra|].
  destruct (N.eqb_spec p 5) as [->|]; [change (m_R 5) with 32; lra|].
  destruct (N.eqb_spec p 6) as [->|]; [change (m_R 6) with 64; lra|].
  pose proof (Rinv_0_lt_compat (m_R p) ltac:(lra)) as I. set (i := / m_R p) in *.
  unfold Rdiv at 3. fold i. clearbody i.
  apply Rle_trans with (0.7213 / 0.7190); [|lra].
  replace (0.7213 / (1 + 1.079 * i) * (1 + i) / 0.7190) with (0.7213 / 0.7190 * ((1 + i) / (1 + 1.079 * i))) by (field; lra).
  rewrite <- (Rmult_1_r (0.7213 / 0.7190)) at 2. apply Rmult_le_compat_l; [lra|].
  apply Rmult_le_reg_r with (1 + 1.079 * i); [lra|]. unfold Rdiv. rewrite Rmult_assoc, Rinv_l by lra. lra.
Qed.

Lemma same_file : forall W p H hs l, same_set H hs -> is_register_file W p H l -> is_register_file W p hs l.
Proof. intros. eapply register_file_same; eauto. Qed.

Lemma div_ge : forall x y k, 0 < y -> k * y <= x -> k <= x / y.
Proof.
  intros x y k Hy H. apply Rmult_le_reg_r with y; [exact Hy|]. unfold Rdiv.
  rewrite Rmult_assoc, Rinv_l by lra. lra.
Qed.
Lemma div_le : forall x y k, 0 < y -> x <= k * y -> x / y <= k.
Proof.
  intros x y k Hy H. apply Rmult_le_reg_r with y; [exact Hy|]. unfold Rdiv.
  rewrite Rmult_assoc, Rinv_l by lra. lra.
Qed.

Theorem plus_large_gen : forall e p n t d, build_std e -> accurate e -> (4 <= p <= 18)%N -> 0 < t < 1 ->
  4 * m_R p <= INR n -> 5.0001 * (1 + t) * m_R p <= alpha_R p / 0.7229 * INR n -> INR n <= IZR (2 ^ 59) ->
  rare 64 n d (rare_harmonic 64 p n t) ->
  rare 64 n d
    (fun hs => ~ plus_counts e p
      (alpha_R p / 0.7229 * INR n / (1 + t) * (1 - / IZR (2 ^ 33)))
      (alpha_R p * (1 + / m_R p) / 0.7190 * INR n / (1 - t) * (1 + / IZR (2 ^ 33))) hs).
Proof.
  intros e p n t d Hb Ha Hp Ht H4 Hlo Hhi HR. pose proof (m_R_bounds p (proj1 Hp) (proj2 Hp)) as M.
  assert (H32 : INR n <= IZR (2 ^ Z.of_N 64) / 32).
  { eapply Rle_trans; [exact Hhi|]. change (IZR (2 ^ Z.of_N 64)) with 18446744073709551616. change (IZR (2 ^ 59)) with 576460752303423488. lra. }
  eapply rare_weaken; [exact HR|apply Rle_refl|].
  intros hs HH NC. apply Rnot_lt_le. intros NR. apply NC. clear NC.
  intros V ord h Hv Hn Ho Ep SS.
  destruct (plus_value V e ord h Hb Ha Hv Hn Ho) as (c & E & F & P). exists c. split; [exact E|]. split; [exact F|].
  rewrite Ep in P.
  pose proof (file_of_ok 64 p hs ltac:(lia) (proj2 HH)) as RF.
  pose proof (register_file_same 64 p hs (hist_hashes h) _ (fun x => iff_sym (SS x)) RF) as RF'.
  pose proof (raw_bounds 64 p n t hs _ Hp ltac:(lia) H4 H32 Ht HH RF ltac:(unfold rare_harmonic; lra)) as RB.
  pose proof (alpha_lower p Hp) as A.
  assert (O : 5 * m_R p * (1 + / IZR (2 ^ 32)) <= raw_R p (file_of 64 p hs)).
  { eapply Rle_trans; [|apply RB]. change (IZR (2 ^ 32)) with 4294967296.
    apply div_ge; [lra|]. nra. }
  pose proof (plus_over _ _ p _ _ _ Hp RF' O P) as AP. unfold approx in AP.
  rewrite (Rabs_pos_eq (raw_R _ _)) in AP by (change (IZR (2 ^ 32)) with 4294967296 in O; nra).
  apply Rabs_le_inv in AP.
  set (r := raw_R p (file_of 64 p hs)) in *. set (lo := alpha_R p / 0.7229 * INR n / (1 + t)) in *.
  set (hi := alpha_R p * (1 + / m_R p) / 0.7190 * INR n / (1 - t)) in *.
  change (IZR (2 ^ 33)) with 8589934592 in *. clearbody r lo hi. lra.
Qed.

Theorem plus_large : forall e p n t, build_std e -> accurate e -> (4 <= p <= 18)%N -> 0 < t < 1 ->
  5.5 * (1 + t) * m_R p <= INR n -> INR n <= IZR (2 ^ 59) ->
  rare 64 n ((2.0983 * (1 + / m_R p) ^ 2 - 1) / (m_R p * t ^ 2))
    (fun hs => ~ plus_counts e p
      (alpha_R p / 0.7229 * INR n / (1 + t) * (1 - / IZR (2 ^ 33)))
      (alpha_R p * (1 + / m_R p) / 0.7190 * INR n / (1 - t) * (1 + / IZR (2 ^ 33))) hs).
Proof.
  intros e p n t Hb Ha Hp Ht Hlo Hhi. pose proof (m_R_bounds p (proj1 Hp) (proj2 Hp)) as M.
  assert (H4 : 4 * m_R p <= INR n) by nra. pose proof (alpha_lower p Hp) as A.
  apply plus_large_gen; auto.
  - apply Rle_trans with (0.93 * (5.5 * (1 + t) * m_R p)); [nra|]. apply Rmult_le_compat; nra.
  - apply harmonic_is_rare; auto; try lia; try lra. eapply Rle_trans; [exact Hhi|].
    change (IZR (2 ^ Z.of_N 64)) with 18446744073709551616. change (IZR (2 ^ 59)) with 576460752303423488. lra.
Qed.

Theorem pf_large_gen : forall e p n t d, build e -> accurate e -> (4 <= p <= 16)%N -> 0 < t < 1 ->
  4 * m_R p <= INR n -> 2.7 * (1 + t) * m_R p <= INR n -> INR n <= (1 - t) * IZR (2 ^ 27) ->
  rare 32 n d (rare_harmonic 32 p n t) ->
  rare 32 n d
    (fun hs => ~ pf_counts e p
      (alpha_R p / 0.7229 * INR n / (1 + t) * (1 - / IZR (2 ^ 49)))
      (alpha_R p * (1 + / m_R p) / 0.7190 * INR n / (1 - t) * (1 + / IZR (2 ^ 49))) hs).
Proof.
  intros e p n t d Hb Ha Hp Ht H4 Hlo Hhi HR.
  assert (Hp' : (4 <= p <= 18)%N) by lia. pose proof (m_R_bounds p (proj1 Hp') (proj2 Hp')) as M.
  change (IZR (2 ^ 27)) with 134217728 in Hhi.
  assert (H32 : INR n <= IZR (2 ^ Z.of_N 32) / 32).
  { change (IZR (2 ^ Z.of_N 32)) with 4294967296. lra. }
  eapply rare_weaken; [exact HR|apply Rle_refl|].
  intros hs HH NC. apply Rnot_lt_le. intros NR. apply NC. clear NC.
  intros V h Hv Hn Ep SS.
  pose proof (alpha_lower p Hp') as A. pose proof (alpha_ratio p Hp') as A'.
  assert (RB : forall l, is_register_file 32 p (map (fun x => x mod 2 ^ 32)%N (hist_hashes h)) l ->
    alpha_R p / 0.7229 * INR n / (1 + t) <= raw_R p l <= alpha_R p * (1 + / m_R p) / 0.7190 * INR n / (1 - t)).
  { intros l RF. apply (raw_bounds 32 p n t hs l Hp' ltac:(lia) H4 H32 Ht HH); [|unfold rare_harmonic; lra].
    eapply register_file_same; eauto. }
  assert (O : 2.5 * m_R p < alpha_R p / 0.7229 * INR n / (1 + t)).
  { apply Rlt_le_trans with (2.51 * m_R p); [lra|]. apply div_ge; [lra|].
    apply Rle_trans with (0.93 * (2.7 * (1 + t) * m_R p)); [nra|]. apply Rmult_le_compat; nra. }
  assert (O' : alpha_R p * (1 + / m_R p) / 0.7190 * INR n / (1 - t) <= IZR (2 ^ 32) / 30).
  { change (IZR (2 ^ 32)) with 4294967296. apply div_le; [lra|].
    apply Rle_trans with (1.0033 * INR n); [apply Rmult_le_compat_r; lra|]. nra. }
  change (IZR (2 ^ 32)) with 4294967296 in O'.
  assert (B32 : below_2_32 (hist_precision h) (hist_hashes h)).
  { intros l RF. rewrite Ep in *. specialize (RB l RF). change (IZR (2 ^ 32)) with 4294967296. lra. }
  destruct (pf_value_R V e h Hb Ha Hv Hn B32) as (c & E & F & (l & RF & P) & _).
  exists c. split; [exact E|]. split; [exact F|]. rewrite Ep in *. specialize (RB l RF).
  change (IZR (2 ^ 32)) with 4294967296 in P.
  destruct P as [(_ & P & _)|(_ & P)]; [exfalso; lra|].
  destruct P as [[_ P]|[P _]]; [|exfalso; lra].
  unfold approx in P. rewrite (Rabs_pos_eq (raw_R _ _)) in P by lra. apply Rabs_le_inv in P.
  set (r := raw_R p l) in *. set (lo := alpha_R p / 0.7229 * INR n / (1 + t)) in *.
  set (hi := alpha_R p * (1 + / m_R p) / 0.7190 * INR n / (1 - t)) in *.
  change (IZR (2 ^ 49)) with 562949953421312 in *. clearbody r lo hi. lra.
Qed.

Theorem pf_large : forall e p n t, build e -> accurate e -> (4 <= p <= 16)%N -> 0 < t < 1 ->
  4 * m_R p <= INR n -> 2.7 * (1 + t) * m_R p <= INR n -> INR n <= (1 - t) * IZR (2 ^ 27) ->
  rare 32 n ((2.0983 * (1 + / m_R p) ^ 2 - 1) / (m_R p * t ^ 2))
    (fun hs => ~ pf_counts e p
      (alpha_R p / 0.7229 * INR n / (1 + t) * (1 - / IZR (2 ^ 49)))
      (alpha_R p * (1 + / m_R p) / 0.7190 * INR n / (1 - t) * (1 + / IZR (2 ^ 49))) hs).
Proof.
  intros e p n t Hb Ha Hp Ht H4 Hlo Hhi. pose proof (m_R_bounds p ltac:(lia) ltac:(lia)) as M.
  apply pf_large_gen; auto. change (IZR (2 ^ 27)) with 134217728 in Hhi.
  apply harmonic_is_rare; auto; try lia; try lra. change (IZR (2 ^ Z.of_N 32)) with 4294967296. lra.
Qed.

(** For precisions of 10 and more the constants are close to 1. *)
Lemma spread_10 : forall p t, (10 <= p <= 18)%N -> 0 < t ->
  (2.0983 * (1 + / m_R p) ^ 2 - 1) / (m_R p * t ^ 2) <= 1.1025 / (m_R p * t ^ 2).
Proof.
  intros p t Hp Ht. assert (M : 1024 <= m_R p).
  { unfold m_R. rewrite two_pow. change 1024 with (bpow radix2 10). apply bpow_le. lia. }
  assert (P : 0 < m_R p * t ^ 2) by (apply Rmult_lt_0_compat; [lra|apply pow_lt; lra]).
  apply Rmult_le_compat_r; [apply Rlt_le, Rinv_0_lt_compat, P|].
  assert (I : 0 < / m_R p <= / 1024) by (split; [apply Rinv_0_lt_compat|apply Rinv_le_contravar]; lra).
  set (i := / m_R p) in *. clearbody i. nra.
Qed.

Lemma alpha_10 : forall p, (10 <= p <= 18)%N -> 0.9965 <= alpha_R p / 0.7229.
Proof.
  intros p Hp. assert (M : 1024 <= m_R p).
  { unfold m_R. rewrite two_pow. change 1024 with (bpow radix2 10). apply bpow_le. lia. }
  unfold alpha_R. destruct (N.eqb_spec p 4); [lia|]. destruct (N.eqb_spec p 5); [lia|]. destruct (N.eqb_spec p 6); [lia|].
  assert (I : 0 < / m_R p <= / 1024) by (split; [apply Rinv_0_lt_compat|apply Rinv_le_contravar]; lra).
  unfold Rdiv at 3. set (i := / m_R p) in *. clearbody i.
  replace (0.7213 / (1 + 1.079 * i) / 0.7229) with (0.7213 / 0.7229 / (1 + 1.079 * i)) by (field; lra).
  apply div_ge; lra.
Qed.

Lemma plus_counts_weaken : forall e p lo hi lo' hi' hs, plus_counts e p lo hi hs -> lo' <= lo -> hi <= hi' ->
  plus_counts e p lo' hi' hs.
Proof.
  intros e p lo hi lo' hi' hs H L U V ord h Hv Hn Ho Ep SS.
  destruct (H V ord h Hv Hn Ho Ep SS) as (c & E & F & B). exists c. repeat split; auto; lra.
Qed.

Lemma pf_counts_weaken : forall e p lo hi lo' hi' hs, pf_counts e p lo hi hs -> lo' <= lo -> hi <= hi' ->
  pf_counts e p lo' hi' hs.
Proof.
  intros e p lo hi lo' hi' hs H L U V h Hv Hn Ep SS.
  destruct (H V h Hv Hn Ep SS) as (c & E & F & B). exists c. repeat split; auto; lra.
Qed.

Lemma within_10 : forall p x t eps, (10 <= p <= 18)%N -> 0 < t < 1 -> 0 <= x -> 0 < eps <= / 1000000 ->
  0.996 * x / (1 + t) <= alpha_R p / 0.7229 * x / (1 + t) * (1 - eps) /\
  alpha_R p * (1 + / m_R p) / 0.7190 * x / (1 - t) * (1 + eps) <= 1.004 * x / (1 - t).
Proof.
  intros p x t eps Hp Ht Hx He. pose proof (alpha_10 p Hp) as A. pose proof (alpha_ratio p ltac:(lia)) as B.
  set (a := alpha_R p / 0.7229) in *. set (b := alpha_R p * (1 + / m_R p) / 0.7190) in *. clearbody a b.
  assert (I : 0 < / (1 + t)) by (apply Rinv_0_lt_compat; lra). assert (J : 0 < / (1 - t)) by (apply Rinv_0_lt_compat; lra).
  split.
  - unfold Rdiv. replace (a * x * / (1 + t) * (1 - eps)) with (a * (1 - eps) * x * / (1 + t)) by ring.
    apply Rmult_le_compat_r; [lra|]. apply Rmult_le_compat_r; [lra|]. nra.
  - unfold Rdiv. replace (b * x * / (1 - t) * (1 + eps)) with (b * (1 + eps) * x * / (1 - t)) by ring.
    apply Rmult_le_compat_r; [lra|]. apply Rmult_le_compat_r; [lra|]. nra.
Qed.

Theorem plus_large_10 : forall e p n t, build_std e -> accurate e -> (10 <= p <= 18)%N -> 0 < t < 1 ->
  5.5 * (1 + t) * m_R p <= INR n -> INR n <= IZR (2 ^ 59) ->
  rare 64 n (1.1025 / (m_R p * t ^ 2))
    (fun hs => ~ plus_counts e p (0.996 * INR n / (1 + t)) (1.004 * INR n / (1 - t)) hs).
Proof.
  intros e p n t Hb Ha Hp Ht Hlo Hhi.
  eapply rare_weaken; [apply (plus_large e p n t); auto; lia|now apply spread_10|].
  intros hs _ NC C. apply NC. eapply plus_counts_weaken; [exact C| |];
    apply (within_10 p (INR n) t (/ IZR (2 ^ 33)) Hp Ht (pos_INR n)); change (IZR (2 ^ 33)) with 8589934592; lra.
Qed.

Theorem pf_large_10 : forall e p n t, build e -> accurate e -> (10 <= p <= 16)%N -> 0 < t < 1 ->
  4 * m_R p <= INR n -> 2.7 * (1 + t) * m_R p <= INR n -> INR n <= (1 - t) * IZR (2 ^ 27) ->
  rare 32 n (1.1025 / (m_R p * t ^ 2))
    (fun hs => ~ pf_counts e p (0.996 * INR n / (1 + t)) (1.004 * INR n / (1 - t)) hs).
Proof.
  intros e p n t Hb Ha Hp Ht H4 Hlo Hhi.
  eapply rare_weaken; [apply (pf_large e p n t); auto; lia|apply spread_10; lia || lra|].
  intros hs _ NC C. apply NC. eapply pf_counts_weaken; [exact C| |];
    apply (within_10 p (INR n) t (/ IZR (2 ^ 49)) ltac:(lia) Ht (pos_INR n)); change (IZR (2 ^ 49)) with 562949953421312; lra.
Qed.

(** ** The standard error of the harmonic sum *)
Theorem harmonic_spread : forall W p n file all, (4 <= p)%N -> (p < W)%N ->
  4 * m_R p <= INR n -> INR n <= IZR (2 ^ Z.of_N W) / 32 ->
  register_files W p n file -> enumerates (hash_list W n) all ->
  exists mu, rsum (fun hs => inv_sum (file hs)) all = mu * INR (length all) /\
    mu * INR n <= 0.7229 * m_R p ^ 2 /\ 0.7190 * m_R p ^ 2 <= mu * INR n * (1 + / m_R p) /\
    rsum (fun hs => (inv_sum (file hs) - mu) ^ 2) all
    <= (2.0983 * (1 + / m_R p) ^ 2 - 1) / m_R p * mu ^ 2 * INR (length all).
Proof.
  intros W p n file all Hp HW Hlo Hhi F E. exists (m_R p * mean W p n inv_pow2).
  assert (Hm : 0 < m_R p) by (apply pow2_pos; lia).
  pose proof (mean_up W p n Hp HW Hlo Hhi) as U. pose proof (mean_lo W p n Hp HW Hlo) as L.
  pose proof (relative_variance W p n Hp HW Hlo Hhi) as V. pose proof (pos_INR (length all)) as T0.
  pose proof (total_mean W p n file all HW F E inv_pow2) as TM.
  pose proof (total_variance W p n file all HW F E inv_pow2 inv_pow2_decreasing) as TV.
  fold (m_R p) in U, L, V, TM, TV. unfold total in TM, TV.
  set (mu := mean W p n inv_pow2) in *. set (m := m_R p) in *. set (x := INR n) in *.
  split; [|split; [|split]].
  - rewrite (rsum_ext _ (fun hs => rsum inv_pow2 (file hs))) by (intros; apply inv_sum_rsum). lra.
  - apply (Rmult_le_compat_r (m * m)) in U; [|nra]. replace (x / m * mu * (m * m)) with (m * mu * x) in U by (field; lra). lra.
  - apply (Rmult_le_compat_r (m * m)) in L; [|nra].
    replace (x / m * (1 + / m) * mu * (m * m)) with (m * mu * x * (1 + / m)) in L by (field; lra). lra.
  - rewrite (rsum_ext _ (fun hs => (rsum inv_pow2 (file hs) - m * mu) ^ 2)) by (intros; now rewrite inv_sum_rsum).
    eapply Rle_trans; [exact TV|].
    replace ((2.0983 * (1 + / m) ^ 2 - 1) / m * (m * mu) ^ 2 * INR (length all))
      with (INR (length all) * (m * ((2.0983 * (1 + / m) ^ 2 - 1) * (mu * mu)))) by (field; lra).
    apply Rmult_le_compat_l; [exact T0|]. apply Rmult_le_compat_l; lra.
Qed.
