(** * The count depends on how often each value occurs among the registers *)
From Coq Require Import NArith ZArith Reals Lra List Bool Lia Permutation Sorted.
From Flocq Require Import Core BinarySingleNaN.
From Verif Require Import ModelRust ModelF64 ModelEnv ModelRegisters ModelCommon ModelPF ModelPlus ModelHistory
  ModelTests Spec SpecReal SpecBuild SpecCount SpecTally BitFacts F64Facts AbsorbFacts RawFacts LinearFacts FloatFacts
  PFInv PlusInv PFFloat PFExact ClaimFloat PlusMono SparseFacts WideFacts ClaimRefute Witness RefuteFacts.
Import ListNotations.
Local Open Scope R_scope.

(** ** The sum is exact while the ranks are small *)
Lemma small_multiple : forall z r, (0 <= z <= 2 ^ 53)%Z -> (0 <= r <= 1000)%Z ->
  rnd (IZR z * bpow radix2 (- r)) = IZR z * bpow radix2 (- r).
Proof.
  intros z r Hz Hr. apply rnd_generic. apply generic_format_FLT.
  destruct (Z.eq_dec z (2 ^ 53)) as [->|Hn].
  - apply (FLT_spec _ _ _ _ (Float radix2 1 (53 - r))); cbn [Fnum Fexp]; [|reflexivity|lia].
    unfold F2R. cbn [Fnum Fexp]. change (2 ^ 53)%Z with (Zpower radix2 53). rewrite IZR_Zpower by lia.
    rewrite <- bpow_plus, Rmult_1_l. f_equal.
  - exists (Float radix2 z (- r)); simpl; try lia. reflexivity.
Qed.

Lemma fsum_exact_gen : forall r q l k z acc, (0 <= r)%Z -> (0 <= q)%Z -> (r + q <= 53)%Z ->
  Forall (fun v => (Z.of_N v <= r)%Z) l -> fin acc -> (0 <= z <= Z.of_nat k * 2 ^ r)%Z ->
  (Z.of_nat k + Z.of_nat (length l) <= 2 ^ q)%Z ->
  val acc = IZR z * bpow radix2 (- r) ->
  is (fsum acc l) (IZR z * bpow radix2 (- r) + inv_sum l).
Proof.
  intros r q l. induction l as [|v l IH]; intros k z acc Hr Hq Hrq Hl Hf Hz Hk Hv.
  - split; auto. simpl fsum. rewrite Hv. unfold inv_sum. simpl fold_right. ring.
  - apply Forall_cons_iff in Hl. destruct Hl as [Hvr Hl]. cbn [fsum fold_left].
    fold (fsum (fadd acc (invf v)) l).
    destruct (invf_is v ltac:(lia)) as [Fx Vx].
    set (y := (2 ^ (r - Z.of_N v))%Z).
    assert (Hy : (0 <= y <= 2 ^ r)%Z).
    { split; [apply Z.pow_nonneg; lia|apply Z.pow_le_mono_r; lia]. }
    assert (Ey : / IZR (2 ^ Z.of_N v) = IZR y * bpow radix2 (- r)).
    { rewrite two_pow, <- bpow_opp. unfold y. change 2%Z with (radix_val radix2).
      rewrite IZR_Zpower by lia. rewrite <- bpow_plus. f_equal. lia. }
    cbn [length] in Hk.
    assert (Es : val acc + val (invf v) = IZR (z + y) * bpow radix2 (- r)).
    { rewrite Hv, Vx, Ey, plus_IZR. ring. }
    assert (Hzy : (0 <= z + y <= 2 ^ 53)%Z).
    { split; [lia|]. apply Z.le_trans with (2 ^ (q + r))%Z; [|apply Z.pow_le_mono_r; lia].
      rewrite Z.pow_add_r by lia.
      apply Z.le_trans with ((Z.of_nat k + 1) * 2 ^ r)%Z; [lia|].
      apply Z.mul_le_mono_nonneg_r; lia. }
    assert (G : rnd (val acc + val (invf v)) = IZR (z + y) * bpow radix2 (- r)).
    { rewrite Es. apply small_multiple; lia. }
    assert (A : is (fadd acc (invf v)) (IZR (z + y) * bpow radix2 (- r))).
    { rewrite <- G. apply fadd_is; auto. rewrite Es.
      rewrite Rabs_pos_eq by (apply Rmult_le_pos; [apply IZR_le; lia|apply bpow_ge_0]).
      apply Rle_trans with (bpow radix2 53 * bpow radix2 (- r)).
      - apply Rmult_le_compat_r; [apply bpow_ge_0|].
        rewrite <- (IZR_Zpower radix2 53) by lia. apply IZR_le. apply Hzy.
      - rewrite <- bpow_plus. apply bpow_le. lia. }
    destruct A as [FA VA].
    destruct (IH (S k) (z + y)%Z (fadd acc (invf v))) as [F R]; auto.
    + lia. + lia.
    + split; auto. rewrite R. unfold inv_sum. cbn [fold_right]. fold (inv_sum l).
      rewrite Ey, plus_IZR. ring.
Qed.

Lemma raw_f_order : forall e p l l', build e -> (4 <= p <= 18)%N ->
  N.of_nat (length l) = (2 ^ p)%N -> Forall (fun v => (v <= 53 - p)%N) l -> Permutation l l' ->
  raw_f e p l = raw_f e p l'.
Proof.
  intros e p l l' Hb Hp HL Hl HP.
  assert (HL' : N.of_nat (length l') = (2 ^ p)%N) by (now rewrite <- (Permutation_length HP)).
  assert (Hl' : Forall (fun v => (v <= 53 - p)%N) l') by (eapply Permutation_Forall; eauto).
  assert (W : forall l : list N, N.of_nat (length l) = (2 ^ p)%N -> Forall (fun v => (v <= 53 - p)%N) l ->
    is (fsum (sum_init e) l) (inv_sum l) /\ 0 < inv_sum l).
  { clear l l' HL Hl HP HL' Hl'. intros l HL Hl. split.
    - destruct (zero_is e Hb) as [F Z].
      pose proof (fsum_exact_gen (53 - Z.of_N p) (Z.of_N p) l 0 0 (sum_init e)) as H.
      rewrite Rmult_0_l, Rplus_0_l in H.
      assert (LZ : (Z.of_nat (length l) <= 2 ^ Z.of_N p)%Z) by (rewrite <- Z_of_N_pow2; lia).
      apply H; [lia|lia|lia| |exact F|lia|lia|exact Z].
      eapply Forall_impl; [|exact Hl]. intros a Ha. cbv beta in *. lia.
    - destruct (raw_R_bounds p l) as [B _]; auto; try lia.
      eapply Forall_impl; [|exact Hl]. intros a Hv. cbv beta in *. lia. }
  destruct (W l HL Hl) as ([F V] & P). destruct (W l' HL' Hl') as ([F' V'] & P').
  unfold raw_f. f_equal.
  rewrite <- (inv_sum_perm l l' HP) in *.
  apply B2R_inj; [| |fold (val (fsum (sum_init e) l)) (val (fsum (sum_init e) l')); congruence];
    [destruct (fsum (sum_init e) l)|destruct (fsum (sum_init e) l')]; try discriminate;
    try reflexivity; unfold val in *; cbn in *; lra.
Qed.

Lemma zero_count_perm : forall l l', Permutation l l' -> zero_count l = zero_count l'.
Proof.
  intros l l' HP. unfold zero_count. f_equal.
  induction HP; cbn [filter]; repeat match goal with |- context [N.eqb 0 ?x] => destruct (N.eqb 0 x) end;
    cbn [length]; congruence.
Qed.

Lemma tally_perm : forall (l l' : list N), (forall v, count_occ N.eq_dec l v = count_occ N.eq_dec l' v) ->
  Permutation l l'.
Proof. intros l l' H. apply (Permutation_count_occ N.eq_dec). exact H. Qed.

(** ** HyperLogLogPF *)
Lemma pf_tally : forall (V V' : Type) e (h : hist V) (h' : hist V'),
  build e -> valid MAX_PF h -> valid MAX_PF h' -> narrow (usize_bits e) h -> narrow (usize_bits e) h' ->
  hist_precision h = hist_precision h' ->
  same_tally 32 (hist_precision h) (map (fun x => x mod 2 ^ 32)%N (hist_hashes h))
    (map (fun x => x mod 2 ^ 32)%N (hist_hashes h')) ->
  exists c, count_pf e h = Ret c /\ count_pf e h' = Ret c.
Proof.
  intros V V' e h h' Hb Hv Hv' Hn Hn' Ep Ht.
  destruct (count_pf_ok V e h Hb Hv Hn) as (l & HR & Hl & E).
  destruct (count_pf_ok V' e h' Hb Hv' Hn') as (l' & HR' & Hl' & E').
  pose proof (hist_prec V _ h Hv) as Hp. unfold MAX_PF in Hp. rewrite <- Ep in *.
  pose proof (tally_perm l l' (Ht l l' HR HR')) as P.
  destruct (pf_value_total e (hist_precision h) l (zero_count l)) as [c Ec].
  exists c. split; [congruence|]. rewrite E', <- (zero_count_perm l l' P), <- Ec.
  unfold pf_value. rewrite (raw_f_order e (hist_precision h) l l' Hb ltac:(lia) (proj1 HR)); auto.
  eapply Forall_impl; [|apply (rf_le 32 (hist_precision h) _ l ltac:(lia) HR)]. intros a Ha. cbv beta in *. lia.
Qed.

(** Small range: only the number of empty registers matters. *)
Lemma pf_small_value : forall e p H l, build e -> (4 <= p <= 16)%N -> is_register_file 32 p H l ->
  Forall (fun v => (v < 32)%N) l -> zero_count l <> 0%N -> raw_R p l <= 2.5 * m_R p ->
  pf_value e p l (zero_count l) = linear_count e (2 ^ p) (zero_count l).
Proof.
  intros e p H l Hb Hp HR Hl Hz Hs.
  destruct (raw_f_rel_pf e p l Hb (proj1 Hp) (proj2 Hp) (proj1 HR) Hl) as (Fr & Rr & Br).
  unfold pf_value. destruct (linear_cut p Hp) as [Ft Vt]. rewrite fle_spec, Vt by auto.
  rewrite Rle_bool_true.
  - rewrite (proj2 (N.eqb_neq _ _) Hz). reflexivity.
  - apply (near_25 p H l); auto. unfold approx. rewrite (inv_pow2 49) by lia. now apply rel_abs.
Qed.

Lemma pf_empty : forall (V V' : Type) e (h : hist V) (h' : hist V'),
  build e -> valid MAX_PF h -> valid MAX_PF h' -> narrow (usize_bits e) h -> narrow (usize_bits e) h' ->
  hist_precision h = hist_precision h' ->
  small_range (hist_precision h) (hist_hashes h) -> small_range (hist_precision h') (hist_hashes h') ->
  same_empty 32 (hist_precision h) (map (fun x => x mod 2 ^ 32)%N (hist_hashes h))
    (map (fun x => x mod 2 ^ 32)%N (hist_hashes h')) ->
  exists c, count_pf e h = Ret c /\ count_pf e h' = Ret c.
Proof.
  intros V V' e h h' Hb Hv Hv' Hn Hn' Ep Hs Hs' Ht.
  destruct (count_pf_ok V e h Hb Hv Hn) as (l & HR & Hl & E).
  destruct (count_pf_ok V' e h' Hb Hv' Hn') as (l' & HR' & Hl' & E').
  pose proof (hist_prec V _ h Hv) as Hp. unfold MAX_PF in Hp. rewrite <- Ep in *.
  destruct (Hs l HR) as [Z S]. destruct (Hs' l' HR') as [Z' S'].
  rewrite (pf_small_value e _ _ l Hb Hp HR Hl Z S) in E.
  rewrite (pf_small_value e _ _ l' Hb Hp HR' Hl' Z' S'), <- (Ht l l' HR HR') in E'.
  destruct (linear_total e (2 ^ hist_precision h) (zero_count l)) as [c Ec]. exists c. split; congruence.
Qed.

(** ** HyperLogLogPlus *)
Lemma ranks_file : forall b W p H l, is_register_file W p H l -> ranks_up_to b W p H ->
  Forall (fun v => (v <= b)%N) l.
Proof.
  intros b W p H l [_ HR] Hb. apply Forall_forall. intros v Hv. apply In_nth_error in Hv. destruct Hv as [i Hi].
  destruct (HR (N.of_nat i) v) as [_ [->|(x & Hx & _ & <-)]]; [now rewrite Nnat.Nat2N.id|lia|auto].
Qed.

Lemma corrected_raw : forall e p l l', build_std e -> (4 <= p <= 18)%N -> (2 * p < usize_bits e)%N ->
  Forall (fun v => (v < 64)%N) l -> Forall (fun v => (v < 64)%N) l' -> raw_f e p l = raw_f e p l' ->
  estimate_corrected e p l (2 ^ p) = estimate_corrected e p l' (2 ^ p).
Proof.
  intros e p l l' [Hb Hs] Hp Hu Hl Hl' E. unfold estimate_corrected.
  assert (W : forall l, Forall (fun v => (v < 64)%N) l -> estimate_raw_plus e l (2 ^ p) = Ret (raw_f e p l)).
  { intros k Hk. apply estimate_raw_plus_ok.
    - eapply Forall_impl; [|exact Hk]. intros a Ha. cbv beta in *. unfold lut_bound. rewrite Hs. exact Ha.
    - rewrite <- N.pow_add_r. apply pow2_lt. lia. }
  rewrite (W l Hl), (W l' Hl'), !bind_ret, E. reflexivity.
Qed.

Section Plus.
Context (V V' : Type) (e : env) (ord ord' : list N -> list N) (h : hist V) (h' : hist V').
Hypothesis Hb : build_std e.
Hypothesis Hv : valid MAX_PLUS h.
Hypothesis Hv' : valid MAX_PLUS h'.
Hypothesis Hn : narrow (usize_bits e) h.
Hypothesis Hn' : narrow (usize_bits e) h'.
Hypothesis Ho : is_order ord.
Hypothesis Ho' : is_order ord'.

Lemma plus_tally : hist_precision h = hist_precision h' ->
  ~ fits (hist_precision h) (hist_hashes h) -> ~ fits (hist_precision h') (hist_hashes h') ->
  same_tally 64 (hist_precision h) (hist_hashes h) (hist_hashes h') ->
  ranks_up_to (53 - hist_precision h) 64 (hist_precision h) (hist_hashes h) ->
  exists c, count_plus e ord h = Ret c /\ count_plus e ord' h' = Ret c.
Proof.
  intros Ep NF NF' Ht Hr.
  destruct (count_plus_ok V e ord h Hb Hv Hn Ho) as (_ & _ & c & _ & _ & Ec & _ & _ & Vc).
  destruct (count_plus_ok V' e ord' h' Hb Hv' Hn' Ho') as (_ & _ & c' & _ & _ & Ec' & _ & _ & Vc').
  exists c. split; [exact Ec|]. rewrite Ec'. f_equal.
  pose proof (hist_prec V _ h Hv) as Hp. unfold MAX_PLUS in Hp. pose proof (narrow_prec V _ h Hn) as Hu.
  rewrite <- Ep in *.
  destruct (normal_of _ _ _ _ NF Vc) as (l & R & Fl & E). destruct (normal_of _ _ _ _ NF' Vc') as (l' & R' & Fl' & E').
  pose proof (tally_perm l l' (Ht l l' R R')) as P.
  unfold normal_value in E, E'. rewrite <- (zero_count_perm l l' P) in E'.
  rewrite <- (corrected_raw e _ l l') in E'; auto; [congruence|].
  apply raw_f_order; auto; [apply Hb|apply R|]. eapply ranks_file; eauto.
Qed.

Lemma plus_empty : accurate e -> hist_precision h = hist_precision h' ->
  in_linear (hist_precision h) (hist_hashes h) -> ~ fits (hist_precision h') (hist_hashes h') ->
  same_empty 64 (hist_precision h) (hist_hashes h) (hist_hashes h') ->
  exists c, count_plus e ord h = Ret c /\ count_plus e ord' h' = Ret c.
Proof.
  intros Ha Ep [NF HL] NF' Ht.
  destruct (count_plus_ok V e ord h Hb Hv Hn Ho) as (_ & _ & c & _ & _ & Ec & _ & _ & Vc).
  destruct (count_plus_ok V' e ord' h' Hb Hv' Hn' Ho') as (_ & _ & c' & _ & _ & Ec' & _ & _ & Vc').
  exists c. split; [exact Ec|]. rewrite Ec'. f_equal.
  pose proof (hist_prec V _ h Hv) as Hp. unfold MAX_PLUS in Hp.
  rewrite <- Ep in *.
  destruct (normal_of _ _ _ _ NF Vc) as (l & R & Fl & E). destruct (normal_of _ _ _ _ NF' Vc') as (l' & R' & Fl' & E').
  destruct (HL l R) as [Z T]. pose proof (Ht l l' R R') as EZ.
  rewrite (in_linear_value e _ _ l Ha Hp R Z T) in E.
  rewrite (in_linear_value e _ _ l' Ha Hp R') in E' by (rewrite <- EZ; auto).
  rewrite <- EZ in E'. congruence.
Qed.

(** Larger ranks: the sums differ by rounding only. *)
Lemma plus_close : accurate e -> hist_precision h = hist_precision h' ->
  past_linear (hist_precision h) (hist_hashes h) -> raw_over (hist_precision h) (hist_hashes h) ->
  ~ fits (hist_precision h') (hist_hashes h') ->
  same_tally 64 (hist_precision h) (hist_hashes h) (hist_hashes h') ->
  exists c c', count_plus e ord h = Ret c /\ count_plus e ord' h' = Ret c' /\
    is_finite c = true /\ is_finite c' = true /\ 0 < B2R c /\ Rabs (B2R c - B2R c') <= / IZR (2 ^ 31) * B2R c.
Proof.
  intros Ha Ep PL RO NF' Ht.
  destruct (count_plus_ok V e ord h Hb Hv Hn Ho) as (_ & _ & c & _ & _ & Ec & _ & _ & Vc).
  destruct (count_plus_ok V' e ord' h' Hb Hv' Hn' Ho') as (_ & _ & c' & _ & _ & Ec' & _ & _ & Vc').
  pose proof (hist_prec V _ h Hv) as Hp. unfold MAX_PLUS in Hp. pose proof (narrow_prec V _ h Hn) as Hu.
  rewrite <- Ep in *. exists c, c'. split; [exact Ec|]. split; [exact Ec'|].
  destruct (past_value e _ _ c Hb Ha Hp Hu PL Vc) as (l & R & Fl & Fc & A & C).
  destruct (normal_of _ _ _ _ NF' Vc') as (l1 & R1 & _).
  assert (PL' : past_linear (hist_precision h) (hist_hashes h')).
  { split; [exact NF'|]. intros l2 R2.
    rewrite <- (zero_count_perm l l2 (tally_perm l l2 (Ht l l2 R R2))). now apply PL. }
  destruct (past_value e _ _ c' Hb Ha Hp Hu PL' Vc') as (l' & R' & Fl' & Fc' & A' & C').
  cbv zeta in *. pose proof (RO l R) as RO1.
  assert (ER : raw_R (hist_precision h) l' = raw_R (hist_precision h) l).
  { unfold raw_R. now rewrite (inv_sum_perm l l' (tally_perm l l' (Ht l l' R R'))). }
  rewrite ER in A'.
  pose proof (raw_R_pos64 _ _ l Hp R Fl) as P. pose proof (m_R_bounds _ (proj1 Hp) (proj2 Hp)) as Hm.
  unfold approx in A, A'. rewrite (Rabs_pos_eq (raw_R _ _)) in A, A' by auto. apply Rabs_le_inv in A, A'.
  change (/ IZR (2 ^ 33)) with (/ 8589934592) in A, A'. change (/ IZR (2 ^ 32)) with (/ 4294967296) in RO1.
  destruct C as [[_ C]|[C _]]; [|lra]. destruct C' as [[_ C']|[C' _]]; [|lra].
  split; [exact Fc|]. split; [exact Fc'|]. fold (val c) (val c'). rewrite C, C'. split; [lra|].
  change (/ IZR (2 ^ 31)) with (/ 2147483648). apply Rabs_le. lra.
Qed.

Lemma plus_codes : fits (hist_precision h) (hist_hashes h) -> fits (hist_precision h') (hist_hashes h') ->
  same_codes (hist_precision h) (hist_precision h') (hist_hashes h) (hist_hashes h') ->
  exists c, count_plus e ord h = Ret c /\ count_plus e ord' h' = Ret c.
Proof.
  intros HF HF' Hc.
  destruct (count_plus_ok V e ord h Hb Hv Hn Ho) as (_ & _ & c & _ & _ & Ec & _ & _ & (L & HL & A)).
  destruct (count_plus_ok V' e ord' h' Hb Hv' Hn' Ho') as (_ & _ & c' & _ & _ & Ec' & _ & _ & (L' & HL' & A')).
  exists c. split; [exact Ec|]. rewrite Ec'. f_equal.
  pose proof (HF L HL). pose proof (HF' L' HL').
  destruct A as [[_ A]|[A _]]; [|lia]. destruct A' as [[_ A']|[A' _]]; [|lia].
  rewrite <- (Hc L L' HL HL') in A'. congruence.
Qed.
End Plus.

(** ** Moving the buckets *)
Lemma NoDup_map_on : forall (A B : Type) (g : A -> B) k, NoDup k ->
  (forall x y, In x k -> In y k -> g x = g y -> x = y) -> NoDup (map g k).
Proof.
  intros A B g k HN. induction HN as [|x k Hx HN IH]; intros Hg; cbn [map]; constructor.
  - intros Hin. apply in_map_iff in Hin. destruct Hin as (y & E & Hy). apply Hx.
    rewrite (Hg x y); auto; [now left|now right].
  - apply IH. intros a b Ha Hb. apply Hg; now right.
Qed.

Lemma relabel_tally : forall W p f move H, (p <= W)%N -> Forall (fun h => (h < 2 ^ W)%N) H ->
  relabels W p f move H -> same_tally W p H (map f H).
Proof.
  intros W p f move H HpW HH (Hm & Hi & Hf) l l' [HL HR] [HL' HR'] v.
  apply (Permutation_count_occ N.eq_dec).
  set (m := N.to_nat (2 ^ p)). assert (Em : length l = m) by (unfold m; lia). assert (Em' : length l' = m) by (unfold m; lia).
  set (g := fun i => N.to_nat (move (N.of_nat i))).
  assert (Hg : forall i, (i < m)%nat -> (g i < m)%nat).
  { intros i Hi'. unfold g, m in *. specialize (Hm (N.of_nat i)). lia. }
  assert (Hgi : forall i j, (i < m)%nat -> (j < m)%nat -> g i = g j -> i = j).
  { intros i j Hi' Hj E. unfold g, m in *. specialize (Hi (N.of_nat i) (N.of_nat j)). lia. }
  assert (Hbk : forall h, In h H -> (bucket W p h < 2 ^ p)%N).
  { intros h Hh. rewrite Forall_forall in HH. specialize (HH h Hh). unfold bucket.
    apply N.div_lt_upper_bound; [now apply N.pow_nonzero|]. rewrite <- N.pow_add_r.
    replace (W - p + p)%N with W by lia. exact HH. }
  assert (En : forall i, (i < m)%nat -> nth i l 0%N = nth (g i) l' 0%N).
  { intros i Hi'.
    assert (A : is_register W p H (N.of_nat i) (nth i l 0%N)).
    { apply HR. rewrite Nnat.Nat2N.id. apply nth_error_nth'. lia. }
    assert (A' : is_register W p (map f H) (N.of_nat (g i)) (nth (g i) l' 0%N)).
    { apply HR'. rewrite Nnat.Nat2N.id. apply nth_error_nth'. specialize (Hg i Hi'). lia. }
    destruct A as [A1 A2], A' as [A1' A2'].
    assert (Eg : N.of_nat (g i) = move (N.of_nat i)) by (unfold g; lia). rewrite Eg in *.
    apply N.le_antisymm.
    - destruct A2 as [->|(h & Hh & Bh & <-)]; [lia|]. rewrite <- (proj2 (Hf h Hh)). apply A1'; [now apply in_map|].
      rewrite (proj1 (Hf h Hh)), Bh. reflexivity.
    - destruct A2' as [->|(h' & Hh' & Bh' & <-)]; [lia|]. apply in_map_iff in Hh'. destruct Hh' as (h & <- & Hh).
      rewrite (proj2 (Hf h Hh)). apply A1; auto. apply Hi; auto; [unfold m in *; lia|].
      now rewrite <- (proj1 (Hf h Hh)). }
  assert (Gen : forall k : list N, length k = m -> k = map (fun i => nth i k 0%N) (seq 0 m)).
  { intros k Hk. rewrite <- Hk. clear. induction k as [|x k IH]; [reflexivity|].
    cbn [length seq map nth]. f_equal. rewrite <- seq_shift, map_map. exact IH. }
  rewrite (Gen l Em), (Gen l' Em').
  rewrite (map_ext_in _ (fun i => nth (g i) l' 0%N)) by (intros i Hin; apply En; apply in_seq in Hin; lia).
  rewrite <- (map_map g (fun i => nth i l' 0%N)). apply Permutation_map.
  apply NoDup_Permutation_bis.
  - apply NoDup_map_on; [apply seq_NoDup|].
    intros i j Hi1 Hj1 E. apply in_seq in Hi1, Hj1. apply Hgi; auto; lia.
  - rewrite map_length. lia.
  - intros j Hj. apply in_map_iff in Hj. destruct Hj as (i & <- & Hin). apply in_seq in Hin. apply in_seq.
    specialize (Hg i). lia.
Qed.

(** Flipping index bits moves the buckets. *)
Lemma flip_relabels : forall W p mask H, (p <= W)%N -> (mask < 2 ^ p)%N ->
  relabels W p (fun h => N.lxor h (mask * 2 ^ (W - p))) (fun i => N.lxor i mask) H.
Proof.
  intros W p mask H HpW Hmask. split; [|split].
  - intros i Hi. destruct (N.eq_dec (N.lxor i mask) 0) as [->|Hz]; [apply N.neq_0_lt_0; now apply N.pow_nonzero|].
    apply N.log2_lt_pow2; [lia|].
    eapply N.le_lt_trans; [apply N.log2_lxor|]. apply N.max_lub_lt.
    + destruct (N.eq_dec i 0) as [->|Hn]; [|apply N.log2_lt_pow2; lia].
      destruct (N.eq_dec p 0) as [->|]; [|cbn; lia]. change (2 ^ 0)%N with 1%N in *.
      assert (mask = 0)%N by lia. subst. now contradiction Hz.
    + destruct (N.eq_dec mask 0) as [->|Hn]; [|apply N.log2_lt_pow2; lia].
      destruct (N.eq_dec p 0) as [->|]; [|cbn; lia]. change (2 ^ 0)%N with 1%N in *.
      assert (i = 0)%N by lia. subst. now contradiction Hz.
  - intros i j _ _ E. apply (f_equal (fun x => N.lxor x mask)) in E.
    now rewrite !N.lxor_assoc, !N.lxor_nilpotent, !N.lxor_0_r in E.
  - intros h _. unfold bucket, rank.
    assert (D : (N.lxor h (mask * 2 ^ (W - p)) / 2 ^ (W - p) = N.lxor (h / 2 ^ (W - p)) mask)%N).
    { rewrite <- N.shiftl_mul_pow2, <- !N.shiftr_div_pow2, N.shiftr_lxor, N.shiftr_shiftl_l, N.sub_diag, N.shiftl_0_r by lia. reflexivity. }
    assert (M : (N.lxor h (mask * 2 ^ (W - p)) mod 2 ^ (W - p) = h mod 2 ^ (W - p))%N).
    { rewrite <- N.shiftl_mul_pow2, <- !N.land_ones. apply N.bits_inj. intros b.
      rewrite !N.land_spec, N.lxor_spec. destruct (N.testbit (N.ones (W - p)) b) eqn:O; [|now rewrite !andb_false_r].
      rewrite N.shiftl_spec_low, xorb_false_r; [reflexivity|].
      destruct (N.lt_ge_cases b (W - p)) as [C|C]; [exact C|]. rewrite N.ones_spec_high in O by exact C. discriminate. }
    rewrite D, M. split; reflexivity.
Qed.

(** A program whose hashes are flipped in their index bits. *)
Lemma tally_ext : forall W p H H1 H', same_set H1 H' -> same_tally W p H H1 -> same_tally W p H H'.
Proof.
  intros W p H H1 H' S T l l' R R'. apply T; [exact R|]. eapply register_file_same; [|exact R'].
  intros x. symmetry. apply S.
Qed.

Lemma low_flip : forall p mask x, (p <= 32)%N -> (mask < 2 ^ p)%N ->
  (N.lxor x (mask * 2 ^ (32 - p)) mod 2 ^ 32 = N.lxor (x mod 2 ^ 32) (mask * 2 ^ (32 - p)))%N.
Proof.
  intros p mask x Hp Hm.
  assert (M : (mask * 2 ^ (32 - p) < 2 ^ 32)%N).
  { replace (2 ^ 32)%N with (2 ^ p * 2 ^ (32 - p))%N by (rewrite <- N.pow_add_r; f_equal; lia).
    apply N.mul_lt_mono_pos_r; [apply N.neq_0_lt_0; now apply N.pow_nonzero|exact Hm]. }
  set (k := (mask * 2 ^ (32 - p))%N) in *. rewrite <- !N.land_ones.
  rewrite <- (N.mod_small k (2 ^ 32) M) at 2. rewrite <- N.land_ones.
  apply N.bits_inj. intros b. rewrite !N.land_spec, !N.lxor_spec, !N.land_spec.
  destruct (N.testbit (N.ones 32) b); now rewrite ?andb_true_r, ?andb_false_r.
Qed.

Lemma pf_flip : forall (V V' : Type) e (h : hist V) (h' : hist V') mask,
  build e -> valid MAX_PF h -> valid MAX_PF h' -> narrow (usize_bits e) h -> narrow (usize_bits e) h' ->
  hist_precision h = hist_precision h' -> (mask < 2 ^ hist_precision h)%N ->
  same_set (map (fun x => N.lxor x (mask * 2 ^ (32 - hist_precision h))) (hist_hashes h)) (hist_hashes h') ->
  exists c, count_pf e h = Ret c /\ count_pf e h' = Ret c.
Proof.
  intros V V' e h h' mask Hb Hv Hv' Hn Hn' Ep Hm HS.
  pose proof (hist_prec V _ h Hv) as Hp. unfold MAX_PF in Hp.
  apply pf_tally; auto. set (p := hist_precision h) in *.
  apply (tally_ext 32 p _ (map (fun x => N.lxor x (mask * 2 ^ (32 - p))) (map (fun x => x mod 2 ^ 32)%N (hist_hashes h)))).
  - assert (E : map (fun x => N.lxor x (mask * 2 ^ (32 - p))) (map (fun x => x mod 2 ^ 32)%N (hist_hashes h)) =
      map (fun x => x mod 2 ^ 32)%N (map (fun x => N.lxor x (mask * 2 ^ (32 - p))) (hist_hashes h))).
    { rewrite !map_map. apply map_ext. intros x. symmetry. apply low_flip; auto; lia. }
    rewrite E. intros x. rewrite !in_map_iff. split; intros (y & <- & Hy); exists y; (split; [reflexivity|]); now apply HS.
  - eapply relabel_tally; [lia| |apply flip_relabels; [lia|exact Hm]].
    apply Forall_forall. intros x Hx. apply in_map_iff in Hx. destruct Hx as (y & <- & _). now apply N.mod_lt.
Qed.

Lemma flip_back : forall x k, N.lxor (N.lxor x k) k = x.
Proof. intros. now rewrite N.lxor_assoc, N.lxor_nilpotent, N.lxor_0_r. Qed.

(** Equally many codes. *)
Lemma codes_inject : forall (c : N -> N) (f : N -> N) H L L', NoDup L -> incl L (map c H) ->
  incl (map c (map f H)) L' -> (forall x y, c (f x) = c (f y) -> c x = c y) -> (length L <= length L')%nat.
Proof.
  intros c f H L L' HN HI HI' Hf.
  assert (K : exists K, map c K = L /\ incl K H).
  { clear HN. induction L as [|a L IH]; [exists []; split; [reflexivity|intros x []]|].
    destruct IH as (K & EK & IK); [intros x Hx; apply HI; now right|].
    specialize (HI a ltac:(now left)). apply in_map_iff in HI. destruct HI as (x & <- & Hx).
    exists (x :: K). split; [cbn; congruence|]. intros y [<-|Hy]; auto. }
  destruct K as (K & EK & IK). rewrite <- EK, map_length, <- (map_length (fun x => c (f x))).
  apply NoDup_incl_length.
  - rewrite <- EK in HN. clear - HN Hf. induction K as [|x K IH]; cbn [map] in *; [constructor|].
    inversion HN as [|? ? Hx HN']; subst. constructor; auto. intros Hin. apply Hx.
    apply in_map_iff in Hin. destruct Hin as (y & E & Hy). rewrite <- (Hf _ _ E). now apply in_map.
  - intros y Hy. apply in_map_iff in Hy. destruct Hy as (x & <- & Hx). apply HI'. apply in_map, in_map, IK, Hx.
Qed.

Lemma flip_code : forall p mask x y, (4 <= p <= 18)%N -> (mask < 2 ^ p)%N ->
  sparse_code p (N.lxor x (mask * 2 ^ (64 - p))) = sparse_code p (N.lxor y (mask * 2 ^ (64 - p))) ->
  sparse_code p x = sparse_code p y.
Proof.
  intros p mask x y Hp Hm. rewrite !code_eq_iff by exact Hp.
  assert (M : (mask * 2 ^ (25 - p) < 2 ^ 25)%N).
  { replace (2 ^ 25)%N with (2 ^ p * 2 ^ (25 - p))%N by (rewrite <- N.pow_add_r; f_equal; lia).
    apply N.mul_lt_mono_pos_r; [apply N.neq_0_lt_0; now apply N.pow_nonzero|exact Hm]. }
  assert (EM : (mask * 2 ^ (64 - p) = mask * 2 ^ (25 - p) * 2 ^ (64 - 25))%N).
  { rewrite <- N.mul_assoc, <- N.pow_add_r. do 2 f_equal. lia. }
  rewrite EM.
  destruct (flip_relabels 64 25 (mask * 2 ^ (25 - p)) [x; y] ltac:(lia) M) as (_ & _ & R).
  destruct (R x ltac:(now left)) as [Bx Rx]. destruct (R y ltac:(right; now left)) as [By Ry].
  change (bucket 64 25) with prefix25 in Bx, By. rewrite Bx, By, Rx, Ry.
  destruct (flip_relabels 25 p mask [prefix25 x] ltac:(lia) Hm) as (_ & _ & R').
  assert (Q : (N.lxor (prefix25 x) (mask * 2 ^ (25 - p)) mod 2 ^ (25 - p) = prefix25 x mod 2 ^ (25 - p))%N).
  { rewrite <- N.shiftl_mul_pow2, <- !N.land_ones. apply N.bits_inj. intros b.
    rewrite !N.land_spec, N.lxor_spec. destruct (N.testbit (N.ones (25 - p)) b) eqn:O; [|now rewrite !andb_false_r].
    rewrite N.shiftl_spec_low, xorb_false_r; [reflexivity|].
    destruct (N.lt_ge_cases b (25 - p)) as [C|C]; [exact C|]. rewrite N.ones_spec_high in O by exact C. discriminate. }
  rewrite Q. intros [E C]. split; [|exact C].
  rewrite <- (flip_back (prefix25 x) (mask * 2 ^ (25 - p))), E. apply flip_back.
Qed.

Lemma sorted_nodup : forall L : list N, StronglySorted N.lt L -> NoDup L.
Proof.
  intros L S. induction S as [|a L S IH F]; constructor; auto.
  intros HA. rewrite Forall_forall in F. specialize (F a HA). lia.
Qed.

Lemma plus_flip : forall (V V' : Type) e ord ord' (h : hist V) (h' : hist V') mask,
  build_std e -> valid MAX_PLUS h -> valid MAX_PLUS h' -> narrow (usize_bits e) h -> narrow (usize_bits e) h' ->
  is_order ord -> is_order ord' ->
  hist_precision h = hist_precision h' -> (mask < 2 ^ hist_precision h)%N ->
  same_set (map (fun x => N.lxor x (mask * 2 ^ (64 - hist_precision h))) (hist_hashes h)) (hist_hashes h') ->
  (~ fits (hist_precision h) (hist_hashes h) /\ ~ fits (hist_precision h) (hist_hashes h') /\
     ranks_up_to (53 - hist_precision h) 64 (hist_precision h) (hist_hashes h) \/
   fits (hist_precision h) (hist_hashes h) /\ fits (hist_precision h) (hist_hashes h')) ->
  exists c, count_plus e ord h = Ret c /\ count_plus e ord' h' = Ret c.
Proof.
  intros V V' e ord ord' h h' mask Hb Hv Hv' Hn Hn' Ho Ho' Ep Hm HS HC.
  pose proof (hist_prec V _ h Hv) as Hp. unfold MAX_PLUS in Hp.
  destruct HC as [(NF & NF' & HR)|(HF & HF')].
  - apply plus_tally; auto; [now rewrite <- Ep|]. eapply tally_ext; [exact HS|].
    eapply relabel_tally; [lia| |apply flip_relabels; [lia|exact Hm]]. apply hashes_lt.
  - apply plus_codes; auto; [now rewrite <- Ep|]. rewrite <- Ep. set (p := hist_precision h) in *.
    intros L L' [S E] [S' E']. set (f := fun x => N.lxor x (mask * 2 ^ (64 - p))) in *.
    assert (FF : forall x, f (f x) = x) by (intros x; apply flip_back).
    apply Nat.le_antisymm.
    + apply (codes_inject (sparse_code p) f (hist_hashes h)); [now apply sorted_nodup|intros x Hx; now apply E| |].
      * intros x Hx. apply E'. apply in_map_iff in Hx. destruct Hx as (y & <- & Hy). apply in_map. now apply HS.
      * intros x y. apply flip_code; auto.
    + apply (codes_inject (sparse_code p) f (map f (hist_hashes h))); [now apply sorted_nodup| | |].
      * intros x Hx. apply E' in Hx. apply in_map_iff in Hx. destruct Hx as (y & <- & Hy). apply in_map. now apply HS.
      * intros x Hx. apply E. rewrite map_map in Hx. apply in_map_iff in Hx. destruct Hx as (y & <- & Hy).
        apply in_map_iff in Hy. destruct Hy as (z & <- & Hz). rewrite FF. now apply in_map.
      * intros x y. apply flip_code; auto.
Qed.

(** ** Witnesses: eight registers of rank 50 at precision 4, the last ones and the first ones *)
Definition tops : hist N := inserted 4 (fun v => (v + 8) * 2 ^ 60 + 2 ^ 10)%N Insert keep (range 8).
Definition bottoms : hist N := inserted 4 (fun v => v * 2 ^ 60 + 2 ^ 10)%N Insert keep (range 8).

Lemma not_fits_b : forall p H, code_list_b p H (codes p H) = true ->
  (sparse_limit p <? gap_len 0 (codes p H))%N = true -> ~ fits p H.
Proof.
  intros p H E G F. apply N.ltb_lt in G. specialize (F (codes p H) (code_list_b_ok p H _ E)). lia.
Qed.

Lemma tops_tally : same_tally 64 4 (hist_hashes tops) (hist_hashes bottoms).
Proof.
  apply (tally_ext 64 4 _ (map (fun h => N.lxor h (8 * 2 ^ (64 - 4))) (hist_hashes tops))).
  - intros x. assert (E : map (fun h => N.lxor h (8 * 2 ^ (64 - 4))) (hist_hashes tops) = hist_hashes bottoms)
      by (vm_compute; reflexivity). now rewrite E.
  - eapply relabel_tally; [lia|apply hashes_lt|apply flip_relabels; [lia|reflexivity]].
Qed.

Lemma tops_valid : forall m, (4 <= m)%N -> valid m tops /\ valid m bottoms.
Proof. intros m Hm. split; (apply inserted_valid; [apply keep_order|lia]). Qed.

Lemma order_matters : ~ (forall e ord (h h' : hist N), build_std e -> accurate e -> valid MAX_PLUS h -> valid MAX_PLUS h' ->
  narrow (usize_bits e) h -> narrow (usize_bits e) h' -> is_order ord -> hist_precision h = hist_precision h' ->
  ~ fits (hist_precision h) (hist_hashes h) -> ~ fits (hist_precision h') (hist_hashes h') ->
  same_tally 64 (hist_precision h) (hist_hashes h) (hist_hashes h') ->
  ranks_up_to (54 - hist_precision h) 64 (hist_precision h) (hist_hashes h) ->
  exists c, count_plus e ord h = Ret c /\ count_plus e ord h' = Ret c).
Proof.
  intros C. destruct (tops_valid MAX_PLUS ltac:(unfold MAX_PLUS; lia)) as [T B].
  destruct (C test_env keep tops bottoms) as (c & E & E'); auto.
  - exact test_build.
  - exact test_accurate'.
  - apply wide; [exact T|cbn; lia].
  - apply wide; [exact B|cbn; lia].
  - exact keep_order.
  - apply not_fits_b; vm_compute; reflexivity.
  - apply not_fits_b; vm_compute; reflexivity.
  - exact tops_tally.
  - intros h Hh. revert h Hh. apply Forall_forall. vm_compute. repeat constructor; discriminate.
  - assert (D : bits (count_plus test_env keep tops) = bits (count_plus test_env keep bottoms)) by (rewrite E, E'; reflexivity).
    vm_compute in D. discriminate.
Qed.
