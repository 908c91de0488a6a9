(** * Counts of few values, whatever the hash function

    The count lies between the number of buckets hit and what the number of different hashes
    allows. *)
From Coq Require Import NArith ZArith Reals List Bool Sorted Lia Lra.
From Flocq Require Import Core BinarySingleNaN.
From Verif Require Import ModelRust ModelF64 ModelEnv ModelConstants ModelHistory Spec SpecReal SpecCount
  SpecBuild BitFacts CodeFacts AbsorbFacts PFInv PlusInv SparseFacts MomentFacts HarmonicNum RawFacts LinearFacts FloatFacts MonoFacts ClaimFloat AccFacts.
Import ListNotations.
Local Notation ln := Rpower.ln.

(** ** Numbers of buckets *)
Lemma filter_length : forall (A : Type) (f : A -> bool) l,
  (length (filter f l) + length (filter (fun x => negb (f x)) l) = length l)%nat.
Proof. induction l as [|x l IH]; [reflexivity|]. cbn [filter]. destruct (f x); cbn [negb length]; lia. Qed.

Lemma filter_map_length : forall (A B : Type) (g : A -> B) (f : B -> bool) l,
  length (filter f (map g l)) = length (filter (fun x => f (g x)) l).
Proof. induction l as [|x l IH]; [reflexivity|]. cbn [filter map]. destruct (f (g x)); cbn [length]; lia. Qed.

Lemma map_nth_seq : forall (l : list N), map (fun i => nth i l 0%N) (seq 0 (length l)) = l.
Proof.
  intros l. apply (nth_ext _ _ 0%N 0%N); [rewrite map_length, seq_length; reflexivity|].
  intros i Hi. rewrite map_length, seq_length in Hi.
  rewrite (nth_indep _ 0%N (nth 0 l 0%N)) by (rewrite map_length, seq_length; exact Hi).
  rewrite (map_nth (fun i => nth i l 0%N) (seq 0 (length l)) 0%nat i). now rewrite seq_nth.
Qed.

(** At most as many registers are filled as there are hashes. *)
Lemma zeros_ge : forall W p H l D, is_register_file W p H l -> incl H D ->
  (2 ^ p <= zero_count l + N.of_nat (length D))%N.
Proof.
  intros W p H l D [EL R] I. rewrite <- EL. unfold zero_count.
  pose proof (filter_length _ (N.eqb 0) l) as F.
  assert (K : (length (filter (fun v => negb (N.eqb 0 v)) l) <= length D)%nat); [|lia].
  rewrite <- (map_nth_seq l) at 1. rewrite filter_map_length.
  rewrite <- (map_length (fun h => N.to_nat (bucket W p h)) D). apply NoDup_incl_length.
  - apply NoDup_filter, seq_NoDup.
  - intros i Hi. apply filter_In in Hi. destruct Hi as [S Z]. apply in_seq in S.
    assert (E : nth_error l i = Some (nth i l 0%N)) by (apply nth_error_nth'; lia).
    rewrite <- (Nat2N.id i) in E at 1. destruct (R _ _ E) as [_ [Q|(h & Hh & B & _)]].
    + rewrite Q in Z. discriminate.
    + apply in_map_iff. exists h. split; [rewrite B; apply Nat2N.id|now apply I].
Qed.

(** At least as many are filled as there are different buckets. *)
Lemma rank_pos : forall W p h, (p < W)%N -> (1 <= rank W p h)%N.
Proof.
  intros W p h HW. unfold rank. cbv zeta.
  assert (L : (h mod 2 ^ (W - p) < 2 ^ (W - p))%N) by (apply N.mod_lt, N.pow_nonzero; discriminate).
  set (r := (h mod 2 ^ (W - p))%N) in *. clearbody r. destruct (N.eqb_spec r 0) as [_|Z]; [lia|].
  apply N.log2_lt_pow2 in L; [|lia]. lia.
Qed.

Lemma zeros_le : forall W p H l B, (p < W)%N -> is_register_file W p H l -> NoDup B ->
  (forall b, In b B -> (b < 2 ^ p)%N /\ exists h, In h H /\ bucket W p h = b) ->
  (zero_count l + N.of_nat (length B) <= 2 ^ p)%N.
Proof.
  intros W p H l B HW [EL R] ND I. rewrite <- EL. unfold zero_count.
  pose proof (filter_length _ (N.eqb 0) l) as F.
  assert (K : (length B <= length (filter (fun v => negb (N.eqb 0 v)) l))%nat); [|lia].
  rewrite <- (map_nth_seq l) at 1. rewrite filter_map_length.
  rewrite <- (map_length N.to_nat B). apply NoDup_incl_length.
  - apply FinFun.Injective_map_NoDup; [|exact ND]. intros x y E. now apply N2Nat.inj.
  - intros i Hi. apply in_map_iff in Hi. destruct Hi as (b & <- & Hb). destruct (I b Hb) as [Lb (h & Hh & Eb)].
    assert (L : (N.to_nat b < length l)%nat) by lia.
    apply filter_In. split; [apply in_seq; lia|].
    destruct (R b _ (nth_error_nth' l 0%N L)) as [Q _]. specialize (Q h Hh Eb). pose proof (rank_pos W p h HW).
    destruct (N.eqb_spec 0 (nth (N.to_nat b) l 0%N)); [lia|reflexivity].
Qed.

(** ** Numbers of codes *)
Lemma codes_le : forall p H L D, is_code_list p H L -> incl H D -> (length L <= length D)%nat.
Proof.
  intros p H L D [S SS] I. rewrite <- (map_length (sparse_code p) D).
  apply NoDup_incl_length; [now apply sorted_nodup|].
  intros c Hc. apply SS in Hc. apply in_map_iff in Hc. destruct Hc as (h & <- & Hh). apply in_map. now apply I.
Qed.

Lemma bucket_prefix : forall p h, (4 <= p <= 18)%N -> bucket 64 p h = (prefix25 h / 2 ^ (25 - p))%N.
Proof.
  intros p h Hp. unfold bucket, prefix25. rewrite N.div_div by (apply N.pow_nonzero; discriminate).
  rewrite <- N.pow_add_r. do 2 f_equal. lia.
Qed.

Lemma codes_ge : forall p H L B, (4 <= p <= 18)%N -> is_code_list p H L -> NoDup B ->
  (forall b, In b B -> (b < 2 ^ p)%N /\ exists h, In h H /\ bucket 64 p h = b) -> (length B <= length L)%nat.
Proof.
  intros p H L B Hp [S SS] ND I.
  rewrite <- (map_length (fun c => code_prefix c / 2 ^ (25 - p))%N L). apply NoDup_incl_length; [exact ND|].
  intros b Hb. destruct (I b Hb) as [_ (h & Hh & <-)]. apply in_map_iff. exists (sparse_code p h).
  rewrite code_prefix_ok. split; [symmetry; now apply bucket_prefix|]. apply SS. now apply in_map.
Qed.

(** ** The logarithm *)
Local Open Scope R_scope.
Lemma linear_le : forall m v n, (0 < v <= m)%N -> (m <= v + n)%N -> (5 * n <= 2 * m)%N ->
  linear_R m v <= IZR (Z.of_N n) * (1 + IZR (Z.of_N n) / IZR (Z.of_N m)).
Proof.
  intros m v n Hv Hn H2. unfold linear_R.
  assert (V : 0 < IZR (Z.of_N v)) by (apply IZR_lt; lia).
  assert (NN : 0 <= IZR (Z.of_N n)) by (apply IZR_le; lia).
  assert (VM : IZR (Z.of_N m) <= IZR (Z.of_N v) + IZR (Z.of_N n)) by (rewrite <- plus_IZR; apply IZR_le; lia).
  assert (N2 : 5 * IZR (Z.of_N n) <= 2 * IZR (Z.of_N m)) by (rewrite <- !mult_IZR; apply IZR_le; lia).
  assert (M0 : 0 < IZR (Z.of_N m)) by (apply IZR_lt; lia).
  set (M := IZR (Z.of_N m)) in *. set (v' := IZR (Z.of_N v)) in *. set (k := IZR (Z.of_N n)) in *. clearbody M v' k.
  set (x := k / M). assert (Ek : k = M * x) by (unfold x; field; lra).
  assert (X : 0 <= x <= 0.4) by (unfold x; split; [apply div_ge|apply div_le]; lra).
  rewrite Ek, Rmult_assoc. apply Rmult_le_compat_l; [lra|].
  rewrite <- (ln_exp (x * (1 + x))). apply LinearFacts.ln_le; [apply Rdiv_lt_0_compat; lra|].
  pose proof (exp_neg_up (x * (1 + x)) ltac:(nra)) as E. rewrite exp_Ropp in E. pose proof (exp_pos (x * (1 + x))) as P.
  assert (E2 : / exp (x * (1 + x)) <= v' / M).
  { eapply Rle_trans; [exact E|]. apply Rle_trans with (1 - x); [nra|]. apply div_ge; [lra|]. nra. }
  replace (M / v') with (/ (v' / M)) by (field; lra). rewrite <- (Rinv_inv (exp (x * (1 + x)))).
  apply Rinv_le_contravar; [now apply Rinv_0_lt_compat|exact E2].
Qed.

Lemma linear_ge : forall m v n, (0 < v)%N -> (v + n <= m)%N -> IZR (Z.of_N n) <= linear_R m v.
Proof.
  intros m v n Hv Hn. unfold linear_R.
  assert (V : 0 < IZR (Z.of_N v)) by (apply IZR_lt; lia).
  assert (VM : IZR (Z.of_N v) + IZR (Z.of_N n) <= IZR (Z.of_N m)) by (rewrite <- plus_IZR; apply IZR_le; lia).
  assert (NN : 0 <= IZR (Z.of_N n)) by (apply IZR_le; lia).
  set (M := IZR (Z.of_N m)) in *. set (v' := IZR (Z.of_N v)) in *. set (k := IZR (Z.of_N n)) in *. clearbody M v' k.
  set (x := k / M). assert (Ek : k = M * x) by (unfold x; field; lra). rewrite Ek.
  apply Rmult_le_compat_l; [lra|]. rewrite <- (ln_exp x). apply LinearFacts.ln_le; [apply exp_pos|].
  pose proof (exp_ineq1_le (- x)) as E. rewrite exp_Ropp in E. pose proof (exp_pos x) as P.
  replace (M / v') with (/ (v' / M)) by (field; lra). rewrite <- (Rinv_inv (exp x)).
  apply Rinv_le_contravar; [apply Rdiv_lt_0_compat; lra|].
  eapply Rle_trans; [|exact E]. apply div_le; [lra|]. nra.
Qed.

Lemma approx_between : forall eps c y lo hi, approx eps c y -> 0 < eps < 1 -> 0 <= lo <= y -> y <= hi ->
  lo * (1 - eps) <= c <= hi * (1 + eps).
Proof.
  intros eps c y lo hi A He Hl Hh. unfold approx in A. rewrite (Rabs_pos_eq y) in A by lra. apply Rabs_le_inv in A.
  split; nra.
Qed.

(** The threshold is above what m/4 hashes can reach. *)
Lemma threshold_third : forall p, (4 <= p <= 18)%N -> 0.3125 * m_R p <= threshold_R p.
Proof.
  intros p Hp. assert (C : (p = 4 \/ p = 5 \/ p = 6 \/ p = 7 \/ p = 8 \/ p = 9 \/ p = 10 \/ p = 11 \/ p = 12 \/ p = 13 \/
    p = 14 \/ p = 15 \/ p = 16 \/ p = 17 \/ p = 18)%N) by lia.
  unfold m_R, threshold_R.
  repeat (destruct C as [-> |C]); try (rewrite C); simpl; lra.
Qed.

(** ** HyperLogLogPlus *)
Lemma in_range : forall (V : Type) W p (h : hist V) b, (p <= W)%N ->
  (exists x, In x (map (fun x => x mod 2 ^ W)%N (hist_hashes h)) /\ bucket W p x = b) -> (b < 2 ^ p)%N.
Proof.
  intros V W p h b HW (x & Hx & <-). apply in_map_iff in Hx. destruct Hx as (y & <- & _). unfold bucket.
  apply N.div_lt_upper_bound; [apply N.pow_nonzero; discriminate|]. rewrite <- N.pow_add_r.
  replace (W - p + p)%N with W by lia. apply N.mod_lt, N.pow_nonzero. discriminate.
Qed.

Lemma R_nat : forall n : nat, IZR (Z.of_N (N.of_nat n)) = INR n.
Proof. intros n. rewrite nat_N_Z. symmetry. apply INR_IZR_INZ. Qed.

Theorem plus_sandwich : forall (V : Type) e ord (h : hist V) D B,
  build_std e -> accurate e -> valid MAX_PLUS h -> narrow (usize_bits e) h -> is_order ord ->
  incl (hist_hashes h) D -> (4 * N.of_nat (length D) <= 2 ^ hist_precision h)%N ->
  NoDup B -> (forall b, In b B -> exists x, In x (hist_hashes h) /\ bucket 64 (hist_precision h) x = b) ->
  exists c, count_plus e ord h = Ret c /\ is_finite c = true /\
    INR (length B) * (1 - / IZR (2 ^ 28)) <= B2R c <=
    INR (length D) * (1 + INR (length D) / m_R (hist_precision h)) * (1 + / IZR (2 ^ 28)).
Proof.
  intros V e ord h D B Hb Ha Hv Hn Ho HD H4 ND HB.
  destruct (plus_value V e ord h Hb Ha Hv Hn Ho) as (c & E & F & L & HL & P).
  exists c. split; [exact E|]. split; [exact F|].
  pose proof (hist_prec V _ h Hv) as Hp. unfold MAX_PLUS in Hp. set (p := hist_precision h) in *.
  assert (HB' : forall b, In b B -> (b < 2 ^ p)%N /\ exists x, In x (hist_hashes h) /\ bucket 64 p x = b).
  { intros b Ib. destruct (HB b Ib) as (x & Hx & Eb). split; [|exists x; auto].
    apply (in_range V 64 p h b ltac:(lia)). exists x. split; [|exact Eb]. apply in_map_iff. exists x. split; [|exact Hx].
    apply N.mod_small. pose proof (hashes_lt V h) as HF. rewrite Forall_forall in HF. now apply HF. }
  assert (E28 : 0 < / IZR (2 ^ 28) < 1) by (change (IZR (2 ^ 28)) with 268435456; lra).
  set (eps := / IZR (2 ^ 28)) in *. clearbody eps.
  assert (M : 0 < m_R p) by (apply MomentFacts.pow2_pos; lia).
  assert (M2 : (2 ^ p <= 2 ^ 18)%N) by (apply N.pow_le_mono_r; lia).
  assert (B0 : 0 <= INR (length B)) by apply pos_INR.
  assert (D4 : 4 * INR (length D) <= m_R p).
  { rewrite <- R_nat, <- m_R_N. rewrite <- mult_IZR. apply IZR_le. lia. }
  destruct P as [[_ P]|[_ (l & RF & P)]].
  - pose proof (codes_le p _ L D HL HD) as CL. pose proof (codes_ge p _ L B Hp HL ND HB') as CG.
    assert (LL : (N.of_nat (length L) <= 2 ^ 16)%N) by lia.
    apply (approx_between eps (B2R c) _ _ _ P E28).
    + split; [exact B0|]. rewrite <- R_nat. apply linear_ge; lia.
    + eapply Rle_trans; [apply (linear_le _ _ (N.of_nat (length L))); lia|].
      rewrite R_nat. change (IZR (Z.of_N (2 ^ 24))) with 16777216.
      assert (LD : INR (length L) <= INR (length D)) by now apply le_INR.
      pose proof (pos_INR (length L)) as L0.
      assert (MR : m_R p <= 262144) by (rewrite <- m_R_N; apply IZR_le; lia).
      assert (Q : INR (length L) / 16777216 <= INR (length D) / m_R p).
      { apply div_le; [lra|]. apply Rle_trans with (INR (length D)); [exact LD|].
        replace (INR (length D) / m_R p * 16777216) with (INR (length D) * (16777216 / m_R p)) by (field; lra).
        assert (1 <= 16777216 / m_R p) by (apply div_ge; lra). pose proof (pos_INR (length D)). nra. }
      assert (0 <= INR (length L) / 16777216) by lra.
      apply Rmult_le_compat; lra.
  - pose proof (zeros_ge 64 p _ l D RF HD) as ZG. pose proof (zeros_le 64 p _ l B ltac:(lia) RF ND HB') as ZL.
    pose proof (N.pow_nonzero 2 p ltac:(discriminate)) as P0.
    assert (Z0 : (zero_count l <> 0)%N) by lia.
    pose proof (linear_le (2 ^ p) (zero_count l) (N.of_nat (length D)) ltac:(lia) ltac:(lia) ltac:(lia)) as UP.
    rewrite R_nat, m_R_N in UP.
    destruct P as [(_ & _ & P)|([P|P] & _)]; [|contradiction|].
    + apply (approx_between eps (B2R c) _ _ _ P E28); [|exact UP].
      split; [exact B0|]. rewrite <- R_nat. apply linear_ge; lia.
    + exfalso. pose proof (threshold_third p Hp) as T.
      assert (X : 0 <= INR (length D) / m_R p <= 0.25).
      { split; [apply div_ge|apply div_le]; try lra. rewrite Rmult_0_l. apply pos_INR. }
      assert (INR (length D) * (1 + INR (length D) / m_R p) <= 0.25 * m_R p * 1.25).
      { apply Rmult_le_compat; try lra. apply pos_INR. }
      lra.
Qed.

(** ** HyperLogLogPF *)
Theorem pf_sandwich : forall (V : Type) e (h : hist V) D B,
  build e -> accurate e -> valid MAX_PF h -> narrow (usize_bits e) h ->
  incl (map (fun x => x mod 2 ^ 32)%N (hist_hashes h)) D -> (5 * N.of_nat (length D) <= 2 * 2 ^ hist_precision h)%N ->
  NoDup B -> (forall b, In b B -> exists x, In x (map (fun x => x mod 2 ^ 32)%N (hist_hashes h)) /\
    bucket 32 (hist_precision h) x = b) ->
  exists c, count_pf e h = Ret c /\ is_finite c = true /\
    INR (length B) * (1 - / IZR (2 ^ 28)) <= B2R c <=
    INR (length D) * (1 + INR (length D) / m_R (hist_precision h)) * (1 + / IZR (2 ^ 28)).
Proof.
  intros V e h D B Hb Ha Hv Hn HD H4 ND HB.
  pose proof (hist_prec V _ h Hv) as Hp. unfold MAX_PF in Hp.
  assert (M : 0 < m_R (hist_precision h)) by (apply MomentFacts.pow2_pos; lia).
  assert (RW : forall l, is_register_file 32 (hist_precision h) (map (fun x => x mod 2 ^ 32)%N (hist_hashes h)) l ->
    (2 ^ hist_precision h <= zero_count l + N.of_nat (length D))%N /\ raw_R (hist_precision h) l <= 1.25 * m_R (hist_precision h)).
  { intros l RF. pose proof (zeros_ge 32 _ _ l D RF HD) as ZG. split; [exact ZG|].
    pose proof (zero_inv_sum l) as ZS.
    assert (Z5 : 3 * m_R (hist_precision h) <= 5 * IZR (Z.of_N (zero_count l))).
    { rewrite <- m_R_N, <- !mult_IZR. apply IZR_le. lia. }
    pose proof (alpha_upper (hist_precision h) ltac:(lia) ltac:(lia)) as AU. unfold raw_R.
    pose proof (file_inv_pos _ _ _ _ RF) as SP. apply div_le; [exact SP|].
    set (m := m_R (hist_precision h)) in *. set (S := inv_sum l) in *. clearbody S.
    apply Rle_trans with (0.75 * (m * m)); [apply Rmult_le_compat_r; nra|]. nra. }
  assert (BL : below_2_32 (hist_precision h) (hist_hashes h)).
  { intros l RF. destruct (RW l RF) as [_ RU]. eapply Rle_lt_trans; [exact RU|].
    assert (m_R (hist_precision h) <= 65536).
    { rewrite <- m_R_N. change 65536 with (IZR (Z.of_N (2 ^ 16))). apply IZR_le. apply N2Z.inj_le. apply N.pow_le_mono_r; lia. }
    change (IZR (2 ^ 32)) with 4294967296. lra. }
  destruct (pf_value_R V e h Hb Ha Hv Hn BL) as (c & E & F & (l & RF & P) & _).
  exists c. split; [exact E|]. split; [exact F|]. destruct (RW l RF) as [ZG RU].
  set (p := hist_precision h) in *.
  assert (HB' : forall b, In b B -> (b < 2 ^ p)%N /\ exists x, In x (map (fun x => x mod 2 ^ 32)%N (hist_hashes h)) /\ bucket 32 p x = b).
  { intros b Ib. split; [|now apply HB]. apply (in_range V 32 p h b ltac:(lia)). now apply HB. }
  pose proof (zeros_le 32 p _ l B ltac:(lia) RF ND HB') as ZL.
  pose proof (N.pow_nonzero 2 p ltac:(discriminate)) as P0.
  assert (Z0 : (zero_count l <> 0)%N) by lia.
  destruct P as [(_ & _ & P)|([P|P] & _)]; [|contradiction|lra].
  assert (E28 : 0 < / IZR (2 ^ 28) < 1) by (change (IZR (2 ^ 28)) with 268435456; lra).
  apply (approx_between _ (B2R c) _ _ _ P E28).
  - split; [apply pos_INR|]. rewrite <- R_nat. apply linear_ge; lia.
  - pose proof (linear_le (2 ^ p) (zero_count l) (N.of_nat (length D)) ltac:(lia) ltac:(lia) ltac:(lia)) as UP.
    rewrite R_nat, m_R_N in UP. exact UP.
Qed.
