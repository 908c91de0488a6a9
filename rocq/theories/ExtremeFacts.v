(** * Saturated sketches: every register at its maximum *)
From Coq Require Import NArith ZArith Reals List Bool Lia Lra Permutation Sorted.
From Flocq Require Import Core BinarySingleNaN.
From Verif Require Import ModelRust ModelF64 ModelEnv ModelRegisters ModelCommon
  ModelPF ModelPlus ModelConstants ModelHistory Spec SpecDist SpecReal SpecCount
  SpecBuild BitFacts EncFacts CodeFacts CountFacts DistFacts PFInv PlusInv
  RawFacts FloatFacts PFExact ClaimFacts ClaimFloat PlusMono.
Import ListNotations.
Local Open Scope N_scope.

(** The hash of each bucket with the largest rank is among [H]. *)
Definition saturated (W p : N) (H : list N) : Prop :=
  forall i, i < 2 ^ p -> In (i * 2 ^ (W - p)) H.

Lemma top_bucket : forall W p i, p < W -> bucket W p (i * 2 ^ (W - p)) = i.
Proof. intros. unfold bucket. apply N.div_mul, N.pow_nonzero. discriminate. Qed.

Lemma top_rank : forall W p i, p < W -> rank W p (i * 2 ^ (W - p)) = W - p + 1.
Proof.
  intros. unfold rank. rewrite N.mod_mul by (apply N.pow_nonzero; discriminate). reflexivity.
Qed.

Lemma saturated_file : forall W p H l, p < W -> Forall (fun h => h < 2 ^ W) H -> saturated W p H ->
  is_register_file W p H l -> Forall (fun v => v = W - p + 1) l.
Proof.
  intros W p H l Hp HF HS R. pose proof (file_le W p H l Hp HF R) as U.
  destruct R as [L F]. rewrite Forall_forall in *. intros v Hv. specialize (U v Hv).
  apply In_nth_error in Hv. destruct Hv as (j & Hj).
  assert (j < length l)%nat by (apply nth_error_Some; congruence).
  assert (Hj' : N.of_nat j < 2 ^ p) by lia.
  specialize (F (N.of_nat j) v). rewrite Nnat.Nat2N.id in F. destruct (F Hj) as [G _].
  specialize (G _ (HS _ Hj') (top_bucket W p _ Hp)). rewrite top_rank in G by assumption. lia.
Qed.

Lemma const_inv_sum : forall l k, Forall (fun v => v = k) l ->
  inv_sum l = (INR (length l) * / IZR (2 ^ Z.of_N k))%R.
Proof.
  induction l; intros k F.
  - cbn. lra.
  - inversion F; subst. change (inv_sum (k :: l)) with (/ IZR (2 ^ Z.of_N k) + inv_sum l)%R.
    rewrite (IHl k) by assumption. change (length (k :: l)) with (S (length l)). rewrite S_INR. ring.
Qed.

Lemma saturated_raw : forall W p H l, 4 <= p <= 18 -> p < W -> Forall (fun h => h < 2 ^ W) H ->
  saturated W p H -> is_register_file W p H l ->
  raw_R p l = (alpha_R p * IZR (2 ^ Z.of_N (W + 1)))%R /\ zero_count l = 0.
Proof.
  intros W p H l Hp HW HF HS R. pose proof (saturated_file W p H l HW HF HS R) as C. split.
  - unfold raw_R. rewrite (const_inv_sum l _ C), (len_m p l (proj1 R)).
    replace (Z.of_N (W + 1)) with (Z.of_N p + Z.of_N (W - p + 1))%Z by lia.
    rewrite Z.pow_add_r, mult_IZR by lia. fold (m_R p).
    pose proof (m_R_bounds p (proj1 Hp) (proj2 Hp)).
    assert (0 < IZR (2 ^ Z.of_N (W - p + 1)))%R by (rewrite two_pow; apply bpow_gt_0).
    field. lra.
  - unfold zero_count. replace (filter (N.eqb 0) l) with (@nil N); [reflexivity|].
    clear - C. induction C as [|v l E _ IH]; [reflexivity|]. cbn [filter].
    destruct (N.eqb_spec 0 v); [lia|exact IH].
Qed.

Lemma top_code : forall p i, p <= 18 -> i < 2 ^ p ->
  sparse_code p (i * 2 ^ (64 - p)) = i * 2 ^ (25 - p) * 2 ^ 7 + 81.
Proof.
  intros p i Hp Hi. unfold sparse_code, prefix25.
  assert (E : i * 2 ^ (64 - p) / 2 ^ 39 = i * 2 ^ (25 - p)).
  { replace (64 - p) with (25 - p + 39) by lia. rewrite N.pow_add_r, N.mul_assoc.
    apply N.div_mul. discriminate. }
  rewrite E. rewrite N.mod_mul by (apply N.pow_nonzero; discriminate). cbn [N.eqb].
  replace (i * 2 ^ (64 - p)) with (i * 2 ^ (25 - p) * 2 ^ (64 - 25)).
  - rewrite top_rank by lia. change (64 - 25 + 1) with 40. lia.
  - rewrite <- N.mul_assoc, <- N.pow_add_r. f_equal. f_equal. lia.
Qed.

Lemma saturated_big : forall p H L, 4 <= p <= 18 -> saturated 64 p H -> is_code_list p H L ->
  sparse_limit p < gap_len 0 L.
Proof.
  intros p H L Hp HS [SS SL].
  assert (I : incl (map (fun i => i * 2 ^ (25 - p) * 2 ^ 7 + 81) (range (2 ^ p))) L).
  { intros c Hc. apply in_map_iff in Hc. destruct Hc as (i & <- & Hi). apply range_in in Hi.
    apply SL, in_map_iff. exists (i * 2 ^ (64 - p)). split; [apply top_code; lia|now apply HS]. }
  apply NoDup_incl_length in I.
  - rewrite map_length, range_length in I. pose proof (gap_len_length L 0).
    pose proof (pow2_le 4 p ltac:(lia)). change (2 ^ 4) with 16 in *.
    assert (sparse_limit p < 2 ^ p); [|lia]. unfold sparse_limit.
    apply N.div_lt_upper_bound; lia.
  - apply FinFun.Injective_map_NoDup; [|apply FinFun.Injective_map_NoDup; [|apply seq_NoDup]].
    + intros a b E. assert (2 ^ (25 - p) <> 0) by (apply N.pow_nonzero; discriminate). nia.
    + intros a b E. lia.
Qed.

Local Open Scope R_scope.

Lemma alpha_lower : forall p, (4 <= p <= 18)%N -> 0.673 <= alpha_R p.
Proof.
  intros p Hp. pose proof (m_R_bounds p (proj1 Hp) (proj2 Hp)) as B. unfold alpha_R.
  destruct (N.eqb_spec p 4); [lra|]. destruct (N.eqb_spec p 5); [lra|].
  destruct (N.eqb_spec p 6); [lra|].
  assert (128 <= m_R p).
  { unfold m_R. rewrite two_pow. change 128 with (bpow radix2 7). apply bpow_le. lia. }
  apply Rmult_le_reg_r with (1 + 1.079 / m_R p).
  - assert (0 < / m_R p) by (apply Rinv_0_lt_compat; lra). unfold Rdiv. nra.
  - unfold Rdiv at 2. rewrite Rmult_assoc, Rinv_l.
    + assert (/ m_R p <= / 128) by (apply Rinv_le; lra). unfold Rdiv. lra.
    + assert (0 < / m_R p) by (apply Rinv_0_lt_compat; lra). unfold Rdiv. nra.
Qed.

Lemma saturated_count : forall (V : Type) e ord (h : hist V),
  build_std e -> accurate e -> valid MAX_PLUS h -> narrow (usize_bits e) h -> is_order ord ->
  saturated 64 (hist_precision h) (hist_hashes h) ->
  exists c, count_plus e ord h = Ret c /\ is_finite c = true /\
    approx (/ IZR (2 ^ 33)) (B2R c) (alpha_R (hist_precision h) * IZR (2 ^ 65)) /\
    IZR (2 ^ 64) <= B2R c <= IZR (2 ^ 65).
Proof.
  intros V e ord h Hb Ha Hv Hn Ho HS.
  destruct (plus_range V e ord h Hb Ha Hv Hn Ho) as (c & E & F & U & _).
  destruct (plus_value V e ord h Hb Ha Hv Hn Ho) as (c' & E' & _ & P).
  rewrite E in E'. injection E' as <-.
  pose proof (hist_prec V _ h Hv) as Hp. unfold MAX_PLUS in Hp.
  destruct P as (L & HL & [[Hs _]|[_ (l & RF & P)]]).
  { exfalso. pose proof (saturated_big _ _ L Hp HS HL). lia. }
  destruct (saturated_raw 64 _ _ l Hp ltac:(lia) (hashes_lt V h) HS RF) as [HR HZ].
  change (Z.of_N (64 + 1)) with 65%Z in HR.
  pose proof (alpha_lower _ Hp) as HA. pose proof (alpha_upper _ (proj1 Hp) (proj2 Hp)) as HA'.
  pose proof (m_R_bounds _ (proj1 Hp) (proj2 Hp)) as HM.
  destruct P as [[P _]|[_ (raw & A & P)]]; [congruence|]. rewrite HR in A.
  assert (B : IZR (2 ^ 64) <= raw).
  { unfold approx in A. apply Rabs_le_inv in A.
    change (IZR (2 ^ 65)) with 36893488147419103232 in *.
    change (IZR (2 ^ 64)) with 18446744073709551616. change (IZR (2 ^ 33)) with 8589934592 in *.
    rewrite Rabs_pos_eq in A by lra. nra. }
  destruct P as [[_ <-]|[P _]].
  - exists c. split; [exact E|]. split; [exact F|].
    split; [exact A|]. split; [exact B|apply U].
  - exfalso. change (IZR (2 ^ 64)) with 18446744073709551616 in B. lra.
Qed.

(** HyperLogLogPF: the same hashes modulo 2^32. *)
Lemma saturated_nan : forall (V : Type) e (h : hist V),
  build e -> accurate e -> rejects e -> valid MAX_PF h -> narrow (usize_bits e) h ->
  saturated 32 (hist_precision h) (map (fun x => x mod 2 ^ 32)%N (hist_hashes h)) ->
  exists c, count_pf e h = Ret c /\ is_nan c = true.
Proof.
  intros V e h Hb Ha Hr Hv Hn HS.
  destruct (count_pf_ok V e h Hb Hv Hn) as (l & RF & _).
  destruct (pf_finite_iff V e h Hb Ha Hr Hv Hn) as (c & E & I & N1).
  exists c. split; [exact E|]. apply N1. destruct (is_finite c); [|reflexivity]. exfalso.
  pose proof (proj1 I eq_refl l RF) as B.
  pose proof (hist_prec V _ h Hv) as Hp. unfold MAX_PF in Hp.
  assert (HF : Forall (fun x => x < 2 ^ 32)%N (map (fun x => x mod 2 ^ 32)%N (hist_hashes h))).
  { apply Forall_forall. intros x Hx. apply in_map_iff in Hx. destruct Hx as (y & <- & _).
    apply N.mod_lt. discriminate. }
  destruct (saturated_raw 32 (hist_precision h) _ l ltac:(lia) ltac:(lia) HF HS RF) as [HR _].
  change (Z.of_N (32 + 1)) with 33%Z in HR. rewrite HR in B.
  pose proof (alpha_lower (hist_precision h) ltac:(lia)).
  change (IZR (2 ^ 33)) with 8589934592 in B. change (IZR (2 ^ 32)) with 4294967296 in B. lra.
Qed.
