(** * HyperLogLogPF beyond 2^32/30 *)
From Coq Require Import NArith ZArith Reals List Bool Lia Lra.
From Flocq Require Import Core BinarySingleNaN.
From Verif Require Import ModelRust ModelF64 ModelEnv ModelConstants ModelHistory Spec SpecReal SpecCount SpecDist
  SpecProb SpecBuild BitFacts AbsorbFacts DistFacts ProbFacts MomentFacts HarmonicNum
  PlusInv PFInv LinearFacts RawFacts FloatFacts MonoFacts ExtremeFacts ClaimFloat HarmonicMean AccFacts AccSmall.
Import ListNotations.
Local Notation ln := Rpower.ln.
Local Open Scope R_scope.

Lemma large_mono : forall x y, x <= y -> y < IZR (2 ^ 32) -> large_R x <= large_R y.
Proof.
  intros x y H Hy. unfold large_R. change (IZR (2 ^ 32)) with 4294967296 in *.
  assert (ln (1 - y / 4294967296) <= ln (1 - x / 4294967296)) by (apply ln_le; lra). lra.
Qed.

Lemma large_pos : forall x, 0 <= x < IZR (2 ^ 32) -> 0 <= large_R x.
Proof. intros x Hx. eapply Rle_trans; [apply Hx|now apply large_ge]. Qed.

Theorem pf_over : forall e p n t, build e -> accurate e -> (4 <= p <= 16)%N -> 0 < t < 1 ->
  4 * m_R p <= INR n -> INR n <= IZR (2 ^ 31) ->
  let lo := alpha_R p / (0.7226 + (INR n / IZR (2 ^ 33)) ^ 2) * INR n / (1 + t) in
  let hi := alpha_R p * (1 + / m_R p) / 0.7190 * INR n / (1 - t) in
  IZR (2 ^ 32) / 30 < lo -> 2.5 * m_R p < lo -> hi < IZR (2 ^ 32) ->
  rare 32 n ((2.16 * (1 + / m_R p) ^ 2 - 1) / (m_R p * t ^ 2))
    (fun hs => ~ pf_counts e p (large_R lo * (1 - / IZR (2 ^ 28))) (large_R hi * (1 + / IZR (2 ^ 28))) hs).
Proof.
  intros e p n t Hb Ha Hp Ht H4 Hn lo hi Hlo Hlo' Hhi.
  assert (Hp' : (4 <= p <= 18)%N) by lia. pose proof (m_R_bounds p (proj1 Hp') (proj2 Hp')) as M.
  assert (C : 0 <= INR n / IZR (2 ^ 33) <= / 4).
  { change (IZR (2 ^ 33)) with 8589934592. change (IZR (2 ^ 31)) with 2147483648 in Hn.
    pose proof (pos_INR n). lra. }
  assert (EC : INR n / (2 * IZR (2 ^ Z.of_N 32)) = INR n / IZR (2 ^ 33)).
  { change (IZR (2 ^ Z.of_N 32)) with 4294967296. change (IZR (2 ^ 33)) with 8589934592. lra. }
  eapply rare_weaken; [apply (harmonic_rare_gen 32 p n (file_of 32 p) 2.16 t)|apply Rle_refl|]; try lia; try lra.
  { rewrite EC. set (c := INR n / IZR (2 ^ 33)) in *. clearbody c.
    assert (c * c <= / 16) by nra. assert (c ^ 3 <= / 64). { cbn [pow]. nra. } lra. }
  { apply file_of_files. lia. }
  intros hs HH NC. apply Rnot_lt_le. intros NR. apply NC. clear NC.
  intros V h Hv Hnr Ep SS.
  pose proof (alpha_lower p Hp') as A. pose proof (alpha_ratio p Hp') as A'.
  assert (RB : forall l, is_register_file 32 p (map (fun x => x mod 2 ^ 32)%N (hist_hashes h)) l ->
    lo <= raw_R p l <= hi).
  { intros l RF. unfold lo, hi.
    apply (raw_bounds_gen 32 p n (0.7226 + (INR n / IZR (2 ^ 33)) ^ 2) t hs l Hp' ltac:(lia) H4); auto.
    - pose proof (pow2_ge_0 (INR n / IZR (2 ^ 33))). lra.
    - rewrite <- EC. exact (mean_up_gen 32 p n (proj1 Hp') ltac:(lia) H4).
    - eapply register_file_same; eauto.
    - unfold rare_harmonic. lra. }
  assert (B32 : below_2_32 (hist_precision h) (hist_hashes h)).
  { intros l RF. rewrite Ep in *. specialize (RB l RF). lra. }
  destruct (pf_value_R V e h Hb Ha Hv Hnr B32) as (c & E & F & (l & RF & P) & _).
  exists c. split; [exact E|]. split; [exact F|]. rewrite Ep in *. specialize (RB l RF).
  destruct P as [(_ & P & _)|(_ & P)]; [exfalso; lra|].
  destruct P as [[P _]|[_ P]]; [exfalso; lra|].
  assert (L0 : 0 <= lo) by (change (IZR (2 ^ 32)) with 4294967296 in *; lra).
  pose proof (large_mono lo (raw_R p l) (proj1 RB) ltac:(lra)) as L1.
  pose proof (large_mono (raw_R p l) hi (proj2 RB) Hhi) as L2.
  pose proof (large_pos lo ltac:(lra)) as L3.
  unfold approx in P. rewrite (Rabs_pos_eq (large_R _)) in P by lra. apply Rabs_le_inv in P.
  generalize dependent (large_R (raw_R p l)). generalize dependent (large_R lo). generalize dependent (large_R hi).
  change (IZR (2 ^ 28)) with 268435456. intros. lra.
Qed.

(** 2^31 values at precision 16. *)
Theorem pf_over_2_31 : forall e n, build e -> accurate e -> Z.of_nat n = (2 ^ 31)%Z ->
  rare 32 n 0.073 (fun hs => ~ pf_counts e 16 (1.2 * INR n) (1.5 * INR n) hs).
Proof.
  intros e n Hb Ha En. assert (EN : INR n = 2147483648) by (rewrite INR_IZR_INZ, En; reflexivity).
  assert (AL : alpha_R 16 = 0.7213 / (1 + 1.079 / 65536)) by reflexivity.
  assert (EM : m_R 16 = 65536) by reflexivity.
  set (lo := alpha_R 16 / (0.7226 + (INR n / IZR (2 ^ 33)) ^ 2) * INR n / (1 + / 64)).
  set (hi := alpha_R 16 * (1 + / m_R 16) / 0.7190 * INR n / (1 - / 64)).
  assert (LO : 0.4522 * 4294967296 <= lo).
  { unfold lo. rewrite AL, EN. change (IZR (2 ^ 33)) with 8589934592. lra. }
  assert (HI : hi <= 0.51 * 4294967296). { unfold hi. rewrite AL, EM, EN. lra. }
  eapply rare_weaken; [apply (pf_over e 16 n (/ 64) Hb Ha)| |]; try lia; try lra;
    try (rewrite ?EM, ?EN; change (IZR (2 ^ 32)) with 4294967296; change (IZR (2 ^ 31)) with 2147483648; fold lo hi; lra).
  intros hs _ NC PC. apply NC. clear NC. eapply pf_counts_weaken; [exact PC| |]; fold lo hi; clear PC; rewrite EN;
    change (IZR (2 ^ 28)) with 268435456; unfold large_R; change (IZR (2 ^ 32)) with 4294967296.
  - assert (L : ln (1 - lo / 4294967296) <= - 0.60001).
    { rewrite <- (ln_exp (- 0.60001)). apply ln_le.
      - enough (lo <= 0.46 * 4294967296) by lra. unfold lo. rewrite AL, EN. change (IZR (2 ^ 33)) with 8589934592. lra.
      - replace (- 0.60001) with (- (0.300005) + - (0.300005)) by lra. rewrite exp_plus.
        pose proof (exp_neg_lo 0.300005 ltac:(lra)) as E0.
        assert (E1 : 0.74049 <= exp (Ropp 0.300005)) by lra. nra. }
    generalize dependent (ln (1 - lo / 4294967296)). intros. lra.
  - assert (L : - 0.74 <= ln (1 - hi / 4294967296)).
    { rewrite <- (ln_exp (- 0.74)). apply ln_le; [apply exp_pos|].
      replace (- 0.74) with (- (0.37) + - (0.37)) by lra. rewrite exp_plus.
      pose proof (exp_neg_up 0.37 ltac:(lra)) as E0.
      assert (E1 : exp (Ropp 0.37) <= 0.69846) by lra. pose proof (exp_pos (Ropp 0.37)). nra. }
    generalize dependent (ln (1 - hi / 4294967296)). intros. lra.
Qed.

(** The claim that some assignments are counted within 10%. *)
Lemma pf_history : forall e p hs, (4 <= p <= 16)%N -> (2 * p < usize_bits e)%N ->
  Forall (fun h => h < 2 ^ 32)%N hs ->
  exists h : hist N, valid MAX_PF h /\ narrow (usize_bits e) h /\ hist_precision h = p /\
    same_set (map (fun x => x mod 2 ^ 32)%N (hist_hashes h)) hs.
Proof.
  intros e p hs Hp He F. exists (inserted p (fun x : N => x) Insert (fun l => l) hs).
  destruct (Witness.inserted_spec N p (fun x => x) Insert (fun l => l) hs) as (A & _ & C & D & B).
  split; [apply D; [intros l; apply Permutation.Permutation_refl|exact Hp]|]. split; [now apply B|]. split; [exact A|].
  assert (E : forall x, In x hs -> (hash64 (fun x => x) x mod 2 ^ 32 = x)%N).
  { intros x Hx. rewrite Forall_forall in F. specialize (F x Hx). unfold hash64.
    rewrite (N.mod_small x (2 ^ 64)).
    - now apply N.mod_small.
    - eapply N.lt_trans; [exact F|reflexivity]. }
  intros x. rewrite in_map_iff. split.
  - intros (y & <- & Hy). apply C, in_map_iff in Hy. destruct Hy as (z & <- & Hz). now rewrite (E z Hz).
  - intros Hx. exists (hash64 (fun x => x) x). split; [now apply E|]. apply C. apply in_map_iff. now exists x.
Qed.

Theorem pf_not_within : forall e n, build e -> accurate e -> (32 < usize_bits e)%N -> Z.of_nat n = (2 ^ 31)%Z ->
  ~ rare 32 n 0.9 (fun hs => ~ pf_counts e 16 (0.9 * INR n) (1.1 * INR n) hs).
Proof.
  intros e n Hb Ha He En R.
  assert (EN : INR n = 2147483648) by (rewrite INR_IZR_INZ, En; reflexivity).
  pose proof (rare_or 32 n _ _ _ _ R (pf_over_2_31 e n Hb Ha En) (fun hs => Classical_Prop.classic _)) as A.
  destruct (hash_lists_exist 32 n) as (all & E). pose proof (total_R 32 n all E) as T.
  specialize (A all (proj1 E)). rewrite <- T in A.
  assert (P : 0 < INR (length all)). { rewrite T. apply pow2_pos. nia. }
  enough (INR (length all) <= (0.9 + 0.073) * INR (length all)) by lra. apply A.
  intros hs Hh. apply E in Hh. split; [exact Hh|].
  destruct (Classical_Prop.classic (pf_counts e 16 (0.9 * INR n) (1.1 * INR n) hs)) as [P1|P1]; [right|left; exact P1].
  intros P2. destruct (pf_history e 16 hs ltac:(lia) He (proj2 Hh)) as (h & Hv & Hn & Hp & Hs).
  destruct (P1 N h Hv Hn Hp Hs) as (c & E1 & _ & B1). destruct (P2 N h Hv Hn Hp Hs) as (c' & E2 & _ & B2).
  rewrite E1 in E2. injection E2 as <-. lra.
Qed.
