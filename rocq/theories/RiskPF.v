(** * The mean and the mean square error of the count of HyperLogLogPF *)
From Coq Require Import NArith ZArith Reals List Bool Permutation Lia Lra.
From Flocq Require Import Core BinarySingleNaN.
From Verif Require Import ModelRust ModelF64 ModelEnv ModelConstants ModelHistory Spec SpecReal SpecCount SpecDist
  SpecProb SpecBuild SpecMean BitFacts EncFacts CodeFacts AbsorbFacts PFInv DistFacts ProbFacts MomentFacts HarmonicNum BiasFacts ExtremeFacts
  NegFacts ChernoffFacts RawFacts FloatFacts ClaimFloat ClaimDist HarmonicMean AccFacts AccOver LinearFacts PlusMono TailFacts TailMid BiasCheck BiasSound AccMid AccRange TailLarge AccSmall PlusInv MeanTable MeanSlope RiskCore RiskFacts.
Import ListNotations.
Local Open Scope R_scope.

Lemma large_le : forall x, 0 <= x <= IZR (2 ^ 32) / 8 -> large_R x <= 8 / 7 * x.
Proof.
  intros x Hx. unfold large_R. change (IZR (2 ^ 32)) with 4294967296 in *. set (u := 1 - x / 4294967296).
  assert (U : 7 / 8 <= u) by (unfold u; lra).
  assert (L : - ln u <= / u - 1).
  { rewrite <- ln_Rinv by lra. pose proof (exp_ineq1_le (ln (/ u))) as E. rewrite exp_ln in E by (apply Rinv_0_lt_compat; lra). lra. }
  assert (I : / u <= 8 / 7) by (replace (8 / 7) with (/ (7 / 8)) by lra; apply Rinv_le_contravar; lra).
  assert (Ei : / u - 1 = / u * (1 - u)) by (rewrite Rmult_minus_distr_l, Rinv_l; lra).
  assert (1 - u = x / 4294967296) by (unfold u; lra).
  assert (/ u * (1 - u) <= 8 / 7 * (1 - u)) by (apply Rmult_le_compat_r; lra). lra.
Qed.

(** The largest linear count. *)
Lemma linear_cap : forall p v, (10 <= p <= 16)%N -> (v <> 0)%N -> linear_R (2 ^ p) v <= 11.2 * m_R p.
Proof.
  intros p v Hp Hv. pose proof (m_10 p (proj1 Hp)) as M. unfold linear_R. rewrite N2Z.inj_pow.
  change (IZR (Z.of_N 2 ^ Z.of_N p)) with (m_R p). rewrite Rmult_comm. apply Rmult_le_compat_r; [lra|].
  assert (V : 1 <= IZR (Z.of_N v)) by (apply IZR_le; lia).
  assert (M16 : m_R p <= 65536).
  { replace 65536 with (m_R 16) by reflexivity. unfold m_R. apply IZR_le, Z.pow_le_mono_r; lia. }
  assert (Q : 0 < m_R p / IZR (Z.of_N v)) by (apply Rdiv_lt_0_compat; lra).
  assert (Q2 : m_R p / IZR (Z.of_N v) <= 65536) by (apply div_le; nra).
  eapply Rle_trans; [apply ln_le; [exact Q|exact Q2]|].
  replace 65536 with (2 ^ 16) by lra. rewrite <- (Rmult_1_l (2 ^ 16)).
  rewrite Rmult_1_l, ln_pow by lra. replace (INR 16) with 16 by (rewrite INR_IZR_INZ; reflexivity).
  assert (L2 : ln 2 <= 0.7); [|lra].
  rewrite <- (ln_exp 0.7). apply ln_le; [lra|].
  replace 0.7 with (INR 64 * (0.7 / 64)) by (rewrite INR_IZR_INZ; simpl; lra). rewrite <- exp_pow.
  apply Rle_trans with ((1 + 0.7 / 64) ^ 64); [lra|]. apply pow_incr. pose proof (exp_ineq1_le (0.7 / 64)). lra.
Qed.

Section Program.
Variables (e : env) (p : N) (n : nat) (C : list N -> R).
Hypothesis Hb : build e.
Hypothesis Ha : accurate e.
Hypothesis Hr : rejects e.
Hypothesis Hp : (10 <= p <= 16)%N.
Hypothesis Hlo : 4 * m_R p <= INR n.
Hypothesis Hhi : INR n <= 0.95 * IZR (2 ^ 27).
Hypothesis HC : pf_program e p n C.

Let y := ratio 32 p n.
Let k := scaled 32 p n.

Lemma cap_27 : INR n <= IZR (2 ^ Z.of_N 32) / 32.
Proof.
  eapply Rle_trans; [exact Hhi|]. change (IZR (2 ^ Z.of_N 32)) with 4294967296.
  change (IZR (2 ^ 27)) with 134217728. lra.
Qed.

Lemma Hp18 : (10 <= p <= 18)%N.
Proof. lia. Qed.

Lemma pf_k : 0.9965 <= k <= 1.0033.
Proof. apply k_bounds; [exact Hp18|lia|exact Hlo|exact cap_27]. Qed.

(** What the count is: nothing, or the value of [pf_R]. *)
Lemma pf_cases : forall hs, hash_list 32 n hs ->
  C hs = 0 /\ IZR (2 ^ 32) <= INR n * (k / y hs) \/
  0 <= C hs <= IZR (2 ^ 40) /\
  ((INR n * (k / y hs) <= 2.5 * m_R p /\ C hs <= 11.21 * m_R p) \/
   (INR n * (k / y hs) <= IZR (2 ^ 32) / 30 /\ approx (/ IZR (2 ^ 49)) (C hs) (INR n * (k / y hs))) \/
   (IZR (2 ^ 32) / 30 < INR n * (k / y hs) /\ approx (/ IZR (2 ^ 28)) (C hs) (large_R (INR n * (k / y hs))))).
Proof.
  intros hs HH. destruct (HC hs HH) as (V & h & c & Hv & Hn & Ep & SS & Ec & EC).
  pose proof (file_of_ok 32 p hs ltac:(lia) (proj2 HH)) as RF0.
  pose proof (register_file_same 32 p hs (map (fun x => x mod 2 ^ 32)%N (hist_hashes h)) _ (fun x => iff_sym (SS x)) RF0) as RF.
  pose proof (raw_y 32 p n Hp18 ltac:(lia) Hlo hs HH) as RY. fold k (y hs) in RY. rewrite <- RY. clear RY.
  destruct (pf_finite_iff V e h Hb Ha Hr Hv Hn) as (c1 & E1 & FI & NN). rewrite Ec in E1. injection E1 as <-.
  destruct (Rle_or_lt (IZR (2 ^ 32)) (raw_R p (file_of 32 p hs))) as [B|B].
  - left. split; [|exact B]. rewrite EC. destruct (is_finite c) eqn:F.
    + exfalso. pose proof (proj1 FI eq_refl) as F2. rewrite Ep in F2. specialize (F2 _ RF). lra.
    + specialize (NN eq_refl). now destruct c.
  - right. assert (BL : below_2_32 (hist_precision h) (hist_hashes h)).
    { intros l RFl. rewrite Ep in *. now rewrite (is_register_file_unique 32 p _ l _ ltac:(lia) RFl RF). }
    destruct (pf_value_R V e h Hb Ha Hv Hn BL) as (c2 & E2 & _ & (l & RFl & P) & R & _). rewrite Ec in E2. injection E2 as <-.
    rewrite <- EC in *. rewrite Ep in *. rewrite (is_register_file_unique 32 p _ l _ ltac:(lia) RFl RF) in P.
    split; [exact R|]. destruct P as [(Z & Lo & P)|(_ & [P|P])]; [left|right; left; exact P|right; right; exact P].
    split; [exact Lo|]. pose proof (linear_cap p _ Hp Z) as LC. pose proof (m_10 p (proj1 Hp)) as M.
    unfold approx in P. apply Rabs_le_inv in P. change (IZR (2 ^ 28)) with 268435456 in P.
    destruct (Rle_or_lt 0 (linear_R (2 ^ p) (zero_count (file_of 32 p hs)))) as [Q|Q].
    + rewrite Rabs_pos_eq in P by exact Q. lra.
    + rewrite Rabs_left in P by exact Q. lra.
Qed.

Lemma pf_follows : forall d, 0 < d <= / 10 -> follows 32 p n d C 2.81 4.6 (IZR (2 ^ 40) / INR n).
Proof.
  intros d Hd hs HH. pose proof pf_k as KB. pose proof (m_10 p (proj1 Hp)) as M.
  pose proof (y_pos 32 p n Hp18 ltac:(lia) Hlo hs HH) as Y.
  pose proof (pf_cases hs HH) as PC. fold (y hs) in Y |- *. fold k.
  assert (Q0 : 0 < k / y hs) by (apply Rdiv_lt_0_compat; lra).
  assert (Q4 : / 4 < y hs -> k / y hs <= 4.0132) by (intros; apply div_le; lra).
  assert (Q1 : 1 - d < y hs -> k / y hs <= 1.115) by (intros; apply div_le; nra).
  assert (Q2 : y hs < 1.106 -> 0.9 <= k / y hs) by (intros; apply div_ge; nra).
  assert (Q3 : 1.106 <= y hs -> k / y hs <= 0.908) by (intros; apply div_le; nra).
  change (IZR (2 ^ 27)) with 134217728 in Hhi. set (q := k / y hs) in *.
  assert (X0 : 0 < INR n * q) by (apply Rmult_lt_0_compat; lra).
  unfold approx in PC. rewrite (Rabs_pos_eq (INR n * q)) in PC by lra.
  change (IZR (2 ^ 32)) with 4294967296 in PC. change (IZR (2 ^ 49)) with 562949953421312 in PC.
  change (IZR (2 ^ 28)) with 268435456 in PC. change (IZR (2 ^ 33)) with 8589934592.
  assert (T : IZR (2 ^ 40) / INR n * INR n = IZR (2 ^ 40)) by (field; lra). rewrite T.
  change (IZR (2 ^ 40)) with 1099511627776 in *.
  split; [lra|]. split; [|split; [|split]].
  - intros L. specialize (Q3 L). assert (INR n * q <= INR n * 0.908) by (apply Rmult_le_compat_l; lra).
    destruct PC as [[-> _]|(R & [[_ P]|[[_ P]|[P _]]])]; [lra|lra|apply Rabs_le_inv in P; lra|lra].
  - intros L. specialize (Q4 (proj1 L)). assert (B : INR n * q <= INR n * 4.0132) by (apply Rmult_le_compat_l; lra).
    destruct PC as [[-> _]|(R & [[_ P]|[[_ P]|[P1 P]]])]; [lra|lra|apply Rabs_le_inv in P; lra|].
    assert (X8 : 0 <= INR n * q <= IZR (2 ^ 32) / 8) by (change (IZR (2 ^ 32)) with 4294967296; lra).
    pose proof (large_le _ X8) as LL.
    pose proof (large_pos (INR n * q) ltac:(change (IZR (2 ^ 32)) with 4294967296; lra)) as LP.
    rewrite (Rabs_pos_eq (large_R _)) in P by exact LP. apply Rabs_le_inv in P. lra.
  - intros _. lra.
  - intros [L1 L2]. specialize (Q1 L1). specialize (Q2 L2).
    assert (INR n * q <= INR n * 1.115) by (apply Rmult_le_compat_l; lra).
    assert (INR n * 0.9 <= INR n * q) by (apply Rmult_le_compat_l; lra).
    destruct PC as [[_ P]|(R & [[P _]|[[_ P]|[P _]]])]; [lra|lra|lra|lra].
Qed.

Lemma pf_under : forall d, 0 < d <= / 10 -> forall hs, hash_list 32 n hs -> y hs < 1.106 ->
  0.9964 * / y hs <= C hs / INR n \/ 2 <= 2 /\ y hs <= 1 - d.
Proof.
  intros d Hd hs HH L. destruct (Rle_or_lt (y hs) (1 - d)) as [B|B]; [right; lra|left].
  destruct (pf_follows d Hd hs HH) as (_ & _ & _ & _ & N1). specialize (N1 (conj B L)). pose proof pf_k as KB.
  fold k (y hs) in N1.
  pose proof (m_10 p (proj1 Hp)) as M.
  apply Rabs_le_inv in N1. change (IZR (2 ^ 33)) with 8589934592 in N1. set (z := y hs) in *.
  assert (F1 : 0 < / z) by (apply Rinv_0_lt_compat; lra).
  apply div_ge; [lra|]. apply Rle_trans with (INR n * (k / z) - / 8589934592 * (INR n * (k / z))); [|lra].
  replace (INR n * (k / z) - / 8589934592 * (INR n * (k / z))) with (INR n * ((k - / 8589934592 * k) * / z)) by (unfold Rdiv; ring).
  rewrite (Rmult_comm _ (INR n)). apply Rmult_le_compat_l; [lra|]. apply Rmult_le_compat_r; lra.
Qed.

Lemma huge_pf : (IZR (2 ^ 40) / INR n) ^ 2 <= IZR (2 ^ 105).
Proof.
  pose proof (m_10 p (proj1 Hp)) as M.
  assert (B : 0 < IZR (2 ^ 40) / INR n) by (apply Rdiv_lt_0_compat; [now apply IZR_lt|lra]).
  assert (U : IZR (2 ^ 40) / INR n <= IZR (2 ^ 40)).
  { apply div_le; [lra|]. rewrite <- (Rmult_1_r (IZR (2 ^ 40))) at 1. apply Rmult_le_compat_l; [now apply IZR_le|lra]. }
  apply Rle_trans with (IZR (2 ^ 40) ^ 2); [apply pow_incr; lra|].
  change (IZR (2 ^ 40)) with 1099511627776. change (IZR (2 ^ 105)) with 40564819207303340847894502572032. lra.
Qed.
End Program.

Theorem square_pf : forall e p n C, build e -> accurate e -> rejects e -> (10 <= p <= 16)%N ->
  4 * m_R p <= INR n -> INR n <= 0.95 * IZR (2 ^ 27) -> pf_program e p n C ->
  forall all, enumerates (hash_list 32 n) all -> forall t, 0 < t <= / 10 ->
  rsum (fun hs => (C hs / INR n - 1) ^ 2) all
  <= (((0.004 + 1.05 / sqrt (m_R p)) / (1 - t)) ^ 2 + 21 * exp (- (m_R p * t ^ 2 / 4.3))) * INR (length all).
Proof.
  intros e p n C Hb Ha Hr Hp Hlo Hhi HC all HE t Ht.
  eapply Rle_trans.
  - apply (mean_square 32 p n (Hp18 p Hp) ltac:(lia) Hlo (cap_27 n Hhi) all HE t Ht C 2.81 4.6 (IZR (2 ^ 40) / INR n)) with (bh := 3.3) (bl := 13);
      [now apply (pf_follows e p n C)|now apply (huge_pf p n)|lra|lra|lra].
  - apply Rmult_le_compat_r; [apply pos_INR|]. apply Rplus_le_compat_l.
    pose proof (exp_pos (- (m_R p * t ^ 2 / 4.3))). lra.
Qed.

Theorem mean_pf : forall e p n C, build e -> accurate e -> rejects e -> (10 <= p <= 16)%N ->
  4 * m_R p <= INR n -> INR n <= 0.95 * IZR (2 ^ 27) -> pf_program e p n C ->
  forall all, enumerates (hash_list 32 n) all ->
  INR n * (0.9964 - 4 * exp (- (m_R p / 430))) * INR (length all) <= rsum C all /\
  rsum C all <= INR n * (1.0034 + 1.23 / m_R p + 12 * exp (- (m_R p / 430))) * INR (length all).
Proof.
  intros e p n C Hb Ha Hr Hp Hlo Hhi HC all HE. pose proof (m_10 p (proj1 Hp)) as M.
  assert (D : 0 < / 10 <= / 10) by lra.
  pose proof (mean_lower 32 p n (Hp18 p Hp) ltac:(lia) Hlo (cap_27 n Hhi) all HE (/ 10) D C 2.81 4.6 _ 2
    (pf_follows e p n C Hb Ha Hr Hp Hlo Hhi HC _ D) (pf_under e p n C Hb Ha Hr Hp Hlo Hhi HC (/ 10) D) ltac:(lra)) as L.
  pose proof (mean_upper 32 p n (Hp18 p Hp) ltac:(lia) Hlo (cap_27 n Hhi) all HE (/ 10) D C 2.81 4.6 _
    (pf_follows e p n C Hb Ha Hr Hp Hlo Hhi HC _ D) (huge_pf p n Hp Hlo) ltac:(lra)) as U.
  replace (m_R p * (/ 10) ^ 2 / 4.3) with (m_R p / 430) in L, U by lra.
  pose proof (exp_pos (- (m_R p / 430))) as EP. split; [replace 4 with (2 + 2) by lra; exact L|].
  eapply Rle_trans; [exact U|]. apply Rmult_le_compat_r; [apply pos_INR|]. apply Rmult_le_compat_l; [apply pos_INR|].
  replace (1.1025 / (m_R p * (1 - / 10))) with (1.225 * / m_R p)
    by (replace (1 - / 10) with 0.9 by lra; unfold Rdiv; rewrite Rinv_mult; lra).
  assert (0 < / m_R p) by (apply Rinv_0_lt_compat; lra). unfold Rdiv. lra.
Qed.

Theorem program_exists_pf : forall e p n, build e -> accurate e -> rejects e -> (4 <= p <= 16)%N -> (2 * p < usize_bits e)%N ->
  exists C, pf_program e p n C.
Proof.
  intros e p n Hb Ha Hr Hp Hw.
  exists (fun hs => match count_pf e (inserts p hs) with Ret c => B2R c | _ => 0 end).
  intros hs [_ F]. exists N, (inserts p hs).
  assert (F64 : Forall (fun x => x < 2 ^ 64)%N hs).
  { eapply Forall_impl; [|exact F]. intros x Hx. cbv beta in *. eapply N.lt_trans; [exact Hx|reflexivity]. }
  destruct (inserts_ok p hs _ ltac:(lia) Hw F64) as (_ & W & P & HH).
  assert (V : valid MAX_PF (inserts p hs)).
  { clear - Hp. induction hs as [|x hs IH]; [exact Hp|]. split; [intros l; apply Permutation_refl|exact IH]. }
  destruct (pf_finite_iff N e (inserts p hs) Hb Ha Hr V W) as (c & E & _).
  exists c. rewrite E, HH. repeat split; auto.
  - intros Hx. apply in_map_iff in Hx. destruct Hx as (y & <- & Hy). rewrite N.mod_small; [exact Hy|].
    exact (proj1 (Forall_forall _ _) F y Hy).
  - intros Hx. apply in_map_iff. exists x. split; [|exact Hx]. apply N.mod_small.
    exact (proj1 (Forall_forall _ _) F x Hx).
Qed.

Lemma exp_24_pf : exp (- (65536 * (/ 25) ^ 2 / 4.3)) <= / 1000000000.
Proof. replace (65536 * (/ 25) ^ 2 / 4.3) with (262144 * (/ 50) ^ 2 / 4.3) by lra. exact exp_24. Qed.
