(** * The mean and the mean square error of the count *)
From Coq Require Import NArith ZArith Reals List Bool Permutation Lia Lra.
From Flocq Require Import Core BinarySingleNaN.
From Verif Require Import ModelRust ModelF64 ModelEnv ModelConstants ModelHistory Spec SpecReal SpecCount SpecDist
  SpecProb SpecBuild SpecMean BitFacts EncFacts CodeFacts AbsorbFacts PlusInv DistFacts ProbFacts MomentFacts HarmonicNum BiasFacts ExtremeFacts
  NegFacts ChernoffFacts RawFacts FloatFacts ClaimFloat ClaimDist HarmonicMean AccFacts MeanTable MeanSlope AccSmall BiasCheck BiasSound
  AccMid AccRange TailFacts TailLarge TailMid RiskCore.
Import ListNotations.
Local Open Scope R_scope.

(** ** The count as a function of the harmonic sum *)
Lemma plus_cap : forall p H l c, (10 <= p <= 18)%N -> is_register_file 64 p H l ->
  raw_R p l <= 5 * m_R p * (1 + / IZR (2 ^ 32)) ->
  plus_R (reals (est_table p)) (reals (bias_table p)) p H c -> c <= 6.07 * m_R p.
Proof.
  intros p H l c Hp RF B (L & HL & P). pose proof (m_10 p (proj1 Hp)) as M. change (IZR (2 ^ 32)) with 4294967296 in B.
  destruct P as [[G P]|[_ (l' & RF' & P)]].
  - pose proof (sparse_count p L c Hp G P) as [_ SC].
    assert (K : INR (length L) <= 0.8 * m_R p).
    { pose proof (gap_len_length L 0) as GL. unfold sparse_limit in G.
      assert (N2 : (5 * N.of_nat (length L) <= 4 * 2 ^ p)%N).
      { pose proof (N.mul_div_le (4 * 2 ^ p) 5 ltac:(discriminate)). lia. }
      apply N2Z.inj_le, IZR_le in N2. rewrite !N2Z.inj_mul, !mult_IZR, N2Z.inj_pow, nat_N_Z, <- INR_IZR_INZ in N2.
      change (IZR (Z.of_N 2 ^ Z.of_N p)) with (m_R p) in N2. change (IZR (Z.of_N 5)) with 5 in N2.
      change (IZR (Z.of_N 4)) with 4 in N2. lra. }
    lra.
  - rewrite <- (is_register_file_unique 64 p H _ l' ltac:(lia) RF RF') in P.
    destruct P as [(Z & T & P)|(_ & (raw & A & [[R5 ->]|(R5 & y & I & D)]))].
    + pose proof (threshold_le p ltac:(lia)) as TL. unfold approx in P. change (IZR (2 ^ 28)) with 268435456 in P.
      apply Rabs_le_inv in P. destruct (Rle_or_lt 0 (linear_R (2 ^ p) (zero_count l))) as [Q|Q].
      * rewrite Rabs_pos_eq in P by exact Q. lra.
      * rewrite Rabs_left in P by exact Q. lra.
    + unfold approx in A. change (IZR (2 ^ 33)) with 8589934592 in A. apply Rabs_le_inv in A.
      destruct (Rle_or_lt 0 (raw_R p l)) as [Q|Q].
      * rewrite Rabs_pos_eq in A by exact Q. lra.
      * rewrite Rabs_left in A by exact Q. lra.
    + destruct (table_parts p (tables_checked p ltac:(lia))) as (t & Ht & Hs & HT & _).
      assert (R5' : raw * scale p <= 5 * IZR U). { pose proof (scale_m p). pose proof (scale_pos p). nra. }
      pose proof (top_at_ok p ltac:(lia) t Ht Hs raw y HT R5' I) as TP.
      assert (TP' : raw - y <= 5.02 * m_R p).
      { pose proof (scale_m p) as SM. pose proof (scale_pos p) as SP. apply Rmult_le_reg_r with (1 := SP).
        replace (5.02 * m_R p * scale p) with (5.02 * (scale p * m_R p)) by ring. rewrite SM. exact TP. }
      apply Rabs_le_inv in D. change (IZR (2 ^ 28)) with 268435456 in D. lra.
Qed.

Section Program.
Variables (e : env) (p : N) (n : nat) (C : list N -> R).
Hypothesis Hb : build_std e.
Hypothesis Ha : accurate e.
Hypothesis Hp : (10 <= p <= 18)%N.
Hypothesis Hlo : 6.06 * m_R p <= INR n.
Hypothesis Hhi : INR n <= IZR (2 ^ 59).
Hypothesis HC : plus_program e p n C.

Let y := ratio 64 p n.
Let k := scaled 64 p n.

Lemma cap_59 : INR n <= IZR (2 ^ Z.of_N 64) / 32.
Proof.
  eapply Rle_trans; [exact Hhi|]. change (IZR (2 ^ Z.of_N 64)) with 18446744073709551616.
  change (IZR (2 ^ 59)) with 576460752303423488. lra.
Qed.

Lemma four_59 : 4 * m_R p <= INR n.
Proof. pose proof (m_10 p (proj1 Hp)). lra. Qed.

Lemma program_k : 0.9965 <= k <= 1.0033.
Proof. apply k_bounds; [exact Hp|lia|exact four_59|exact cap_59]. Qed.

Lemma program_count : forall hs, hash_list 64 n hs ->
  0 <= C hs <= IZR (2 ^ 65) /\
  (y hs < 1.106 -> Rabs (C hs - INR n * (k / y hs)) <= / IZR (2 ^ 33) * (INR n * (k / y hs))) /\
  (1.106 <= y hs -> C hs <= 1.01 * INR n).
Proof.
  intros hs HH. destruct (HC hs HH) as (V & ord & h & c & Hv & Hnr & Ho & Ep & SS & Ec & EC).
  destruct (plus_range V e ord h Hb Ha Hv Hnr Ho) as (c1 & E1 & _ & R1 & _).
  destruct (plus_value V e ord h Hb Ha Hv Hnr Ho) as (c2 & E2 & _ & P).
  rewrite Ec in E1, E2. injection E1 as <-. injection E2 as <-. rewrite <- EC in *. rewrite Ep in P.
  pose proof (m_10 p (proj1 Hp)) as M. pose proof program_k as KB. pose proof (y_pos 64 p n Hp ltac:(lia) ltac:(lra) hs HH) as Y. fold (y hs) in Y.
  pose proof (file_of_ok 64 p hs ltac:(lia) (proj2 HH)) as RF0.
  pose proof (register_file_same 64 p hs (hist_hashes h) _ (fun x => iff_sym (SS x)) RF0) as RF.
  pose proof (raw_y 64 p n Hp ltac:(lia) ltac:(lra) hs HH) as RY. fold k (y hs) in RY. set (l := file_of 64 p hs) in *.
  assert (Q0 : 0 < k / y hs) by (apply Rdiv_lt_0_compat; lra).
  split; [exact R1|]. split.
  - intros YS. assert (Q : 0.9 <= k / y hs) by (apply div_ge; nra).
    assert (O : 5 * m_R p * (1 + / IZR (2 ^ 32)) <= raw_R p l).
    { rewrite RY. change (IZR (2 ^ 32)) with 4294967296. nra. }
    pose proof (plus_over _ _ p _ _ _ ltac:(lia) RF O P) as AP. unfold approx in AP.
    rewrite RY, (Rabs_pos_eq (INR n * (k / y hs))) in AP by (apply Rmult_le_pos; lra). exact AP.
  - intros YS. assert (Q : k / y hs <= 0.908) by (apply div_le; nra).
    destruct (Rle_or_lt (5 * m_R p * (1 + / IZR (2 ^ 32))) (raw_R p l)) as [O|O].
    + pose proof (plus_over _ _ p _ _ _ ltac:(lia) RF O P) as AP. unfold approx in AP.
      rewrite RY, (Rabs_pos_eq (INR n * (k / y hs))) in AP by (apply Rmult_le_pos; lra). apply Rabs_le_inv in AP.
      change (IZR (2 ^ 33)) with 8589934592 in AP. assert (INR n * (k / y hs) <= INR n * 0.908) by (apply Rmult_le_compat_l; lra). lra.
    + pose proof (plus_cap p _ l (C hs) Hp RF ltac:(lra) P). lra.
Qed.

Lemma huge : (IZR (2 ^ 65) / INR n) ^ 2 <= IZR (2 ^ 105).
Proof.
  pose proof (m_10 p (proj1 Hp)) as M. assert (N0 : 6205 <= INR n) by lra.
  assert (B : 0 < IZR (2 ^ 65) / INR n) by (apply Rdiv_lt_0_compat; [now apply IZR_lt|lra]).
  assert (U : IZR (2 ^ 65) / INR n <= IZR (2 ^ 65) / 6205).
  { apply Rmult_le_compat_l; [now apply IZR_le|]. apply Rinv_le_contravar; lra. }
  apply Rle_trans with ((IZR (2 ^ 65) / 6205) ^ 2); [apply pow_incr; lra|].
  change (IZR (2 ^ 65)) with 36893488147419103232. change (IZR (2 ^ 105)) with 40564819207303340847894502572032. lra.
Qed.

Lemma plus_follows : forall d, 0 < d <= / 10 -> follows 64 p n d C 1.01 4.02 (IZR (2 ^ 65) / INR n).
Proof.
  intros d Hd hs HH. destruct (program_count hs HH) as (R & N1 & N2). pose proof program_k as KB.
  pose proof (m_10 p (proj1 Hp)) as M. pose proof (y_pos 64 p n Hp ltac:(lia) ltac:(lra) hs HH) as Y.
  fold (y hs) in Y |- *. fold k.
  split; [lra|]. split; [exact N2|]. split; [|split].
  - intros L. specialize (N1 ltac:(lra)). apply Rabs_le_inv in N1. change (IZR (2 ^ 33)) with 8589934592 in N1.
    assert (Q : k / y hs <= 4.0132) by (apply div_le; lra).
    assert (INR n * (k / y hs) <= INR n * 4.0132) by (apply Rmult_le_compat_l; lra). lra.
  - intros _. unfold Rdiv. rewrite Rmult_assoc, Rinv_l by lra. lra.
  - intros L. apply N1. lra.
Qed.

Lemma plus_under : forall d hs, hash_list 64 n hs -> y hs < 1.106 ->
  0.9964 * / y hs <= C hs / INR n \/ 2 <= 0 /\ y hs <= 1 - d.
Proof.
  intros d hs HH L. left. destruct (program_count hs HH) as (_ & N1 & _). specialize (N1 L). pose proof program_k as KB.
  pose proof (m_10 p (proj1 Hp)) as M. pose proof (y_pos 64 p n Hp ltac:(lia) ltac:(lra) hs HH) as Y. fold (y hs) in Y.
  apply Rabs_le_inv in N1. change (IZR (2 ^ 33)) with 8589934592 in N1. set (z := y hs) in *.
  assert (F1 : 0 < / z) by (apply Rinv_0_lt_compat; lra).
  apply div_ge; [lra|]. apply Rle_trans with (INR n * (k / z) - / 8589934592 * (INR n * (k / z))); [|lra].
  replace (INR n * (k / z) - / 8589934592 * (INR n * (k / z))) with (INR n * ((k - / 8589934592 * k) * / z)) by (unfold Rdiv; ring).
  rewrite (Rmult_comm _ (INR n)). apply Rmult_le_compat_l; [lra|]. apply Rmult_le_compat_r; lra.
Qed.
End Program.

Theorem square_plus : forall e p n C, build_std e -> accurate e -> (10 <= p <= 18)%N ->
  6.06 * m_R p <= INR n -> INR n <= IZR (2 ^ 59) -> plus_program e p n C ->
  forall all, enumerates (hash_list 64 n) all -> forall t, 0 < t <= / 10 ->
  rsum (fun hs => (C hs / INR n - 1) ^ 2) all
  <= (((0.004 + 1.05 / sqrt (m_R p)) / (1 - t)) ^ 2 + 13 * exp (- (m_R p * t ^ 2 / 4.3))) * INR (length all).
Proof.
  intros e p n C Hb Ha Hp Hlo Hhi HC all HE t Ht.
  eapply Rle_trans.
  - apply (mean_square 64 p n Hp ltac:(lia) (four_59 p n Hp Hlo) (cap_59 n Hhi) all HE t Ht C 1.01 4.02 (IZR (2 ^ 65) / INR n)) with (bh := 1) (bl := 9.2);
      [now apply (plus_follows e p n C)|now apply (huge p n)|lra|lra|lra].
  - apply Rmult_le_compat_r; [apply pos_INR|]. apply Rplus_le_compat_l.
    pose proof (exp_pos (- (m_R p * t ^ 2 / 4.3))). lra.
Qed.

Theorem mean_both : forall e p n C, build_std e -> accurate e -> (10 <= p <= 18)%N ->
  6.06 * m_R p <= INR n -> INR n <= IZR (2 ^ 59) -> plus_program e p n C ->
  forall all, enumerates (hash_list 64 n) all ->
  INR n * (0.9964 - 2 * exp (- (m_R p / 430))) * INR (length all) <= rsum C all /\
  rsum C all <= INR n * (1.0034 + 1.23 / m_R p + 8 * exp (- (m_R p / 430))) * INR (length all).
Proof.
  intros e p n C Hb Ha Hp Hlo Hhi HC all HE. pose proof (m_10 p (proj1 Hp)) as M.
  assert (D : 0 < / 10 <= / 10) by lra.
  pose proof (mean_lower 64 p n Hp ltac:(lia) (four_59 p n Hp Hlo) (cap_59 n Hhi) all HE (/ 10) D C 1.01 4.02 _ 0
    (plus_follows e p n C Hb Ha Hp Hlo Hhi HC _ D) (plus_under e p n C Hb Ha Hp Hlo Hhi HC (/ 10)) (Rle_refl 0)) as L.
  pose proof (mean_upper 64 p n Hp ltac:(lia) (four_59 p n Hp Hlo) (cap_59 n Hhi) all HE (/ 10) D C 1.01 4.02 _
    (plus_follows e p n C Hb Ha Hp Hlo Hhi HC _ D) (huge p n Hp Hlo) ltac:(lra)) as U.
  replace (m_R p * (/ 10) ^ 2 / 4.3) with (m_R p / 430) in L, U by lra.
  pose proof (exp_pos (- (m_R p / 430))) as EP. split; [replace 2 with (2 + 0) at 1 by lra; exact L|].
  eapply Rle_trans; [exact U|]. apply Rmult_le_compat_r; [apply pos_INR|]. apply Rmult_le_compat_l; [apply pos_INR|].
  replace (1.1025 / (m_R p * (1 - / 10))) with (1.225 * / m_R p) 
    by (replace (1 - / 10) with 0.9 by lra; unfold Rdiv; rewrite Rinv_mult; lra).
  assert (0 < / m_R p) by (apply Rinv_0_lt_compat; lra). unfold Rdiv. lra.
Qed.

(** ** Programs exist *)
Fixpoint inserts (p : N) (hs : list N) : hist N :=
  match hs with
  | [] => HNew p (fun x => x)
  | x :: hs => HInsert Insert (fun l => l) (inserts p hs) x
  end.

Lemma inserts_ok : forall p hs w, (4 <= p <= 18)%N -> (2 * p < w)%N -> Forall (fun x => x < 2 ^ 64)%N hs ->
  valid MAX_PLUS (inserts p hs) /\ narrow w (inserts p hs) /\ hist_precision (inserts p hs) = p /\ hist_hashes (inserts p hs) = hs.
Proof.
  intros p hs w Hp Hw F. split; [|split; [|split]].
  - clear - Hp. induction hs as [|x hs IH]; [exact Hp|]. split; [intros l; apply Permutation_refl|exact IH].
  - clear - Hw. induction hs as [|x hs IH]; [exact Hw|exact IH].
  - clear. induction hs as [|x hs IH]; [reflexivity|exact IH].
  - clear - F. induction F as [|x hs Hx F IH]; [reflexivity|]. cbn [inserts hist_hashes]. rewrite IH. f_equal.
    assert (B : hist_builder (inserts p hs) = (fun x => x)) by (clear; induction hs as [|z hs IH]; [reflexivity|exact IH]).
    unfold hash64. rewrite B. apply N.mod_small. exact Hx.
Qed.

Theorem program_exists : forall e p n, build_std e -> accurate e -> (4 <= p <= 18)%N -> (2 * p < usize_bits e)%N ->
  exists C, plus_program e p n C.
Proof.
  intros e p n Hb Ha Hp Hw.
  exists (fun hs => match count_plus e (fun l => l) (inserts p hs) with Ret c => B2R c | _ => 0 end).
  intros hs [_ F]. exists N, (fun l => l), (inserts p hs).
  assert (O : is_order (fun l => l)) by (intros l; apply Permutation_refl).
  destruct (inserts_ok p hs _ Hp Hw F) as (V & W & P & HH).
  destruct (plus_finite N e (fun l => l) (inserts p hs) Hb Ha V W O) as (c & E & _).
  exists c. rewrite E, HH. repeat split; auto.
Qed.

Lemma exp_24 : exp (- (262144 * (/ 50) ^ 2 / 4.3)) <= / 1000000000.
Proof.
  apply Rle_trans with (exp (- (INR 100 * 0.24))).
  - apply exp_le. rewrite INR_IZR_INZ. simpl (Z.of_nat 100). lra.
  - rewrite exp_Ropp, <- exp_pow. pose proof (exp_ineq1_le 0.24) as E.
    apply Rinv_le_contravar; [lra|]. apply Rle_trans with (1.24 ^ 100); [lra|]. apply pow_incr. lra.
Qed.
