(** * Every entry of the bias tables against the theory *)
From Coq Require Import NArith ZArith Reals List Bool Lia Lra.
From Flocq Require Import Core BinarySingleNaN.
From Verif Require Import ModelRust ModelF64 ModelEnv ModelCommon ModelConstants ModelPlus Spec SpecReal SpecDist
  SpecProb SpecBuild BitFacts F64Facts DistFacts ProbFacts MomentFacts RawFacts BiasTables BiasFacts BiasMono HarmonicNum HarmonicMean
  AccFacts MeanTable BiasCheck BiasSound AccMid SpecTable.
Import ListNotations.

Local Open Scope Z_scope.
(** [alpha] as a fraction. *)
Definition al_num (p : N) : Z :=
  if (p =? 4)%N then 673 else if (p =? 5)%N then 697 else if (p =? 6)%N then 709 else 7213 * 2 ^ Z.of_N p.
Definition al_den (p : N) : Z := if (p <=? 6)%N then 1000 else 10000 * 2 ^ Z.of_N p + 10790.

(** The tolerance, in thousandths. *)
Definition tol (p : N) : Z :=
  if (10 <=? p)%N then 3 else if (p =? 9)%N then 5 else if (p =? 8)%N then 8 else if (p =? 7)%N then 18
  else if (p =? 6)%N then 28 else if (p =? 5)%N then 48 else 80.

(** The cardinality of an entry [(u, v)]. *)
Definition card_of (p : N) (v : Z) : Z := (v + 2 ^ (55 - Z.of_N p)) / 2 ^ (56 - Z.of_N p).

Definition entry_check (p : N) (a : Z * Z) : bool :=
  let '(u, v) := a in let n := card_of p v in
  let i := n * 2 ^ (18 - Z.of_N p) in let j := i + (i / 2 ^ Z.of_N p + 1) in
  let a1 := a_up i in let a0 := a_lo j in
  (0 <=? n) && (Z.abs (v - n * 2 ^ (56 - Z.of_N p)) <? 2 ^ (46 - Z.of_N p)) && (0 <=? x_lo j) && (0 <? a0) &&
  (1000 * (al_num p * 2 ^ 133) <=? (1000 + tol p) * u * (al_den p * a0)) &&
  ((1000 - tol p) * u * (al_den p * a1) <=? 1000 * (al_num p * 2 ^ 133)).

Definition entries_check (p : N) : bool :=
  match points p (est_table p) (bias_table p) with
  | Some l => forallb (entry_check p) l
  | None => false
  end.

Lemma all_entries : forallb entries_check precisions = true.
Proof. vm_cast_no_check (eq_refl true). Qed.

Local Open Scope R_scope.
Lemma alpha_al : forall p, (4 <= p)%N -> (0 < al_den p)%Z /\ (0 < al_num p)%Z /\ alpha_R p = IZR (al_num p) / IZR (al_den p).
Proof.
  intros p Hp. unfold al_num, al_den, alpha_R.
  destruct (N.eqb_spec p 4) as [->|N4]; [cbn; split; [lia|]; split; [lia|lra]|].
  destruct (N.eqb_spec p 5) as [->|N5]; [cbn; split; [lia|]; split; [lia|lra]|].
  destruct (N.eqb_spec p 6) as [->|N6]; [cbn; split; [lia|]; split; [lia|lra]|].
  destruct (N.leb_spec p 6); [lia|]. assert (P : (0 < 2 ^ Z.of_N p)%Z) by (apply Z.pow_pos_nonneg; lia).
  split; [lia|]. split; [lia|]. rewrite plus_IZR, !mult_IZR. fold (m_R p). apply IZR_lt in P. fold (m_R p) in P. change (IZR 0) with 0 in P.
  replace 0.7213 with (7213 / 10000) by lra. replace 1.079 with (1079 / 1000) by lra. field. lra.
Qed.

Lemma entry_arith : forall m B K a0 a1 an ad mu t x, 0 < m -> 0 < B -> 0 < K -> 0 < ad -> 0 < an -> 0 < a0 -> 0 < mu -> 0 <= t <= 100 -> 0 < x ->
  mu <= a1 / K -> a0 / K <= mu ->
  1000 * (an * (B * K)) <= (1000 + t) * (x * (B / m)) * (ad * a0) ->
  (1000 - t) * (x * (B / m)) * (ad * a1) <= 1000 * (an * (B * K)) ->
  (1000 - t) * x <= 1000 * (an / ad * m / mu) <= (1000 + t) * x.
Proof.
  intros m B K a0 a1 an ad mu t x M F T AD AN A0' MU T0 X0 U1 L1 C1 C2.
  assert (U2 : mu * K <= a1).
  { apply Rmult_le_reg_r with (/ K); [now apply Rinv_0_lt_compat|]. rewrite Rmult_assoc, Rinv_r by lra. unfold Rdiv in U1. lra. }
  assert (L2 : a0 <= mu * K).
  { apply Rmult_le_reg_r with (/ K); [now apply Rinv_0_lt_compat|]. rewrite Rmult_assoc, Rinv_r by lra. unfold Rdiv in L1. lra. }
  split.
  - apply Rmult_le_reg_r with (ad * mu * K * B / m); [repeat apply Rmult_lt_0_compat; auto; now apply Rinv_0_lt_compat|].
    replace (1000 * (an / ad * m / mu) * (ad * mu * K * B / m)) with (1000 * (an * (B * K))) by (field; lra).
    eapply Rle_trans; [|exact C2].
    replace ((1000 - t) * (x * (B / m)) * (ad * a1)) with ((1000 - t) * x * (ad * B / m) * a1) by (field; lra).
    replace ((1000 - t) * x * (ad * mu * K * B / m)) with ((1000 - t) * x * (ad * B / m) * (mu * K)) by (field; lra).
    apply Rmult_le_compat_l; [|exact U2].
    apply Rmult_le_pos; [apply Rmult_le_pos; lra|]. left. apply Rdiv_lt_0_compat; [nra|exact M].
  - apply Rmult_le_reg_r with (ad * mu * K * B / m); [repeat apply Rmult_lt_0_compat; auto; now apply Rinv_0_lt_compat|].
    replace (1000 * (an / ad * m / mu) * (ad * mu * K * B / m)) with (1000 * (an * (B * K))) by (field; lra).
    eapply Rle_trans; [exact C1|].
    replace ((1000 + t) * (x * (B / m)) * (ad * a0)) with ((1000 + t) * x * (ad * B / m) * a0) by (field; lra).
    replace ((1000 + t) * x * (ad * mu * K * B / m)) with ((1000 + t) * x * (ad * B / m) * (mu * K)) by (field; lra).
    apply Rmult_le_compat_l; [|exact L2].
    apply Rmult_le_pos; [apply Rmult_le_pos; lra|]. left. apply Rdiv_lt_0_compat; [nra|exact M].
Qed.

Section Entry.
Variable p : N.
Hypothesis Hp : (4 <= p <= 18)%N.
Variable x y : R.
Variable u v : Z.
Hypothesis HP : point p x y (u, v).
Variable n i j : Z.
Hypothesis Hn : n = card_of p v.
Hypothesis Hi : i = (n * 2 ^ (18 - Z.of_N p))%Z.
Hypothesis Hj : j = (i + (i / 2 ^ Z.of_N p + 1))%Z.

Lemma entry_parts : entry_check p (u, v) = true ->
  (0 <= n)%Z /\ (Z.abs (v - n * 2 ^ (56 - Z.of_N p)) < 2 ^ (46 - Z.of_N p))%Z /\ (0 <= x_lo j)%Z /\ (0 < a_lo j)%Z /\
  (1000 * (al_num p * 2 ^ 133) <= (1000 + tol p) * u * (al_den p * a_lo j))%Z /\
  ((1000 - tol p) * u * (al_den p * a_up i) <= 1000 * (al_num p * 2 ^ 133))%Z.
Proof.
  intros H. unfold entry_check in H. cbv zeta in H. rewrite <- Hn, <- Hi, <- Hj in H.
  generalize dependent (a_up i). generalize dependent (a_lo j). generalize dependent (x_lo j). intros X A0 A1 H.
  apply andb_true_iff in H. destruct H as [H H6]. apply andb_true_iff in H. destruct H as [H H5].
  apply andb_true_iff in H. destruct H as [H H4]. apply andb_true_iff in H. destruct H as [H H3].
  apply andb_true_iff in H. destruct H as [H1 H2].
  apply Z.leb_le in H1, H3, H5, H6. apply Z.ltb_lt in H2, H4. auto 10.
Qed.

Lemma entry_card : entry_check p (u, v) = true -> Rabs (x - y - IZR n) <= 0.001.
Proof.
  intros H. destruct (entry_parts H) as (_ & D & _). destruct HP as [_ [V1 V2]]. cbn [snd] in V1, V2.
  set (k := (46 - Z.of_N p)%Z) in *. assert (K : (28 <= k)%Z) by (unfold k; lia).
  replace (56 - Z.of_N p)%Z with (k + 10)%Z in D by (unfold k; lia).
  assert (S : scale p = IZR (2 ^ k) * 1024).
  { unfold scale. replace (56 - Z.of_N p)%Z with (k + 10)%Z by (unfold k; lia). rewrite bpow_plus, <- (IZR_Zpower radix2 k) by lia.
    reflexivity. }
  rewrite S in V1, V2. rewrite Z.pow_add_r in D by lia. change (2 ^ 10)%Z with 1024%Z in D.
  assert (K2 : 268435456 <= IZR (2 ^ k)).
  { apply IZR_le. change 268435456%Z with (2 ^ 28)%Z. apply Z.pow_le_mono_r; lia. }
  apply IZR_lt in D. rewrite abs_IZR, minus_IZR, !mult_IZR in D. apply Rabs_lt_inv in D.
  set (A := IZR (2 ^ k)) in *. set (N := IZR n) in *. set (w := IZR v) in *. clearbody A N w. clear H HP S.
  apply Rabs_le. split.
  - apply Rmult_le_reg_r with (A * 1024); [lra|]. nra.
  - apply Rmult_le_reg_r with (A * 1024); [lra|]. nra.
Qed.

Lemma entry_pos : entry_check p (u, v) = true -> 0 < x.
Proof.
  intros H. destruct (entry_parts H) as (N0 & _ & XL & A0 & C1 & C2).
  destruct (alpha_al p (proj1 Hp)) as (AD & AN & _).
  assert (T0 : (0 <= tol p)%Z) by (unfold tol; repeat match goal with |- context [if ?b then _ else _] => destruct b end; lia).
  assert (U0 : (0 < u)%Z).
  { apply Z.nle_gt. intros C. 
    assert (0 < al_num p * 2 ^ 133)%Z by (apply Z.mul_pos_pos; [exact AN|reflexivity]).
    assert (0 < al_den p * a_lo j)%Z by (now apply Z.mul_pos_pos).
    generalize dependent (al_num p * 2 ^ 133)%Z. generalize dependent (al_den p * a_lo j)%Z. intros Q Q0 R C1 R0.
    assert ((1000 + tol p) * u <= 0)%Z by (apply Z.mul_nonneg_nonpos; lia). nia. }
  destruct HP as [PU _]. cbn [fst] in PU. apply IZR_lt in U0. rewrite PU in U0. change (IZR 0) with 0 in U0.
  assert (S : 0 < scale p) by apply bpow_gt_0. apply Rmult_lt_reg_r with (scale p); lra.
Qed.

Lemma entry_mean : entry_check p (u, v) = true -> 0 < x ->
  0 < mean 64 p (Z.to_nat n) inv_pow2 /\
  (1000 - IZR (tol p)) * x <= 1000 * (alpha_R p * m_R p / mean 64 p (Z.to_nat n) inv_pow2) <= (1000 + IZR (tol p)) * x.
Proof.
  intros H X0. destruct (entry_parts H) as (N0 & _ & XL & A0 & C1 & C2).
  destruct (alpha_al p (proj1 Hp)) as (AD & AN & AE).
  assert (P2 : (0 < 2 ^ (18 - Z.of_N p))%Z) by (apply Z.pow_pos_nonneg; lia).
  assert (PP : (0 < 2 ^ Z.of_N p)%Z) by (apply Z.pow_pos_nonneg; lia).
  assert (I0 : (0 <= i)%Z) by (rewrite Hi; nia).
  assert (J0 : (0 <= j)%Z) by (rewrite Hj; assert (0 <= i / 2 ^ Z.of_N p)%Z by (apply Z.div_pos; lia); lia).
  assert (M : 0 < m_R p) by (apply pow2_pos; lia).
  assert (EI : IZR i / 262144 = INR (Z.to_nat n) / m_R p).
  { rewrite INR_IZR_INZ, Z2Nat.id by exact N0. rewrite Hi, mult_IZR.
    replace 262144 with (IZR (2 ^ (18 - Z.of_N p)) * m_R p).
    - apply IZR_lt in P2. change (IZR 0) with 0 in P2. field. lra.
    - unfold m_R. rewrite <- mult_IZR, <- Z.pow_add_r by lia. replace (18 - Z.of_N p + Z.of_N p)%Z with 18%Z by lia. reflexivity. }
  destruct (mean_le 64 p (Z.to_nat n) (proj1 Hp) ltac:(lia) i I0 ltac:(lra)) as [U1 _].
  pose proof (mean_ge 64 p (Z.to_nat n) (proj1 Hp) ltac:(lia) j J0 XL) as L1.
  assert (EJ : INR (Z.to_nat n) / m_R p * (1 + / m_R p) <= IZR j / 262144).
  { rewrite <- EI. rewrite Hj, plus_IZR. pose proof (zdiv_up i (2 ^ Z.of_N p) PP) as Z. fold (m_R p) in Z.
    unfold Rdiv in Z at 1. set (r := / m_R p) in *. set (w := IZR (i / 2 ^ Z.of_N p + 1)) in *. clearbody w r. lra. }
  specialize (L1 EJ). set (mu := mean 64 p (Z.to_nat n) inv_pow2) in *.
  assert (T : 0 < IZR (2 ^ 77)) by now apply IZR_lt.
  assert (A0' : 0 < IZR (a_lo j)) by now apply IZR_lt.
  assert (MU : 0 < mu). { eapply Rlt_le_trans; [|exact L1]. now apply Rdiv_lt_0_compat. }
  split; [exact MU|].
  destruct HP as [PU _]. cbn [fst] in PU.
  apply IZR_le in C1, C2. rewrite !mult_IZR, plus_IZR in C1. rewrite !mult_IZR, minus_IZR in C2.
  change (2 ^ 133)%Z with (2 ^ 56 * 2 ^ 77)%Z in C1, C2. rewrite mult_IZR in C1, C2.
  rewrite PU in C1, C2. pose proof (scale_m p) as SM. unfold U in SM.
  assert (SC : scale p = IZR (2 ^ 56) / m_R p) by (rewrite <- SM; field; lra). rewrite SC in C1, C2.
  apply IZR_lt in AD, AN. change (IZR 0) with 0 in AD, AN. rewrite AE.
  assert (F : 0 < IZR (2 ^ 56)) by now apply IZR_lt.
  set (B := IZR (2 ^ 56)) in *. set (K := IZR (2 ^ 77)) in *. set (m := m_R p) in *.
  set (a0 := IZR (a_lo j)) in *. set (a1 := IZR (a_up i)) in *. set (an := IZR (al_num p)) in *. set (ad := IZR (al_den p)) in *.
  set (t := IZR (tol p)) in *. clear SM SC AE EI EJ PU. clearbody B K m a0 a1 an ad mu.
  assert (T0 : 0 <= t <= 100) by (unfold t, tol; repeat match goal with |- context [if ?b then _ else _] => destruct b end; lra).
  clearbody t.
  exact (entry_arith m B K a0 a1 an ad mu t x M F T AD AN A0' MU T0 X0 U1 L1 C1 C2).
Qed.
End Entry.

(** An entry [(x, y)] of the tables belongs to a cardinality [n = x - y], and [x] is the raw
    estimate of the mean harmonic sum over all lists of [n] hashes. *)
Theorem entries_right : forall p i x y, (4 <= p <= 18)%N ->
  nth_error (est_table p) i = Some x -> nth_error (bias_table p) i = Some y ->
  exists n : nat, Rabs (B2R x - B2R y - INR n) <= 0.001 /\
  forall file all, register_files 64 p n file -> enumerates (hash_list 64 n) all ->
  exists mu, rsum (fun hs => inv_sum (file hs)) all = mu * INR (length all) /\ 0 < mu /\
    (1000 - IZR (tol p)) * B2R x <= 1000 * (alpha_R p * m_R p ^ 2 / mu) <= (1000 + IZR (tol p)) * B2R x.
Proof.
  intros p i x y Hp Hx Hy. pose proof all_entries as T. rewrite forallb_forall in T.
  specialize (T p (precisions_in p (proj1 Hp) (proj2 Hp))). unfold entries_check in T.
  destruct (points p (est_table p) (bias_table p)) as [l|] eqn:Hl; [|discriminate].
  destruct (points_ok _ _ _ _ Hl) as (_ & _ & A). destruct (A i x y Hx Hy) as ([u v] & Ha & P).
  rewrite forallb_forall in T. specialize (T (u, v) (nth_error_In _ _ Ha)).
  pose proof (entry_card p Hp _ _ u v P _ _ _ eq_refl eq_refl eq_refl T) as D.
  pose proof (entry_parts p u v _ _ _ eq_refl eq_refl eq_refl T) as (N0 & _).
  pose proof (entry_pos p Hp _ _ u v P _ _ _ eq_refl eq_refl eq_refl T) as X0.
  destruct (entry_mean p Hp _ _ u v P _ _ _ eq_refl eq_refl eq_refl T X0) as [MU B].
  exists (Z.to_nat (card_of p v)). split; [rewrite INR_IZR_INZ, Z2Nat.id by exact N0; exact D|].
  intros file all F E. exists (m_R p * mean 64 p (Z.to_nat (card_of p v)) inv_pow2).
  assert (M : 0 < m_R p) by (apply pow2_pos; lia).
  pose proof (total_mean 64 p _ file all ltac:(lia) F E inv_pow2) as TM. fold (m_R p) in TM. unfold total in TM.
  set (mu := mean 64 p (Z.to_nat (card_of p v)) inv_pow2) in *. split; [|split].
  - rewrite (rsum_ext _ (fun hs => rsum inv_pow2 (file hs))) by (intros; apply inv_sum_rsum). lra.
  - now apply Rmult_lt_0_compat.
  - replace (alpha_R p * m_R p ^ 2 / (m_R p * mu)) with (alpha_R p * m_R p / mu) by (field; lra). exact B.
Qed.

Theorem tables_right : forall p E B i x y, (4 <= p <= 18)%N ->
  index RAW_ESTIMATE_DATA (p - 4) = Ret E -> index BIAS_DATA (p - 4) = Ret B ->
  nth_error E i = Some x -> nth_error B i = Some y ->
  exists n : nat, Rabs (B2R x - B2R y - INR n) <= 0.001 /\
  forall file all, register_files 64 p n file -> enumerates (hash_list 64 n) all ->
  exists mu, rsum (fun hs => inv_sum (file hs)) all = mu * INR (length all) /\ 0 < mu /\
    B2R x * (1 - tolerance p) <= alpha_R p * m_R p ^ 2 / mu <= B2R x * (1 + tolerance p).
Proof.
  intros p E B i x y Hp HE HB Hx Hy. destruct (tables_index p (proj1 Hp) (proj2 Hp)) as [IE IB].
  rewrite IE in HE. rewrite IB in HB. injection HE as <-. injection HB as <-.
  destruct (entries_right p i x y Hp Hx Hy) as (n & D & A). exists n. split; [exact D|].
  intros file all F N. destruct (A file all F N) as (mu & S & M & L). exists mu. split; [exact S|]. split; [exact M|].
  assert (T : IZR (tol p) = 1000 * tolerance p).
  { assert (C : p = 4%N \/ p = 5%N \/ p = 6%N \/ p = 7%N \/ p = 8%N \/ p = 9%N \/ p = 10%N \/ p = 11%N \/ p = 12%N \/
      p = 13%N \/ p = 14%N \/ p = 15%N \/ p = 16%N \/ p = 17%N \/ p = 18%N) by lia.
    repeat destruct C as [-> | C]; try subst p; cbn; lra. }
  rewrite T in L. generalize dependent (alpha_R p * m_R p ^ 2 / mu). intros z L. lra.
Qed.

(** The second entry at precision 4. *)
Lemma entry_4_1_points : match points 4 (est_table 4) (bias_table 4) with Some l => nth_error l 1 | None => None end =
  Some (52768676833900104, 9007199254740992)%Z.
Proof. vm_cast_no_check (eq_refl (Some (52768676833900104, 9007199254740992)%Z)). Qed.

Lemma entry_4_1 : exists x y, nth_error (est_table 4) 1 = Some x /\ nth_error (bias_table 4) 1 = Some y /\
  Rabs (B2R x - 11.717) < 0.001 /\ Rabs (B2R y - 9.717) < 0.001.
Proof.
  pose proof entry_4_1_points as H. destruct (points 4 (est_table 4) (bias_table 4)) as [l|] eqn:Hl; [|discriminate].
  destruct (points_ok _ _ _ _ Hl) as (L1 & L2 & A).
  assert (L : (1 < length l)%nat) by (apply nth_error_Some; rewrite H; discriminate).
  destruct (nth_error (est_table 4) 1) as [x|] eqn:Hx; [|apply nth_error_None in Hx; lia].
  destruct (nth_error (bias_table 4) 1) as [y|] eqn:Hy; [|apply nth_error_None in Hy; lia].
  destruct (A 1%nat x y Hx Hy) as (a & Ha & P). rewrite H in Ha. injection Ha as <-. destruct P as [P1 P2]. cbn [fst snd] in P1, P2.
  assert (S : scale 4 = 4503599627370496) by reflexivity. rewrite S in P1, P2.
  exists x, y. split; [reflexivity|]. split; [reflexivity|]. fold (val x). fold (val y).
  split; apply Rabs_def1; lra.
Qed.
