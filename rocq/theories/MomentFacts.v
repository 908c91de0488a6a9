(** * Expectation and variance of sums over registers *)
From Coq Require Import NArith ZArith Reals List Bool Lia Lra Permutation.
From Verif Require Import ModelRust Spec SpecDist SpecProb BitFacts CountFacts DistFacts ProbFacts.
Import ListNotations.
Local Open Scope R_scope.

(** ** Two registers *)
Lemma high_size : forall W p i k, (p < W -> i < 2 ^ p -> k <= W - p ->
  size_of (fun h => h < 2 ^ W /\ bucket W p h = i /\ k < rank W p h) (2 ^ (W - p - k)))%N.
Proof.
  intros W p i k Hp Hi Hk.
  apply size_of_has. eapply has_size_ext; [|apply (bucket_interval W p i 0 (2 ^ (W - p - k)) Hp Hi)].
  - intros h. cbv beta. rewrite (rank_above W p h k Hp Hk). generalize (2 ^ (W - p - k))%N, (h mod 2 ^ (W - p))%N. intros.
    split; intros (X & Y & Z); (split; [auto|split; [auto|lia]]).
  - assert (2 ^ (W - p - k) <= 2 ^ (W - p))%N by (apply N.pow_le_mono_r; lia). lia.
Qed.

Lemma low2_size : forall W p i j k l, (p < W -> i < 2 ^ p -> j < 2 ^ p -> i <> j -> k <= W - p -> l <= W - p ->
  size_of (fun h => h < 2 ^ W /\ (bucket W p h = i -> rank W p h <= k) /\ (bucket W p h = j -> rank W p h <= l))
          (2 ^ W - 2 ^ (W - p - k) - 2 ^ (W - p - l)))%N.
Proof.
  intros W p i j k l Hp Hi Hj Hij Hk Hl.
  pose proof (low_size W p i k Hp Hi Hk) as A. pose proof (high_size W p j l Hp Hj Hl) as B.
  assert (S : forall x, ((x < 2 ^ W /\ bucket W p x = j /\ l < rank W p x) ->
                x < 2 ^ W /\ (bucket W p x = i -> rank W p x <= k))%N).
  { intros x (X & Y & Z). split; [exact X|]. intros E. congruence. }
  eapply size_of_ext; [|exact (size_diff N N.eq_dec _ _ _ _ A B S)].
  intros h. cbv beta. split.
  - intros [[X Y] Z]. split; [exact X|]. split; [exact Y|]. intros E.
    destruct (N.le_gt_cases (rank W p h) l); [assumption|]. exfalso. apply Z. auto.
  - intros (X & Y & Z). split; [auto|]. intros (_ & E & L). specialize (Z E). lia.
Qed.

Theorem register_distribution2 : forall W p n file i j k l, (
  p < W -> register_files W p n file -> i < 2 ^ p -> j < 2 ^ p -> i <> j -> k <= W - p -> l <= W - p ->
  size_of (fun hs => hash_list W n hs /\
             nth (N.to_nat i) (file hs) 0 <= k /\ nth (N.to_nat j) (file hs) 0 <= l)
          ((2 ^ W - 2 ^ (W - p - k) - 2 ^ (W - p - l)) ^ N.of_nat n))%N.
Proof.
  intros W p n file i j k l Hp F Hi Hj Hij Hk Hl.
  eapply size_of_ext; [|exact (lists_size _ _ n (low2_size W p i j k l Hp Hi Hj Hij Hk Hl))].
  intros hs. cbv beta. unfold hash_list. split.
  - intros [L H]. apply Forall_and_inv in H. destruct H as [H1 H2].
    apply Forall_and_inv in H2. destruct H2 as [H2 H3].
    split; [split; assumption|]. split.
    + apply (register_le W p hs i); auto. apply file_nth; auto. apply F. split; assumption.
    + apply (register_le W p hs j); auto. apply file_nth; auto. apply F. split; assumption.
  - intros [[L H1] [H2 H3]]. split; [exact L|]. apply Forall_and; [exact H1|]. apply Forall_and.
    + apply (register_le W p hs i _ k Hp Hk (file_nth W p hs _ i (F hs (conj L H1)) Hi)), H2.
    + apply (register_le W p hs j _ l Hp Hl (file_nth W p hs _ j (F hs (conj L H1)) Hj)), H3.
Qed.

(** ** As real numbers *)
Definition ind (k v : N) : R := if (v <=? k)%N then 1 else 0.

Lemma ind_sum : forall (A : Type) (f : A -> bool) l,
  rsum (fun x => if f x then 1 else 0) l = INR (length (filter f l)).
Proof.
  induction l; [reflexivity|]. rewrite rsum_cons, IHl. cbn [filter].
  destruct (f a); cbn [length]; rewrite ?S_INR; lra.
Qed.

Lemma rsum_prod : forall (A B : Type) (f : A -> R) (g : B -> R) a b,
  rsum f a * rsum g b = rsum (fun i => rsum (fun j => f i * g j) b) a.
Proof.
  intros A B f g a b. rewrite Rmult_comm, <- rsum_scal. apply rsum_ext. intros i _.
  rewrite Rmult_comm. symmetry. apply rsum_scal.
Qed.

Lemma pow2_pos : forall z, (0 <= z)%Z -> 0 < IZR (2 ^ z).
Proof. intros z Hz. apply IZR_lt. apply Z.pow_pos_nonneg; lia. Qed.

Lemma IZR_pow2_sub : forall a b, (b <= a)%N -> IZR (2 ^ Z.of_N (a - b)) = IZR (2 ^ Z.of_N a) * / IZR (2 ^ Z.of_N b).
Proof.
  intros a b H. pose proof (pow2_pos (Z.of_N b) ltac:(lia)).
  replace (Z.of_N a) with (Z.of_N (a - b) + Z.of_N b)%Z by lia.
  rewrite Z.pow_add_r by lia. rewrite mult_IZR. field. lra.
Qed.

Lemma size_real : forall (A : Type) (P : A -> Prop) (f : A -> bool) (Q : A -> Prop) all n,
  enumerates P all -> size_of Q n -> (forall x, Q x <-> P x /\ f x = true) ->
  rsum (fun x => if f x then 1 else 0) all = IZR (Z.of_N n).
Proof.
  intros A P f Q all n E S H. rewrite ind_sum, INR_IZR_INZ, <- nat_N_Z. do 2 f_equal.
  apply (size_of_unique _ Q); [|exact S]. exists (filter f all). split; [|reflexivity].
  destruct (enum_filter A P f all E) as [N1 H1]. split; [exact N1|]. intros x. now rewrite H1, H.
Qed.

Lemma IZR_pow_N : forall a n, IZR (Z.of_N (a ^ N.of_nat n)) = IZR (Z.of_N a) ^ n.
Proof. intros a n. rewrite N2Z.inj_pow, nat_N_Z, pow_IZR. reflexivity. Qed.

Section Files.
Variables (W p : N) (n : nat) (file : list N -> list N) (all : list (list N)).
Hypothesis Hp : (p < W)%N.
Hypothesis HF : register_files W p n file.
Hypothesis HE : enumerates (hash_list W n) all.

Notation T := (INR (length all)).
Notation reg i hs := (nth (N.to_nat i) (file hs) 0%N).
Notation q k := (/ IZR (2 ^ Z.of_N (p + k))).

Lemma total_pos : 0 < T.
Proof. rewrite (total_R W n all HE). apply pow2_pos. nia. Qed.

Lemma q_nonneg : forall k, 0 < q k.
Proof. intros k. apply Rinv_0_lt_compat, pow2_pos. lia. Qed.

Lemma q_le : forall k, q k <= / IZR (2 ^ Z.of_N p).
Proof.
  intros k. apply Rinv_le_contravar; [apply pow2_pos; lia|]. apply IZR_le. apply Z.pow_le_mono_r; lia.
Qed.

Lemma total_pow : T = IZR (2 ^ Z.of_N W) ^ n.
Proof.
  rewrite (total_R W n all HE), pow_IZR. f_equal. rewrite <- Z.pow_mul_r by lia. reflexivity.
Qed.

Lemma one_below : forall i k, (i < 2 ^ p)%N -> (k <= W - p)%N ->
  rsum (fun hs => ind k (reg i hs)) all = T * below p n k.
Proof.
  intros i k Hi Hk. unfold ind.
  rewrite (size_real _ _ (fun hs => (reg i hs <=? k)%N) _ all _ HE
             (register_distribution W p n file i k Hp HF Hi Hk)).
  2:{ intros hs. now rewrite N.leb_le. }
  rewrite IZR_pow_N, total_pow. unfold below. rewrite <- Rpow_mult_distr. f_equal.
  assert (2 ^ (W - p - k) <= 2 ^ W)%N by (apply N.pow_le_mono_r; lia).
  rewrite N2Z.inj_sub by assumption. rewrite minus_IZR, !N2Z.inj_pow. cbn [Z.of_N].
  replace (W - p - k)%N with (W - (p + k))%N by lia.
  rewrite IZR_pow2_sub by lia. ring.
Qed.

Lemma two_below : forall i j k l, (i < 2 ^ p)%N -> (j < 2 ^ p)%N -> i <> j ->
  (k <= W - p)%N -> (l <= W - p)%N ->
  rsum (fun hs => ind k (reg i hs) * ind l (reg j hs)) all <= T * (below p n k * below p n l).
Proof.
  intros i j k l Hi Hj Hij Hk Hl.
  rewrite (rsum_ext _ (fun hs => if (reg i hs <=? k)%N && (reg j hs <=? l)%N then 1 else 0)).
  2:{ intros hs _. unfold ind. destruct (_ <=? k)%N, (_ <=? l)%N; cbn [andb]; lra. }
  rewrite (size_real _ _ (fun hs => (reg i hs <=? k)%N && (reg j hs <=? l)%N) _ all _ HE
             (register_distribution2 W p n file i j k l Hp HF Hi Hj Hij Hk Hl)).
  2:{ intros hs. now rewrite andb_true_iff, !N.leb_le. }
  rewrite IZR_pow_N, total_pow. unfold below. rewrite <- !Rpow_mult_distr.
  assert (P1 : (1 <= p)%N).
  { destruct (N.eq_dec p 0) as [->|]; [|lia]. cbn in Hi, Hj. lia. }
  assert (A : (2 ^ (W - p - k) <= 2 ^ (W - 1))%N) by (apply N.pow_le_mono_r; lia).
  assert (B : (2 ^ (W - p - l) <= 2 ^ (W - 1))%N) by (apply N.pow_le_mono_r; lia).
  assert (C : (2 ^ W = 2 * 2 ^ (W - 1))%N).
  { rewrite <- N.pow_succ_r'. f_equal. lia. }
  apply pow_incr. split; [apply IZR_le; lia|].
  rewrite !N2Z.inj_sub by lia. rewrite !minus_IZR, !N2Z.inj_pow. cbn [Z.of_N].
  replace (W - p - k)%N with (W - (p + k))%N by lia. replace (W - p - l)%N with (W - (p + l))%N by lia.
  rewrite !IZR_pow2_sub by lia.
  pose proof (pow2_pos (Z.of_N W) ltac:(lia)). pose proof (q_nonneg k). pose proof (q_nonneg l).
  assert (0 <= IZR (2 ^ Z.of_N W) * (q k * q l)) by (apply Rmult_le_pos; [lra|apply Rmult_le_pos; lra]).
  nra.
Qed.

Lemma two_zero : forall i j, (i < 2 ^ p)%N -> (j < 2 ^ p)%N -> i <> j ->
  rsum (fun hs => ind 0 (reg i hs) * ind 0 (reg j hs)) all = T * (1 - 2 / IZR (2 ^ Z.of_N p)) ^ n.
Proof.
  intros i j Hi Hj Hij.
  rewrite (rsum_ext _ (fun hs => if (reg i hs <=? 0)%N && (reg j hs <=? 0)%N then 1 else 0)).
  2:{ intros hs _. unfold ind. destruct (reg i hs <=? 0)%N, (reg j hs <=? 0)%N; cbn [andb]; lra. }
  rewrite (size_real _ _ (fun hs => (reg i hs <=? 0)%N && (reg j hs <=? 0)%N) _ all _ HE
             (register_distribution2 W p n file i j 0 0 Hp HF Hi Hj Hij ltac:(lia) ltac:(lia))).
  2:{ intros hs. now rewrite andb_true_iff, !N.leb_le. }
  rewrite IZR_pow_N, total_pow, <- !Rpow_mult_distr. f_equal. rewrite N.sub_0_r.
  assert (P1 : (1 <= p)%N).
  { destruct (N.eq_dec p 0) as [->|]; [|lia]. cbn in Hi, Hj. lia. }
  assert (A : (2 ^ (W - p) <= 2 ^ (W - 1))%N) by (apply N.pow_le_mono_r; lia).
  assert (C : (2 ^ W = 2 * 2 ^ (W - 1))%N).
  { rewrite <- N.pow_succ_r'. f_equal. lia. }
  rewrite !N2Z.inj_sub by lia. rewrite !minus_IZR, !N2Z.inj_pow. cbn [Z.of_N].
  rewrite !IZR_pow2_sub by lia. pose proof (pow2_pos (Z.of_N p) ltac:(lia)). field. lra.
Qed.

(** ** A decreasing function of the registers *)
Notation K := (W - p + 1)%N.

(** The expected value of [g] at a register. *)
Definition mean (g : N -> R) : R := g K + rsum (fun k => (g k - g (k + 1)%N) * below p n k) (range K).

Lemma telescope : forall (g : N -> R) v d, (v <= d)%N ->
  g v = g d + rsum (fun k => (g k - g (k + 1)%N) * ind k v) (range d).
Proof.
  intros g v d H. remember (N.to_nat (d - v)) as e eqn:E. revert d H E. induction e; intros d H E.
  - assert (v = d) by lia. subst d.
    rewrite (rsum_ext _ (fun _ => 0)), rsum_const; [lra|].
    intros k Hk. apply range_in in Hk. unfold ind. destruct (N.leb_spec v k); [lia|lra].
  - assert (RK : range d = range (d - 1) ++ [(d - 1)%N]).
    { unfold range. replace (N.to_nat d) with (S (N.to_nat (d - 1))) by lia.
      rewrite seq_S, map_app. cbn [map Nat.add]. now rewrite Nnat.N2Nat.id. }
    rewrite RK, rsum_app, (IHe (d - 1)%N) by lia. cbn [rsum fold_right].
    replace (d - 1 + 1)%N with d by lia. unfold ind at 3. destruct (N.leb_spec v (d - 1)); [|lia].
    fold (rsum (fun k => (g k - g (k + 1)%N) * ind k v)). lra.
Qed.

Lemma reg_le : forall i hs, In hs all -> (i < 2 ^ p)%N -> (reg i hs <= K)%N.
Proof.
  intros i hs Hh Hi. apply HE in Hh. pose proof (HF hs Hh) as G.
  pose proof (file_le W p hs _ Hp (proj2 Hh) G) as Le. rewrite Forall_forall in Le. apply Le.
  apply nth_In. destruct G as [L _]. lia.
Qed.

Lemma mean_one : forall g i, (i < 2 ^ p)%N ->
  rsum (fun hs => g (reg i hs)) all = T * mean g.
Proof.
  intros g i Hi.
  rewrite (rsum_ext _ (fun hs => g K + rsum (fun k => (g k - g (k + 1)%N) * ind k (reg i hs)) (range K)))
    by (intros hs Hh; apply telescope, reg_le; auto).
  rewrite rsum_plus, rsum_const, rsum_swap. unfold mean. rewrite Rmult_plus_distr_l. f_equal.
  rewrite <- rsum_scal. apply rsum_ext. intros k Hk. apply range_in in Hk.
  rewrite rsum_scal, one_below by (auto; lia). ring.
Qed.

Definition decreasing (g : N -> R) : Prop := forall k, g (k + 1)%N <= g k.

Lemma mean_two : forall g i j, (i < 2 ^ p)%N -> (j < 2 ^ p)%N -> i <> j -> decreasing g ->
  rsum (fun hs => g (reg i hs) * g (reg j hs)) all <= T * (mean g * mean g).
Proof.
  intros g i j Hi Hj Hij Hg. set (d := fun k => g k - g (k + 1)%N).
  assert (Hd : forall k, 0 <= d k) by (intros k; specialize (Hg k); unfold d; lra).
  set (S := fun v => rsum (fun k => d k * ind k v) (range K)).
  assert (E : forall i hs, (i < 2 ^ p)%N -> In hs all -> g (reg i hs) = g K + S (reg i hs)).
  { intros i' hs Hi' Hh. apply telescope, reg_le; auto. }
  set (B := rsum (fun k => d k * below p n k) (range K)).
  assert (S1 : forall i, (i < 2 ^ p)%N -> rsum (fun hs => S (reg i hs)) all = T * B).
  { intros i' Hi'. unfold S, B. rewrite rsum_swap, <- rsum_scal. apply rsum_ext. intros k Hk.
    apply range_in in Hk. rewrite rsum_scal, one_below by (auto; lia). ring. }
  rewrite (rsum_ext _ (fun hs => g K * g K + (g K * S (reg i hs) + (g K * S (reg j hs) + S (reg i hs) * S (reg j hs)))))
    by (intros hs Hh; rewrite !E by auto; ring).
  rewrite !rsum_plus, rsum_const, !rsum_scal, !S1 by auto.
  assert (S2 : rsum (fun hs => S (reg i hs) * S (reg j hs)) all <= T * (B * B)).
  { rewrite (rsum_ext _ (fun hs => rsum (fun k => rsum (fun l => d k * d l * (ind k (reg i hs) * ind l (reg j hs))) (range K)) (range K))).
    2:{ intros hs _. unfold S at 1. rewrite Rmult_comm, <- rsum_scal. apply rsum_ext. intros k _.
        unfold S. rewrite Rmult_comm, <- rsum_scal. apply rsum_ext. intros l _. ring. }
    rewrite rsum_swap.
    apply Rle_trans with (rsum (fun k => rsum (fun l => d k * d l * (T * (below p n k * below p n l))) (range K)) (range K)).
    - apply rsum_le. intros k Hk. apply range_in in Hk. rewrite rsum_swap. apply rsum_le. intros l Hl.
      apply range_in in Hl. rewrite rsum_scal. apply Rmult_le_compat_l.
      + apply Rmult_le_pos; apply Hd.
      + apply two_below; auto; lia.
    - apply Req_le. unfold B at 1. rewrite (Rmult_comm _ B), <- !rsum_scal. apply rsum_ext. intros k _.
      replace (T * (B * (d k * below p n k))) with (T * (d k * below p n k) * B) by ring. unfold B.
      rewrite <- rsum_scal. apply rsum_ext. intros l _. ring. }
  unfold mean. fold B. change (rsum (fun k => (g k - g (k + 1)%N) * below p n k) (range K)) with B. nra.
Qed.

(** ** The sum over all registers *)
Definition total (g : N -> R) (hs : list N) : R := rsum g (file hs).

Lemma total_regs : forall g hs, In hs all -> total g hs = rsum (fun i => g (reg i hs)) (range (2 ^ p)).
Proof.
  intros g hs Hh. unfold total. apply HE in Hh. destruct (HF hs Hh) as [L _].
  rewrite (nth_range (file hs) (2 ^ p) L) at 1. now rewrite rsum_map.
Qed.

Lemma range_INR : INR (length (range (2 ^ p))) = IZR (2 ^ Z.of_N p).
Proof. rewrite range_length, INR_IZR_INZ, N_nat_Z, N2Z.inj_pow. reflexivity. Qed.

Theorem total_mean : forall g, rsum (total g) all = T * (IZR (2 ^ Z.of_N p) * mean g).
Proof.
  intros g. rewrite (rsum_ext _ (fun hs => rsum (fun i => g (reg i hs)) (range (2 ^ p))))
    by (intros hs Hh; now apply total_regs).
  rewrite rsum_swap, (rsum_ext _ (fun _ => T * mean g)), rsum_const, range_INR; [ring|].
  intros i Hi. apply range_in in Hi. now apply mean_one.
Qed.

(** The second moment, from a bound [c] for the expected product at two registers. *)
Theorem variance_bound : forall g c,
  (forall i j, (i < 2 ^ p)%N -> (j < 2 ^ p)%N -> i <> j ->
     rsum (fun hs => g (reg i hs) * g (reg j hs)) all <= T * c) ->
  rsum (fun hs => (total g hs - IZR (2 ^ Z.of_N p) * mean g) ^ 2) all
  <= T * (IZR (2 ^ Z.of_N p) * (mean (fun v => g v * g v) + (IZR (2 ^ Z.of_N p) - 1) * c
                                - IZR (2 ^ Z.of_N p) * (mean g * mean g))).
Proof.
  intros g c Hc. set (m := IZR (2 ^ Z.of_N p)). set (mu := mean g).
  rewrite (rsum_ext _ (fun hs => total g hs * total g hs + (- 2 * m * mu * total g hs + m * mu * (m * mu))))
    by (intros hs _; ring).
  rewrite !rsum_plus, rsum_const, rsum_scal, total_mean. fold m mu.
  enough (rsum (fun hs => total g hs * total g hs) all <= T * (m * mean (fun v => g v * g v) + m * (m - 1) * c)) by nra.
  rewrite (rsum_ext _ (fun hs => rsum (fun i => rsum (fun j => g (reg i hs) * g (reg j hs)) (range (2 ^ p))) (range (2 ^ p)))).
  2:{ intros hs Hh. rewrite !total_regs by exact Hh. apply rsum_prod. }
  rewrite rsum_swap.
  apply Rle_trans with (rsum (fun _ => T * mean (fun v => g v * g v) + (m - 1) * (T * c)) (range (2 ^ p))).
  2:{ rewrite rsum_const, range_INR. fold m. apply Req_le. ring. }
  apply rsum_le. intros i Hi. rewrite rsum_swap.
  destruct (in_split i (range (2 ^ p)) Hi) as (a & b & Eab).
  assert (D := range_NoDup (2 ^ p)). rewrite Eab in D |- *. apply NoDup_remove in D. destruct D as [_ D].
  assert (In' : forall j, In j a \/ In j b -> (j < 2 ^ p)%N /\ i <> j).
  { intros j Hj. split.
    - apply range_in. rewrite Eab. rewrite in_app_iff. cbn [In]. tauto.
    - intros <-. apply D. now rewrite in_app_iff. }
  assert (Hi' : (i < 2 ^ p)%N) by now apply range_in.
  assert (L : m - 1 = INR (length a) + INR (length b)).
  { assert (Hl : INR (length (range (2 ^ p))) = m) by apply range_INR. rewrite Eab, app_length in Hl.
    cbn [length] in Hl. rewrite plus_INR, S_INR in Hl. lra. }
  rewrite rsum_app, rsum_cons, L.
  assert (X : forall l, (forall j, In j l -> (j < 2 ^ p)%N /\ i <> j) ->
    rsum (fun j => rsum (fun hs => g (reg i hs) * g (reg j hs)) all) l <= INR (length l) * (T * c)).
  { intros l Hl. rewrite <- rsum_const. apply rsum_le. intros j Hj. destruct (Hl j Hj).
    apply Hc; auto. }
  pose proof (X a (fun j H => In' j (or_introl H))). pose proof (X b (fun j H => In' j (or_intror H))).
  rewrite (mean_one (fun v => g v * g v) i Hi'). lra.
Qed.

Theorem total_variance : forall g, decreasing g ->
  rsum (fun hs => (total g hs - IZR (2 ^ Z.of_N p) * mean g) ^ 2) all
  <= T * (IZR (2 ^ Z.of_N p) * (mean (fun v => g v * g v) - mean g * mean g)).
Proof.
  intros g Hg. eapply Rle_trans; [apply (variance_bound g (mean g * mean g)); intros; now apply mean_two|].
  apply Req_le. ring.
Qed.

Theorem total_rare : forall g t, decreasing g -> 0 < t ->
  rare W n (IZR (2 ^ Z.of_N p) * (mean (fun v => g v * g v) - mean g * mean g) / t ^ 2)
    (fun hs => t <= Rabs (rsum g (file hs) - IZR (2 ^ Z.of_N p) * mean g)).
Proof.
  intros g t Hg Ht.
  apply (chebyshev W n all (total g)); [exact HE|exact Ht|].
  rewrite (Rmult_comm _ T). now apply total_variance.
Qed.
End Files.
