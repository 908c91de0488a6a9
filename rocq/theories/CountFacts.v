(** * How many hashes have a given bucket and rank *)
From Coq Require Import NArith ZArith List Bool Lia.
From Verif Require Import ModelRust Spec BitFacts.
Import ListNotations.
Local Open Scope N_scope.

Lemma split_hash : forall B q r, r < B -> (q * B + r) / B = q /\ (q * B + r) mod B = r.
Proof.
  intros B q r H. split.
  - symmetry. apply N.div_unique with r; [auto|lia].
  - symmetry. apply N.mod_unique with q; [auto|lia].
Qed.

Lemma seq_size : forall lo n, has_size (fun x => lo <= x < lo + n) n.
Proof.
  intros lo n. exists (map (fun k => lo + N.of_nat k) (seq 0 (N.to_nat n))). split; [|split].
  - apply FinFun.Injective_map_NoDup; [|apply seq_NoDup]. intros a b H. lia.
  - intros x. rewrite in_map_iff. split.
    + intros (k & <- & H). apply in_seq in H. lia.
    + intros H. exists (N.to_nat (x - lo)). split; [lia|]. apply in_seq. lia.
  - rewrite map_length, seq_length. lia.
Qed.

Lemma has_size_ext : forall (P Q : N -> Prop) n, (forall x, P x <-> Q x) ->
  has_size P n -> has_size Q n.
Proof.
  intros P Q n H (l & A & B & C). exists l. split; [auto|split; [|auto]].
  intros x. rewrite (B x). apply H.
Qed.

Lemma has_size_unique : forall P n n', has_size P n -> has_size P n' -> n = n'.
Proof.
  intros P n n' (l & A & B & <-) (l' & A' & B' & <-).
  assert (incl l l') by (intros x Hx; apply B', B, Hx).
  assert (incl l' l) by (intros x Hx; apply B, B', Hx).
  pose proof (NoDup_incl_length A H). pose proof (NoDup_incl_length A' H0). lia.
Qed.

Lemma rank_iff : forall W p h k, p < W -> 1 <= k <= W - p ->
  rank W p h = k <-> 2 ^ (W - p - k) <= h mod 2 ^ (W - p) < 2 ^ (W - p - k + 1).
Proof.
  intros W p h k Hp Hk. unfold rank. set (r := h mod 2 ^ (W - p)).
  assert (Hr : r < 2 ^ (W - p)) by (apply N.mod_lt, N.pow_nonzero; discriminate).
  cbv zeta. destruct (N.eqb_spec r 0) as [E|E].
  - split; [lia|]. intros [A _]. exfalso. pose proof (N.pow_nonzero 2 (W - p - k)). lia.
  - assert (L : N.log2 r < W - p) by (apply N.log2_lt_pow2; lia).
    split.
    + intros H. destruct (N.log2_spec r) as [A B]; [lia|].
      replace (W - p - k) with (N.log2 r) by lia. rewrite N.add_1_r. auto.
    + intros [A B]. assert (N.log2 r = W - p - k); [|lia].
      apply N.log2_unique; [lia|]. rewrite <- N.add_1_r. auto.
Qed.

Lemma rank_last : forall W p h, p < W ->
  rank W p h = W - p + 1 <-> h mod 2 ^ (W - p) = 0.
Proof.
  intros W p h Hp. unfold rank. cbv zeta. destruct (N.eqb_spec (h mod 2 ^ (W - p)) 0); [tauto|].
  split; [|tauto]. lia.
Qed.

(** The hashes of bucket [i] whose other bits lie in an interval. *)
Lemma bucket_interval : forall W p i lo n, p < W -> i < 2 ^ p -> lo + n <= 2 ^ (W - p) ->
  has_size (fun h => h < 2 ^ W /\ bucket W p h = i /\ lo <= h mod 2 ^ (W - p) < lo + n) n.
Proof.
  intros W p i lo n Hp Hi Hn. set (B := 2 ^ (W - p)) in *.
  assert (EW : 2 ^ W = 2 ^ p * B) by (unfold B; rewrite <- N.pow_add_r; f_equal; lia).
  assert (HB : B <> 0) by (apply N.pow_nonzero; discriminate).
  eapply has_size_ext; [|exact (seq_size (i * B + lo) n)]. intros x. unfold bucket. fold B.
  pose proof (N.div_mod x B HB) as D. pose proof (N.mod_lt x B HB) as L. split.
  - intros H. assert (x = i * B + (x - i * B)) as E by lia.
    destruct (split_hash B i (x - i * B)) as [Q R]; [lia|]. rewrite <- E in Q, R.
    rewrite R, Q. split; [|split; [auto|lia]]. rewrite EW. nia.
  - intros (H1 & H2 & H3). rewrite H2 in D. nia.
Qed.

Theorem rank_distribution : forall W p i, p < W -> i < 2 ^ p ->
  (forall k, 1 <= k <= W - p ->
     has_size (fun h => h < 2 ^ W /\ bucket W p h = i /\ rank W p h = k) (2 ^ (W - p - k))) /\
  has_size (fun h => h < 2 ^ W /\ bucket W p h = i /\ rank W p h = W - p + 1) 1 /\
  has_size (fun h => h < 2 ^ W /\ bucket W p h = i) (2 ^ (W - p)) /\
  (forall h, h < 2 ^ W -> bucket W p h < 2 ^ p /\ 1 <= rank W p h <= W - p + 1).
Proof.
  intros W p i Hp Hi. split; [|split; [|split]].
  - intros k Hk. eapply has_size_ext; [|apply (bucket_interval W p i (2 ^ (W - p - k)) _ Hp Hi)].
    + intros h. cbv beta. rewrite (rank_iff W p h k Hp Hk).
      rewrite N.add_1_r, N.pow_succ_r'. generalize (2 ^ (W - p - k)). intros. split; intros (A & B & C);
        (split; [auto|split; [auto|lia]]).
    + assert (2 ^ (W - p - k + 1) <= 2 ^ (W - p)) by (apply N.pow_le_mono_r; lia).
      rewrite N.add_1_r, N.pow_succ_r' in H. lia.
  - eapply has_size_ext; [|apply (bucket_interval W p i 0 1 Hp Hi)].
    + intros h. cbv beta. rewrite (rank_last W p h Hp).
      generalize (h mod 2 ^ (W - p)). intros x. split; intros (A & B & C);
        (split; [auto|split; [auto|lia]]).
    + pose proof (N.pow_nonzero 2 (W - p)). lia.
  - eapply has_size_ext; [|apply (bucket_interval W p i 0 (2 ^ (W - p)) Hp Hi)]; [|lia].
    intros h. cbv beta. pose proof (N.mod_lt h (2 ^ (W - p)) ltac:(apply N.pow_nonzero; discriminate)).
    revert H. generalize (h mod 2 ^ (W - p)). generalize (2 ^ (W - p)). intros y x H.
    split; intros (A & B); [tauto|]. split; [auto|split; [auto|lia]].
  - intros h Hh. split.
    + unfold bucket. apply N.div_lt_upper_bound; [apply N.pow_nonzero; discriminate|].
      rewrite <- N.pow_add_r. now replace (W - p + p) with W by lia.
    + unfold rank. cbv zeta. destruct (N.eqb_spec (h mod 2 ^ (W - p)) 0); [lia|].
      assert (N.log2 (h mod 2 ^ (W - p)) < W - p); [|lia].
      apply N.log2_lt_pow2; [now apply N.neq_0_lt_0|]. apply N.mod_lt, N.pow_nonzero. discriminate.
Qed.
