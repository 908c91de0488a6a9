(** * Sparse hash codes *)
From Coq Require Import NArith ZArith List Bool Lia.
From Verif Require Import ModelRust ModelEnv ModelCommon ModelPlus Spec BitFacts.
Import ListNotations.
Local Open Scope N_scope.

Lemma mod_mul_div : forall a b c, b <> 0 -> c <> 0 -> (a mod (b * c)) / b = (a / b) mod c.
Proof.
  intros a b c Hb Hc. rewrite N.mod_mul_r by auto.
  rewrite N.add_comm, N.mul_comm, N.div_add_l by auto.
  rewrite (N.div_small (a mod b)) by (now apply N.mod_lt). lia.
Qed.

Lemma extract_ok : forall e w num hi lo, lo < hi -> hi <= w -> num < 2 ^ w ->
  extract e w num hi lo = Ret ((num / 2 ^ lo) mod 2 ^ (hi - lo)).
Proof.
  intros e w num hi lo Hlo Hhi Hn. unfold extract.
  rewrite usub_ok by auto. rewrite bind_ret. rewrite ushl_ok by lia. rewrite bind_ret.
  rewrite usub_ok by lia. rewrite bind_ret. rewrite usub_ok by lia. rewrite bind_ret.
  rewrite ushr_ok by lia. f_equal.
  rewrite mul_pow2_mod by lia.
  replace (w - (w - hi)) with hi by lia.
  replace (w - (hi - lo)) with ((w - hi) + lo) by lia.
  rewrite N.pow_add_r. rewrite <- N.div_div by auto.
  rewrite N.div_mul by auto.
  rewrite (pow2_split hi lo) by lia. rewrite (N.mul_comm (2 ^ (hi - lo))).
  now apply mod_mul_div.
Qed.

Lemma prefix25_lt : forall h, h < 2 ^ 64 -> prefix25 h < 2 ^ 25.
Proof. intros. unfold prefix25. apply (div_lt_pow2 h 39 64); [lia|auto]. Qed.

Lemma encode_hash_ok : forall e p h, 4 <= p -> p <= 18 -> h < 2 ^ 64 ->
  encode_hash e p h = Ret (sparse_code p h).
Proof.
  intros e p h Hp4 Hp18 Hh. unfold encode_hash, PRIME_PRECISION.
  change (64 - 25) with 39.
  rewrite extract_ok by (auto; lia). rewrite bind_ret.
  rewrite usub_ok by lia. rewrite bind_ret.
  rewrite extract_ok by (auto; lia). rewrite bind_ret.
  change (64 - 39) with 25. change (25 - 1) with 24. fold (prefix25 h).
  pose proof (prefix25_lt h Hh) as Hpre.
  rewrite (N.mod_small (prefix25 h) (2 ^ 25)) by auto.
  unfold sparse_code. replace (64 - p - 39) with (25 - p) by lia.
  destruct (N.eqb_spec (prefix25 h mod 2 ^ (25 - p)) 0) as [E|E].
  - rewrite ushl_ok by lia. rewrite bind_ret. rewrite ushl_ok by lia. rewrite bind_ret.
    rewrite N.mul_1_l. rewrite (N.mod_small (2 ^ 24)) by reflexivity.
    change (2 ^ 24) with (2 ^ (25 - 1)).
    pose proof (leading_zeros_rank 64 25 h ltac:(lia) ltac:(lia) Hh) as Hr.
    pose proof (rank_bounds 64 25 h ltac:(lia)) as Hb.
    rewrite uadd_ok by (rewrite Hr; change (2 ^ 32) with 4294967296; lia).
    rewrite Hr. rewrite bind_ret.
    rewrite ushl_ok by lia. rewrite bind_ret. rewrite ushl_ok by lia. rewrite bind_ret.
    unfold cast. change (2 ^ 1) with 2.
    assert (Hpre' : prefix25 h < 33554432) by exact Hpre.
    rewrite (N.mod_small (prefix25 h)) by (change (2 ^ 32) with 4294967296; lia).
    rewrite (N.mod_small (prefix25 h * 2 ^ 7))
      by (change (2 ^ 7) with 128; change (2 ^ 32) with 4294967296; lia).
    rewrite (N.mod_small (rank 64 25 h * 2)) by (change (2 ^ 32) with 4294967296; lia).
    rewrite <- N.lor_assoc. change (rank 64 25 h * 2) with (rank 64 25 h * 2 ^ 1).
    rewrite (lor_mul_add (rank 64 25 h) 1 1) by reflexivity.
    rewrite lor_mul_add by (change (2 ^ 1) with 2; change (2 ^ 7) with 128; lia).
    f_equal. lia.
  - rewrite ushl_ok by lia. rewrite bind_ret. unfold cast. change (2 ^ 1) with 2.
    assert (Hpre' : prefix25 h < 33554432) by exact Hpre.
    rewrite (N.mod_small (prefix25 h * 2)) by (change (2 ^ 64) with 18446744073709551616; lia).
    rewrite N.mod_small by (change (2 ^ 32) with 4294967296; lia). reflexivity.
Qed.

Lemma sparse_code_lt : forall p h, h < 2 ^ 64 -> sparse_code p h < 2 ^ 32.
Proof.
  intros p h Hh. pose proof (prefix25_lt h Hh) as Hpre. change (2 ^ 25) with 33554432 in Hpre.
  pose proof (rank_bounds 64 25 h ltac:(lia)) as Hb.
  unfold sparse_code. change (2 ^ 32) with 4294967296. change (2 ^ 7) with 128.
  destruct (_ =? 0); lia.
Qed.

Lemma land1 : forall a, N.land a 1 = a mod 2.
Proof. intros. change 1 with (2 ^ 1 - 1). rewrite land_mask. reflexivity. Qed.

(** The rank at precision [p] in terms of the 25-bit prefix. *)
Lemma rank_flagged : forall p h, p <= 25 -> prefix25 h mod 2 ^ (25 - p) = 0 ->
  rank 64 p h = rank 64 25 h + (25 - p).
Proof.
  intros p h Hp E. unfold rank. change (64 - 25) with 39.
  assert (Er : h mod 2 ^ (64 - p) = h mod 2 ^ 39).
  { replace (64 - p) with (39 + (25 - p)) by lia. rewrite N.pow_add_r.
    rewrite N.mod_mul_r by auto. fold (prefix25 h). rewrite E. lia. }
  rewrite Er. pose proof (N.mod_lt h (2 ^ 39) ltac:(discriminate)) as Hl.
  destruct (N.eqb_spec (h mod 2 ^ 39) 0); [lia|].
  assert (N.log2 (h mod 2 ^ 39) < 39) by (apply N.log2_lt_pow2; [nlia|auto]).
  set (l := N.log2 _) in *. clearbody l. lia.
Qed.

Lemma rank_unflagged : forall p h, p <= 25 -> prefix25 h mod 2 ^ (25 - p) <> 0 ->
  rank 64 p h = 25 - p - N.log2 (prefix25 h mod 2 ^ (25 - p)).
Proof.
  intros p h Hp E. unfold rank.
  assert (Er : h mod 2 ^ (64 - p) = prefix25 h mod 2 ^ (25 - p) * 2 ^ 39 + h mod 2 ^ 39).
  { replace (64 - p) with (39 + (25 - p)) by lia. rewrite N.pow_add_r.
    rewrite N.mod_mul_r by auto. fold (prefix25 h). lia. }
  pose proof (N.mod_lt h (2 ^ 39) ltac:(discriminate)) as Hl.
  rewrite Er. rewrite log2_mul_add by auto.
  set (q := prefix25 h mod 2 ^ (25 - p)) in *. clearbody q.
  destruct (N.eqb_spec (q * 2 ^ 39 + h mod 2 ^ 39) 0) as [E0|_].
  - exfalso. apply N.eq_add_0 in E0. destruct E0 as [E0 _]. apply N.eq_mul_0 in E0.
    destruct E0 as [E0|E0]; [auto|discriminate E0].
  - lia.
Qed.

Lemma bucket_prefix : forall p h, p <= 25 -> bucket 64 p h = prefix25 h / 2 ^ (25 - p).
Proof.
  intros p h Hp. unfold bucket, prefix25. rewrite N.div_div by auto.
  rewrite <- N.pow_add_r. do 2 f_equal. lia.
Qed.

Lemma decode_encode : forall e p h, 4 <= p -> p <= 18 -> h < 2 ^ 64 -> 32 <= usize_bits e ->
  decode_hash e p (sparse_code p h) = Ret (rank 64 p h, bucket 64 p h).
Proof.
  intros e p h Hp4 Hp18 Hh Hu.
  pose proof (prefix25_lt h Hh) as Hpre.
  pose proof (sparse_code_lt p h Hh) as Hcl.
  pose proof (rank_bounds 64 25 h ltac:(lia)) as Hb.
  assert (Hbk : bucket 64 p h < 2 ^ usize_bits e).
  { apply N.lt_le_trans with (2 ^ p); [apply bucket_lt; [lia|auto]|apply pow2_le; lia]. }
  unfold decode_hash, code_index, PRIME_PRECISION. rewrite land1.
  unfold sparse_code in *.
  destruct (N.eqb_spec (prefix25 h mod 2 ^ (25 - p)) 0) as [E|E].
  - change (2 ^ 7) with 128 in *.
    assert (Hodd : (prefix25 h * 128 + rank 64 25 h * 2 + 1) mod 2 = 1).
    { replace (prefix25 h * 128 + rank 64 25 h * 2 + 1)
        with (1 + (prefix25 h * 64 + rank 64 25 h) * 2) by lia.
      rewrite N.mod_add by discriminate. reflexivity. }
    rewrite Hodd. simpl (1 =? 1). cbv iota.
    rewrite extract_ok by (auto; lia). rewrite bind_ret.
    rewrite usub_ok by lia. rewrite bind_ret.
    change (7 - 1) with 6. change (2 ^ 1) with 2. change (2 ^ 6) with 64.
    assert (Hz : ((prefix25 h * 128 + rank 64 25 h * 2 + 1) / 2) mod 64 = rank 64 25 h).
    { replace (prefix25 h * 128 + rank 64 25 h * 2 + 1)
        with ((prefix25 h * 64 + rank 64 25 h) * 2 + 1) by lia.
      rewrite N.div_add_l by discriminate. change (1 / 2) with 0. rewrite N.add_0_r.
      rewrite N.add_comm, N.mod_add by discriminate. apply N.mod_small. lia. }
    rewrite Hz. rewrite uadd_ok by (change (2 ^ 32) with 4294967296; lia). rewrite bind_ret.
    rewrite usub_ok by lia. rewrite bind_ret.
    rewrite extract_ok by (auto; lia). rewrite bind_ret.
    rewrite (rank_flagged p) by (auto; lia). do 2 f_equal.
    assert (Hi : (prefix25 h * 128 + rank 64 25 h * 2 + 1) / 2 ^ (32 - p) = bucket 64 p h).
    { rewrite bucket_prefix by lia. replace (32 - p) with (7 + (25 - p)) by lia.
      rewrite N.pow_add_r. rewrite <- N.div_div by auto. f_equal.
      change (2 ^ 7) with 128.
      rewrite <- N.add_assoc. rewrite N.div_add_l by discriminate.
      rewrite N.div_small by lia. lia. }
    rewrite Hi. replace (32 - (32 - p)) with p by lia.
    rewrite N.mod_small by (apply bucket_lt; [lia|auto]).
    unfold cast. now rewrite N.mod_small.
  - assert (Heven : (prefix25 h * 2) mod 2 = 0) by (apply N.mod_mul; discriminate).
    rewrite Heven. simpl (0 =? 1). cbv iota.
    change (32 - 25) with 7. change (25 + 1) with 26.
    rewrite uadd_ok by (change (2 ^ 8) with 256; lia). rewrite bind_ret.
    rewrite usub_ok by lia. rewrite bind_ret. rewrite ushl_ok by lia. rewrite bind_ret.
    set (q := prefix25 h mod 2 ^ (25 - p)) in *.
    assert (Hq : q < 2 ^ (25 - p)) by (apply N.mod_lt; auto).
    assert (Hl : N.log2 q < 25 - p) by (apply N.log2_lt_pow2; [lia|auto]).
    assert (Hlz : leading_zeros 32 ((prefix25 h * 2 * 2 ^ (7 + p - 1)) mod 2 ^ 32) + 1
                  = rank 64 p h).
    { replace (prefix25 h * 2 * 2 ^ (7 + p - 1)) with (prefix25 h * 2 ^ (7 + p)).
      2:{ replace (7 + p) with ((7 + p - 1) + 1) at 1 by lia. rewrite pow2_S. lia. }
      rewrite mul_pow2_mod by lia. replace (32 - (7 + p)) with (25 - p) by lia. fold q.
      unfold leading_zeros. rewrite size_log2' by (pose proof (pow2_pos (7 + p)); nia).
      rewrite <- (N.add_0_r (q * 2 ^ (7 + p))). rewrite log2_mul_add by auto.
      rewrite rank_unflagged by (auto; lia). fold q. lia. }
    pose proof (rank_bounds 64 p h ltac:(lia)) as Hrb.
    rewrite uadd_ok by (rewrite Hlz; change (2 ^ 32) with 4294967296; lia).
    rewrite Hlz. rewrite bind_ret.
    rewrite usub_ok by lia. rewrite bind_ret.
    rewrite uadd_ok by (change (2 ^ 8) with 256; lia). rewrite bind_ret.
    rewrite extract_ok by (auto; lia). rewrite bind_ret. do 2 f_equal.
    assert (Hi : (prefix25 h * 2) / 2 ^ (25 - p + 1) = bucket 64 p h).
    { rewrite bucket_prefix by lia. rewrite pow2_S.
      rewrite (N.mul_comm (prefix25 h)). now rewrite N.div_mul_cancel_l. }
    rewrite Hi. replace (26 - (25 - p + 1)) with p by lia.
    rewrite N.mod_small by (apply bucket_lt; [lia|auto]).
    unfold cast. now rewrite N.mod_small.
Qed.

(** Hashes with the same code have the same bucket and rank. *)
Definition any_env : env :=
  {| usize_bits := 64; overflow_checks := true; feat_std := true; feat_const_loop := true;
     sum_init := ModelF64.pzero; std_ln := fun x => x; std_bsearch := bsearch_early |}.

Lemma sparse_code_inj : forall p h1 h2, 4 <= p -> p <= 18 -> h1 < 2 ^ 64 -> h2 < 2 ^ 64 ->
  sparse_code p h1 = sparse_code p h2 ->
  bucket 64 p h1 = bucket 64 p h2 /\ rank 64 p h1 = rank 64 p h2.
Proof.
  intros p h1 h2 H4 H18 Hh1 Hh2 E.
  pose proof (decode_encode any_env p h1 H4 H18 Hh1 ltac:(compute; discriminate)) as D1.
  pose proof (decode_encode any_env p h2 H4 H18 Hh2 ltac:(compute; discriminate)) as D2.
  rewrite E in D1. rewrite D1 in D2. inv D2. auto.
Qed.
