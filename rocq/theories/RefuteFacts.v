(** * Witnesses against the properties that do not hold *)
From Coq Require Import NArith ZArith Reals Lra Lia List Bool Sorted String.
From Flocq Require Import Core BinarySingleNaN.
From Verif Require Import ModelRust ModelF64 ModelEnv ModelRegisters ModelEncoding ModelCommon
  ModelPF ModelPlus ModelSerde ModelHistory ModelTests Spec SpecReal SpecCount SpecBuild BitFacts
  RegFacts EncFacts CodeFacts BsFacts PFInv PlusInv NarrowFacts ClaimFloat Witness.
Import ListNotations.
Local Open Scope N_scope.

(** ** 32-bit targets, precision 16 *)

(** One value in each of the 2^16 buckets; of the 64-bit and of the 32-bit hash. *)
Definition full16 : hist N := inserted 16 (fun v => v * 2 ^ 48) Insert keep (range (2 ^ 16)).
Definition full16_pf : hist N := inserted 16 (fun v => v * 2 ^ 16 + 2 ^ 15) Insert keep (range (2 ^ 16)).

Lemma inserted_countable : forall (V : Type) w p (b : V -> N) k ord vs,
  countable w (inserted p b k ord vs) /\ countable_pf w (inserted p b k ord vs).
Proof.
  intros V w p b k ord vs. induction vs as [|v vs IH] using rev_ind; [cbn; auto|].
  rewrite inserted_snoc. exact IH.
Qed.

Lemma in_inserted : forall (V : Type) p (b : V -> N) k ord vs v x, In v vs -> hash64 b v = x ->
  In x (hist_hashes (inserted p b k ord vs)).
Proof.
  intros V p b k ord vs v x Hv <-. pose proof (inserted_spec V p b k ord vs) as (_ & _ & S & _).
  apply S. now apply in_map.
Qed.

Lemma of_inserted : forall (V : Type) p (b : V -> N) k ord vs x,
  In x (hist_hashes (inserted p b k ord vs)) -> exists v, In v vs /\ hash64 b v = x.
Proof.
  intros V p b k ord vs x Hx. pose proof (inserted_spec V p b k ord vs) as (_ & _ & S & _).
  apply S, in_map_iff in Hx. destruct Hx as (v & E & Hv). eauto.
Qed.

Lemma full16_in : forall v, v < 2 ^ 16 -> In (v * 2 ^ 48) (hist_hashes full16).
Proof.
  intros v Hv. unfold full16. apply in_inserted with v; [now apply range_in|].
  unfold hash64. apply N.mod_small. change (2 ^ 48) with 281474976710656.
  change (2 ^ 16) with 65536 in Hv. change (2 ^ 64) with 18446744073709551616. lia.
Qed.

Lemma full16_bucket : forall v, bucket 64 16 (v * 2 ^ 48) = v.
Proof. intros v. unfold bucket. change (64 - 16) with 48. now apply N.div_mul. Qed.

Lemma full16_code : forall v, sparse_code 16 (v * 2 ^ 48) = v * 65536 + rank 64 25 (v * 2 ^ 48) * 2 + 1.
Proof.
  intros v. unfold sparse_code, prefix25.
  replace (v * 2 ^ 48 / 2 ^ 39) with (v * 2 ^ 9).
  2:{ change (2 ^ 48) with (2 ^ 9 * 2 ^ 39). rewrite N.mul_assoc. symmetry. now apply N.div_mul. }
  change (25 - 16) with 9. rewrite N.mod_mul by discriminate. cbn [N.eqb].
  change (2 ^ 9) with 512. change (2 ^ 7) with 128. lia.
Qed.

Lemma range_len : forall n, N.of_nat (List.length (range n)) = n.
Proof. intros n. rewrite range_length. apply N2Nat.id. Qed.

Lemma all16_past : forall H, (forall v, v < 2 ^ 16 -> In (v * 2 ^ 48) H) -> past_linear 16 H.
Proof.
  intros H Hin. split.
  - intros F. destruct (code_list_exists 16 H) as [L HL].
    specialize (F L HL). change (sparse_limit 16) with 52428 in F.
    pose proof (gap_len_length L 0) as G.
    assert (I : incl (map (fun v => sparse_code 16 (v * 2 ^ 48)) (range (2 ^ 16))) L).
    { intros x Hx. apply in_map_iff in Hx. destruct Hx as (v & <- & Hv). apply range_in in Hv.
      apply (proj2 HL). apply in_map_iff. exists (v * 2 ^ 48). split; [auto|]. now apply Hin. }
    pose proof (range_len (2 ^ 16)) as RL. pose proof (range_NoDup (2 ^ 16)) as RN.
    revert I RL RN. generalize (range (2 ^ 16)). intros R I RL RN.
    apply NoDup_incl_length in I.
    + rewrite map_length in I. change (2 ^ 16) with 65536 in RL. lia.
    + apply FinFun.Injective_map_NoDup; [|exact RN].
      intros v v' E. rewrite !full16_code in E.
      pose proof (rank_bounds 64 25 (v * 2 ^ 48) ltac:(discriminate)).
      pose proof (rank_bounds 64 25 (v' * 2 ^ 48) ltac:(discriminate)). lia.
  - intros l RF. left. apply (full_no_zero 64 16 _ l RF); [lia|].
    intros i Hi. exists (i * 2 ^ 48). split; [now apply Hin|apply full16_bucket].
Qed.

Lemma full16_past : past_linear 16 (hist_hashes full16).
Proof. apply all16_past. exact full16_in. Qed.

Lemma full16_valid : valid MAX_PLUS full16.
Proof. apply inserted_valid; [apply keep_order|unfold MAX_PLUS; lia]. Qed.
Lemma full16_pf_valid : valid MAX_PF full16_pf.
Proof. apply inserted_valid; [apply keep_order|unfold MAX_PF; lia]. Qed.
Lemma full16_prec : hist_precision full16 = 16 /\ hist_precision full16_pf = 16.
Proof. split; apply inserted_spec. Qed.

Lemma full16_pf_full : forall i, i < 2 ^ 16 ->
  exists x, In x (hist_hashes full16_pf) /\ bucket 32 16 (x mod 2 ^ 32) = i.
Proof.
  intros i Hi. assert (B : i * 2 ^ 16 + 2 ^ 15 < 2 ^ 32).
  { change (2 ^ 16) with 65536 in *. change (2 ^ 15) with 32768. change (2 ^ 32) with 4294967296. lia. }
  exists (i * 2 ^ 16 + 2 ^ 15). split.
  - unfold full16_pf. apply in_inserted with i; [now apply range_in|].
    unfold hash64. apply N.mod_small. eapply N.lt_trans; [exact B|reflexivity].
  - rewrite N.mod_small by exact B. unfold bucket. change (32 - 16) with 16.
    rewrite N.div_add_l by discriminate. change (2 ^ 15 / 2 ^ 16) with 0. apply N.add_0_r.
Qed.

Lemma spread_below : forall k ord vs, (forall v, In v vs -> v < 2 ^ 16) ->
  below_2_32 16 (hist_hashes (inserted 16 (fun v => v * 2 ^ 16 + 2 ^ 15) k ord vs)).
Proof.
  intros k ord vs Hvs. apply low_ranks_below; [lia|]. intros h Hh.
  destruct (of_inserted _ _ _ _ _ _ _ Hh) as (v & Hv & <-). apply Hvs in Hv. unfold hash64.
  assert (B : v * 2 ^ 16 + 2 ^ 15 < 2 ^ 32).
  { change (2 ^ 16) with 65536 in *. change (2 ^ 15) with 32768. change (2 ^ 32) with 4294967296. lia. }
  rewrite (N.mod_small _ (2 ^ 64)) by (eapply N.lt_trans; [exact B|reflexivity]).
  rewrite N.mod_small by exact B. unfold rank. change (32 - 16) with 16.
  rewrite N.add_comm, N.mod_add by discriminate. vm_compute. discriminate.
Qed.
Lemma full16_pf_below : below_2_32 16 (hist_hashes full16_pf).
Proof. apply spread_below. intros v Hv. now apply range_in. Qed.

(** A 32-bit debug build. *)
Definition small_debug : env :=
  {| usize_bits := 32; overflow_checks := true; feat_std := true; feat_const_loop := true;
     sum_init := nzero; std_ln := model_ln; std_bsearch := bsearch_halving |}.
Lemma small_debug_build : build_std small_debug.
Proof.
  split; [|reflexivity]. split; [cbn; lia|split; [now right|]]. exact bsearch_halving_ok.
Qed.
Lemma small_accurate : accurate small_env.
Proof. intros _. exact (model_ln_accurate true). Qed.
Lemma small_debug_accurate : accurate small_debug.
Proof. intros _. exact (model_ln_accurate true). Qed.
Lemma test_accurate' : accurate test_env.
Proof. intros _. exact (model_ln_accurate true). Qed.
Lemma debug_same : same_platform test_env small_debug.
Proof. split; [|split; [|split]]; reflexivity. Qed.

Lemma full16_countable : forall w, countable w full16 /\ countable_pf w full16_pf.
Proof.
  intros w. split; [exact (proj1 (inserted_countable N w 16 _ Insert keep (range (2 ^ 16))))|].
  exact (proj2 (inserted_countable N w 16 _ Insert keep (range (2 ^ 16)))).
Qed.

Lemma plus_debug_panics : count_plus small_debug keep full16 = Panic.
Proof.
  assert (P := full16_past). rewrite <- (proj1 full16_prec) in P at 1.
  refine (plus_narrow_panics N small_debug keep full16 small_debug_build small_debug_accurate
    full16_valid (proj1 (full16_countable _)) keep_order eq_refl _ P).
  rewrite (proj1 full16_prec). discriminate.
Qed.

Lemma plus_release_negative : exists c, count_plus small_env keep full16 = Ret c /\
  is_finite c = true /\ (B2R c <= -10000)%R.
Proof.
  assert (P := full16_past). rewrite <- (proj1 full16_prec) in P at 1.
  refine (plus_narrow_negative N small_env keep full16 small_build small_accurate
    full16_valid (proj1 (full16_countable _)) keep_order eq_refl _ P).
  rewrite (proj1 full16_prec). discriminate.
Qed.

Lemma pf_debug_panics : count_pf small_debug (HNew 16 pass) = Panic.
Proof.
  refine (pf_narrow_panics N small_debug (HNew 16 pass) (proj1 small_debug_build) _ I eq_refl _);
    [split; discriminate|discriminate].
Qed.

Lemma pf_release_zero : exists c, count_pf small_env full16_pf = Ret c /\
  is_finite c = true /\ B2R c = 0%R.
Proof.
  assert (P := full16_pf_full). rewrite <- (proj2 full16_prec) in P.
  refine (pf_narrow_zero N small_env full16_pf (proj1 small_build) full16_pf_valid
    (proj2 (full16_countable _)) eq_refl _ P).
  rewrite (proj2 full16_prec). discriminate.
Qed.

(** ** Malformed serialized values *)

(** Precision 200. *)
Definition bad_plus : sval :=
  SStruct [("builder"%string, SUnit); ("precision"%string, SInt 200);
    ("counts"%string, STuple [SInt 16; SInt (2 ^ 24); SInt 12]);
    ("tmpset"%string, SSeq []);
    ("sparse"%string, SStruct [("count"%string, SInt 0); ("last"%string, SInt 0);
                               ("buf"%string, SNewtype (SSeq []))]);
    ("registers"%string, SSome (SStruct [("buf"%string, SSeq [SInt 0; SInt 0; SInt 0; SInt 0]);
       ("count"%string, SInt 16); ("zeros"%string, SInt 16)]));
    ("phantom"%string, SUnit)].
(** A truncated varint. *)
Definition bad_sparse : sval :=
  SStruct [("builder"%string, SUnit); ("precision"%string, SInt 10);
    ("counts"%string, STuple [SInt 1024; SInt (2 ^ 24); SInt 819]);
    ("tmpset"%string, SSeq [SInt 5]);
    ("sparse"%string, SStruct [("count"%string, SInt 1); ("last"%string, SInt 0);
                               ("buf"%string, SNewtype (SSeq [SInt 128]))]);
    ("registers"%string, SNone);
    ("phantom"%string, SUnit)].
(** A register count of 2^40. *)
Definition bad_pf : sval :=
  SStruct [("builder"%string, SUnit); ("count"%string, SInt (2 ^ 40));
    ("precision"%string, SInt 4);
    ("registers"%string, SStruct [("buf"%string, SSeq [SInt 0; SInt 0; SInt 0]);
       ("count"%string, SInt 16); ("zeros"%string, SInt 16)]);
    ("phantom"%string, SUnit)].

(** Whether deserialization succeeds and [count] of the result panics. *)
Definition plus_panics (e : env) (v : sval) : bool :=
  match de_plus e de_mix v with
  | Some s => match hp_count e keep s with Panic => true | _ => false end
  | None => false
  end.
Definition pf_panics (e : env) (v : sval) : bool :=
  match de_pf e de_mix v with
  | Some s => match pf_count_est e s with Panic => true | _ => false end
  | None => false
  end.

Lemma plus_panics_spec : forall e v, plus_panics e v = true ->
  exists s, de_plus e de_mix v = Some s /\ hp_count e keep s = Panic.
Proof.
  intros e v H. unfold plus_panics in H. destruct (de_plus e de_mix v) as [s|]; [|discriminate].
  exists s. split; [auto|]. destruct (hp_count e keep s); congruence.
Qed.
Lemma pf_panics_spec : forall e v, pf_panics e v = true ->
  exists s, de_pf e de_mix v = Some s /\ pf_count_est e s = Panic.
Proof.
  intros e v H. unfold pf_panics in H. destruct (de_pf e de_mix v) as [s|]; [|discriminate].
  exists s. split; [auto|]. destruct (pf_count_est e s); congruence.
Qed.

Lemma bad_values : plus_panics test_env bad_plus = true /\ plus_panics small_env bad_plus = true /\
  plus_panics test_env bad_sparse = true /\ plus_panics small_env bad_sparse = true /\
  pf_panics test_env bad_pf = true.
Proof. repeat split; vm_compute; reflexivity. Qed.
