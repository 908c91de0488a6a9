(** * When the pending set is flushed *)
From Coq Require Import NArith List Bool Lia Permutation Sorted.
From Verif Require Import ModelRust ModelF64 ModelEnv ModelRegisters ModelEncoding ModelCommon ModelPlus ModelHistory
  Spec SpecBuild SpecFlush BitFacts RegFacts EncFacts CodeFacts MergeFacts PFInv PlusInv WideFacts.
Import ListNotations.
Local Open Scope N_scope.

Lemma size_len : forall T P n, NoDup T -> (forall c, In c T <-> P c) -> has_size P n -> len T = n.
Proof.
  intros T P n ND HT (l & NDl & Hl & <-). rewrite len_length. f_equal.
  apply Permutation_length, NoDup_Permutation; auto. intros x. rewrite HT. symmetry. apply Hl.
Qed.

Lemma flush_exact : forall (V : Type) e ord p (b : V -> N) H s,
  32 <= usize_bits e -> 4 <= p <= 18 -> is_order ord -> header p b s ->
  Forall (fun h => h < 2 ^ 64) H ->
  hp_registers s = None -> sparse_holds p H (hp_tmpset s) (hp_sparse s) ->
  len (hp_tmpset s) <= 300000 ->
  exists s', flush_if_full e ord s = Ret s' /\
    (100 * len (hp_tmpset s) <= sparse_limit p -> s' = s) /\
    (sparse_limit p < 100 * len (hp_tmpset s) -> hp_tmpset s' = []).
Proof.
  intros V e ord p b H s He Hp Ho Hh HF Hr Hs Hl. unfold flush_if_full, hset_len.
  rewrite umul_ok, bind_ret.
  2:{ eapply N.lt_le_trans; [|apply (pow2_le 32); auto]. change (2 ^ 32) with 4294967296. lia. }
  pose proof Hh as (_ & _ & _ & _ & C2). rewrite C2.
  destruct (N.ltb_spec (sparse_limit p) (len (hp_tmpset s) * 100)) as [Hlt|Hle].
  - destruct (merge_sparse_ok V e ord p b H s He Hp Ho Hh HF Hr Hs) as (s' & E & Hh' & Hf & _).
    exists s'. split; [auto|]. split; [lia|auto].
  - exists s. split; [auto|]. split; [auto|lia].
Qed.

Lemma insert_flush : forall (V : Type) e k ord (h : hist V) v s n,
  build_std e -> valid MAX_PLUS (HInsert k ord h v) ->
  run_plus e h = Ret s -> hp_registers s = None ->
  let code := sparse_code (hist_precision h) (hash64 (hist_builder h) v) in
  has_size (fun c => c = code \/ In c (hp_tmpset s)) n ->
  exists s', run_plus e (HInsert k ord h v) = Ret s' /\
    (100 * n <= sparse_limit (hist_precision h) ->
       hp_registers s' = None /\ hp_sparse s' = hp_sparse s /\ NoDup (hp_tmpset s') /\
       forall c, In c (hp_tmpset s') <-> c = code \/ In c (hp_tmpset s)) /\
    (sparse_limit (hist_precision h) < 100 * n -> hp_tmpset s' = []).
Proof.
  intros V e k ord h v s n Hb [Ho Hv] E Hr code Hs. pose proof (proj1 (proj1 Hb)) as He.
  destruct (run_plus_ret V e h s Hb Hv E) as (Hd & HF & HB).
  pose proof (hist_prec V _ h Hv) as Hp. unfold MAX_PLUS in Hp.
  pose proof Hd as (A & B & _). unfold body_ok in HB. rewrite Hr in HB.
  destruct HB as ((L & HN & HD & HS & HC & HG) & HT).
  set (T := hset_insert (hp_tmpset s) code).
  assert (NT : NoDup T) by now apply hset_insert_NoDup.
  assert (IT : forall c, In c T <-> c = code \/ In c (hp_tmpset s)).
  { intros c. unfold T. rewrite hset_insert_in. intuition auto. }
  pose proof (size_len T _ n NT IT Hs) as LT.
  pose proof (hash64_lt V (hist_builder h) v) as Hl.
  destruct (flush_exact V e ord (hist_precision h) (hist_builder h) (hash64 (hist_builder h) v :: hist_hashes h)
             (set_tmpset s T) He Hp Ho) as (s' & E' & K1 & K2); auto.
  { exists L. cbn [hp_tmpset set_tmpset hp_sparse].
    split; [auto|split; [auto|split; [auto|split; [|auto]]]].
    intros x. rewrite in_app_iff, IT. cbn [codes map In].
    specialize (HC x). rewrite in_app_iff in HC. unfold codes in HC. fold code. intuition auto. }
  { cbn [hp_tmpset set_tmpset]. pose proof (sparse_limit_bounds _ Hp). unfold T, hset_insert.
    rewrite !len_length in *. destruct (existsb _ _); cbn [length]; lia. }
  exists s'. split.
  - cbn [run_plus]. rewrite E, bind_ret.
    assert (G : hp_insert_hash e ord s (hash64 (hist_builder h) v) = Ret s').
    { unfold hp_insert_hash. rewrite Hr, B, encode_hash_ok, bind_ret by (auto; lia). exact E'. }
    destruct k; unfold hp_add, hp_insert, hp_insert_any, hp_insert_impl; rewrite A; exact G.
  - cbn [hp_tmpset set_tmpset] in K1, K2. rewrite LT in K1, K2. split; [|auto].
    intros Q. rewrite (K1 Q). cbn [hp_registers set_tmpset hp_sparse hp_tmpset]. auto.
Qed.

Lemma size_exists : forall (l : list N), exists n, has_size (fun c => In c l) n /\ n <= N.of_nat (length l).
Proof.
  intros l. exists (N.of_nat (length (nodup N.eq_dec l))). split.
  - exists (nodup N.eq_dec l). split; [apply NoDup_nodup|]. split; auto. intros x. apply nodup_In.
  - pose proof (NoDup_incl_length (NoDup_nodup N.eq_dec l) (fun x => proj1 (nodup_In N.eq_dec l x))). lia.
Qed.

Lemma quiet : forall (V : Type) e k ord vs (h : hist V) s,
  build_std e -> valid MAX_PLUS h -> is_order ord ->
  run_plus e h = Ret s -> hp_registers s = None ->
  100 * (len (hp_tmpset s) + N.of_nat (length vs)) <= sparse_limit (hist_precision h) ->
  exists s', run_plus e (fold_left (fun h v => HInsert k ord h v) vs h) = Ret s' /\
    hp_registers s' = None /\ hp_sparse s' = hp_sparse s.
Proof.
  intros V e k ord. induction vs as [|v vs IH]; intros h s Hb Hv Ho E Hr HL; cbn [fold_left].
  - eauto.
  - destruct (size_exists (sparse_code (hist_precision h) (hash64 (hist_builder h) v) :: hp_tmpset s)) as (n & Hs & Hle).
    destruct (insert_flush V e k ord h v s n Hb (conj Ho Hv) E Hr) as (s' & E' & K & _).
    { destruct Hs as (l & A & B & C). exists l. split; auto. split; auto. intros x. rewrite (B x). cbn [In].
      intuition auto. }
    cbn [length] in Hle, HL. rewrite len_length in HL.
    destruct K as (R & S & ND & IT); [lia|].
    assert (len (hp_tmpset s') = n) as LT.
    { apply (size_len _ (fun c => In c (sparse_code (hist_precision h) (hash64 (hist_builder h) v) :: hp_tmpset s))); auto.
      intros c. rewrite IT. cbn [In]. intuition auto. }
    destruct (IH (HInsert k ord h v) s') as (s2 & E2 & R2 & S2); auto.
    + cbn [valid]. auto.
    + cbn [hist_precision]. rewrite LT. lia.
    + exists s2. split; auto. split; auto. now rewrite S2.
Qed.

Lemma merge_flush : forall (V : Type) e ord (h1 h2 : hist V) s1 s2 n,
  build_std e -> valid MAX_PLUS (HMerge ord h1 h2) ->
  hist_precision h1 = hist_precision h2 ->
  run_plus e h1 = Ret s1 -> run_plus e h2 = Ret s2 -> hp_registers s1 = None -> hp_registers s2 = None ->
  has_size (fun c => In c (hp_tmpset s1) \/
              exists x, In x (hist_hashes h2) /\ sparse_code (hist_precision h1) x = c) n ->
  exists s', run_plus e (HMerge ord h1 h2) = Ret s' /\
    (100 * n <= sparse_limit (hist_precision h1) ->
       hp_registers s' = None /\ hp_sparse s' = hp_sparse s1 /\ NoDup (hp_tmpset s') /\
       forall c, In c (hp_tmpset s') <-> In c (hp_tmpset s1) \/
                   exists x, In x (hist_hashes h2) /\ sparse_code (hist_precision h1) x = c) /\
    (sparse_limit (hist_precision h1) < 100 * n -> hp_tmpset s' = []).
Proof.
  intros V e ord h1 h2 s1 s2 n Hb (Ho & Hv1 & Hv2) EP E1 E2 R1 R2 Hs.
  pose proof (proj1 (proj1 Hb)) as He.
  destruct (run_plus_ret V e h1 s1 Hb Hv1 E1) as (Hd & HF & HB).
  destruct (run_plus_ret V e h2 s2 Hb Hv2 E2) as (Hd' & HF' & HB').
  rewrite <- EP in *. pose proof (hist_prec V _ h1 Hv1) as Hp. unfold MAX_PLUS in Hp.
  set (p := hist_precision h1) in *. pose proof (sparse_limit_bounds p Hp) as HSL.
  pose proof Hd as (A & B & _). pose proof Hd' as (A' & B' & _).
  unfold body_ok in HB, HB'. rewrite R1 in HB. rewrite R2 in HB'.
  destruct HB as ((L & HN & HD & HS & HC & HG) & HT).
  destruct HB' as ((L' & HN' & HD' & HS' & HC' & HG') & HT').
  destruct (hset_inserts (ord (hp_tmpset s2) ++ L') (hp_tmpset s1) HN) as [HN2 HS2].
  set (T2 := fold_left hset_insert (ord (hp_tmpset s2) ++ L') (hp_tmpset s1)) in *.
  assert (HOrd : forall x, In x (ord (hp_tmpset s2)) <-> In x (hp_tmpset s2)).
  { intros x. split; apply Permutation_in; [|apply Permutation_sym]; apply Ho. }
  assert (IT : forall c, In c T2 <-> In c (hp_tmpset s1) \/
                   exists x, In x (hist_hashes h2) /\ sparse_code p x = c).
  { intros c. rewrite (HS2 c). specialize (HC' c). unfold codes in HC'. rewrite in_map_iff in HC'.
    rewrite in_app_iff in *. rewrite in_app_iff. rewrite HOrd.
    assert ((exists x, sparse_code p x = c /\ In x (hist_hashes h2)) <->
            (exists x, In x (hist_hashes h2) /\ sparse_code p x = c)) by (split; intros (x & Q); exists x; tauto).
    tauto. }
  pose proof (size_len T2 _ n HN2 IT Hs) as LT.
  destruct (flush_exact V e ord p (hist_builder h1) (hist_hashes h2 ++ hist_hashes h1)
             (set_tmpset s1 T2) He Hp Ho) as (s' & E' & K1 & K2); auto.
  { apply Forall_app; auto. }
  { exists L. cbn [hp_tmpset set_tmpset hp_sparse].
    split; [auto|split; [auto|split; [auto|split; [|auto]]]].
    intros x. unfold codes. rewrite map_app, !in_app_iff, (HS2 x), !in_app_iff, HOrd.
    specialize (HC x). specialize (HC' x). unfold codes in *. rewrite in_app_iff in *. tauto. }
  { cbn [hp_tmpset set_tmpset]. rewrite len_length in *.
    assert (HI2 : incl T2 ((ord (hp_tmpset s2) ++ L') ++ hp_tmpset s1)) by (intros x Hx; now apply HS2).
    pose proof (NoDup_same_len T2 _ HN2 HI2) as HLn.
    rewrite !app_length in HLn. rewrite (Permutation_length (Ho (hp_tmpset s2))) in HLn.
    pose proof (gap_len_length L' 0). lia. }
  exists s'. split.
  - cbn [run_plus]. rewrite E1, bind_ret, E2, bind_ret. unfold hp_merge. rewrite B, B', N.eqb_refl. cbn [negb].
    unfold is_sparse. rewrite R1, R2.
    rewrite (for_each_ret _ _ hset_insert), bind_ret.
    rewrite (dif_for_ok _ e _ L') by auto. rewrite (for_each_ret _ _ hset_insert), bind_ret.
    rewrite <- fold_left_app. fold T2. now rewrite E', !bind_ret.
  - cbn [hp_tmpset set_tmpset] in K1, K2. rewrite LT in K1, K2. split; [|auto].
    intros Q. rewrite (K1 Q). cbn [hp_registers set_tmpset hp_sparse hp_tmpset]. auto.
Qed.

(** ** How many insertions rewrite the list *)
Lemma insert_normal : forall (V : Type) e k ord (h : hist V) v s r,
  build_std e -> valid MAX_PLUS (HInsert k ord h v) -> run_plus e h = Ret s -> hp_registers s = Some r ->
  exists s' r', run_plus e (HInsert k ord h v) = Ret s' /\ hp_registers s' = Some r' /\
    hp_sparse s' = hp_sparse s /\ hp_tmpset s' = hp_tmpset s.
Proof.
  intros V e k ord h v s r Hb [Ho Hv] E Hr. pose proof (proj1 (proj1 Hb)) as He.
  pose proof (run_plus_ret V e h s Hb Hv E) as Hs.
  pose proof (hist_prec V _ h Hv) as Hp. unfold MAX_PLUS in Hp.
  destruct (hp_insert_hash_ok V e ord _ _ _ s (hash64 (hist_builder h) v) He Hp Ho
      (hash64_lt _ _ _) Hs) as (s' & E' & _).
  assert (G : exists r', hp_registers s' = Some r' /\ hp_sparse s' = hp_sparse s /\ hp_tmpset s' = hp_tmpset s).
  { unfold hp_insert_hash in E'. rewrite Hr in E'.
    repeat (apply bind_inv in E'; destruct E' as (? & _ & E')). injection E' as <-. eexists.
    split; [reflexivity|]. split; reflexivity. }
  destruct G as (r' & G). exists s', r'. split; [|exact G].
  cbn [run_plus]. rewrite E, bind_ret. pose proof Hs as ((HB & _) & _).
  destruct k; unfold hp_add, hp_insert, hp_insert_any, hp_insert_impl; rewrite HB; exact E'.
Qed.

Lemma flushes_bound : forall (V : Type) e k ord vs (h : hist V) s,
  build_std e -> valid MAX_PLUS h -> is_order ord -> run_plus e h = Ret s ->
  exists n, rewritten e k ord h vs n /\
    n * (sparse_limit (hist_precision h) / 100 + 1) <= len (hp_tmpset s) + N.of_nat (length vs).
Proof.
  intros V e k ord. induction vs as [|v vs IH]; intros h s Hb Hv Ho E.
  { exists 0. split; [econstructor; eauto|]. lia. }
  destruct (hp_registers s) as [r|] eqn:Hr.
  - destruct (insert_normal V e k ord h v s r Hb (conj Ho Hv) E Hr) as (s' & r' & E' & _ & S & T).
    destruct (IH (HInsert k ord h v) s' Hb (conj Ho Hv) Ho E') as (n & R & B).
    cbn [hist_precision] in B. exists n. split; [eapply rewritten_not; eauto|].
    rewrite T in B. cbn [length]. lia.
  - destruct (size_exists (sparse_code (hist_precision h) (hash64 (hist_builder h) v) :: hp_tmpset s)) as (n0 & Hs & Hle).
    destruct (insert_flush V e k ord h v s n0 Hb (conj Ho Hv) E Hr) as (s' & E' & K & K').
    { destruct Hs as (l & A & B & C). exists l. split; auto. split; auto. intros x. rewrite (B x). cbn [In].
      intuition auto. }
    destruct (IH (HInsert k ord h v) s' Hb (conj Ho Hv) Ho E') as (n & R & B).
    cbn [hist_precision] in B. cbn [length] in Hle |- *. rewrite len_length in B |- *.
    set (K0 := sparse_limit (hist_precision h)) in *.
    destruct (N.le_gt_cases (100 * n0) K0) as [Q|Q].
    + destruct (K Q) as (_ & S & ND & IT). exists n. split; [eapply rewritten_not; eauto|].
      assert (len (hp_tmpset s') = n0) as LT.
      { apply (size_len _ (fun c => In c (sparse_code (hist_precision h) (hash64 (hist_builder h) v) :: hp_tmpset s))); auto.
        intros c. rewrite IT. cbn [In]. intuition auto. }
      rewrite len_length in LT. lia.
    + rewrite (K' Q) in B. exists (n + 1). split; [eapply rewritten_once; eauto|].
      cbn [length] in B.
      assert (K0 / 100 < n0) by (apply N.div_lt_upper_bound; lia).
      lia.
Qed.
