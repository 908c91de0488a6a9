(** * HyperLogLogPlus: the invariant of every history *)
From Coq Require Import NArith ZArith Reals Lra List Bool Lia Permutation Sorted.
From Flocq Require Import Core BinarySingleNaN.
From Verif Require Import ModelRust ModelF64 ModelEnv ModelRegisters ModelEncoding ModelCommon
  ModelPlus ModelSerde ModelHistory Spec SpecReal SpecBuild BitFacts RegFacts EncFacts CodeFacts
  MergeFacts AbsorbFacts F64Facts RawFacts BiasFacts SerdeFacts PFInv.
Import ListNotations.
Local Open Scope N_scope.

(** ** The code list of a set of hashes *)
Definition codes (p : N) (H : list N) : list N := map (sparse_code p) H.

Lemma code_list_exists : forall p H, exists L, is_code_list p H L.
Proof.
  intros p H. exists (sort (nodup N.eq_dec (codes p H))). split.
  - apply sort_strong, NoDup_nodup.
  - intros x. split; intros Hx.
    + apply (Permutation_in _ (sort_perm _)) in Hx. now apply nodup_In in Hx.
    + apply (Permutation_in _ (Permutation_sym (sort_perm _))). now apply nodup_In.
Qed.

Lemma code_list_unique : forall p H L L', is_code_list p H L -> is_code_list p H L' -> L = L'.
Proof.
  intros p H L L' [S1 E1] [S2 E2]. apply strong_ext; auto. intros x. rewrite (E1 x), (E2 x). tauto.
Qed.

Lemma code_list_ext : forall p H H' L, same_set H H' -> is_code_list p H L -> is_code_list p H' L.
Proof.
  intros p H H' L E [S1 E1]. split; auto. intros x. rewrite (E1 x), !in_map_iff.
  split; intros (h & Eh & Hh); exists h; (split; [auto|]); now apply E.
Qed.

Lemma gap_len_incl : forall p H H' L L', is_code_list p H L -> is_code_list p H' L' ->
  incl H H' -> gap_len 0 L <= gap_len 0 L'.
Proof.
  intros p H H' L L' [S1 E1] [S2 E2] HI. apply gap_len_mono; auto.
  - apply Forall_forall. intros; lia.
  - intros x Hx. apply E2. apply E1 in Hx. apply in_map_iff in Hx. apply in_map_iff.
    destruct Hx as (h & Eh & Hh). exists h. auto.
Qed.

(** ** States *)
Definition big_codes (p : N) (H : list N) : Prop :=
  exists L, is_code_list p H L /\ sparse_limit p < gap_len 0 L.

(** Pending set [T] and difference vector [d] hold the codes of [H]. *)
Definition sparse_holds (p : N) (H : list N) (T : hset) (d : difintvec) : Prop :=
  exists L, NoDup T /\ dif_repr d L /\ StronglySorted N.lt L /\ same_set (T ++ L) (codes p H) /\
    gap_len 0 L <= sparse_limit p.

Definition header {V : Type} (p : N) (b : V -> N) (s : plus V) : Prop :=
  hp_builder s = b /\ hp_precision s = p /\ hp_counts0 s = 2 ^ p /\ hp_counts1 s = 2 ^ 24 /\
  hp_counts2 s = sparse_limit p.

Definition body_ok {V : Type} (p : N) (H : list N) (s : plus V) : Prop :=
  match hp_registers s with
  | Some r => hp_tmpset s = [] /\ hp_sparse s = dif_new /\ holds 6 64 p H r /\ big_codes p H
  | None => sparse_holds p H (hp_tmpset s) (hp_sparse s) /\
            len (hp_tmpset s) * 100 <= sparse_limit p
  end.

Definition plus_ok {V : Type} (p : N) (b : V -> N) (H : list N) (s : plus V) : Prop :=
  header p b s /\ Forall (fun h => h < 2 ^ 64) H /\ body_ok p H s.

(** As after [count]: nothing pending. *)
Definition flushed {V : Type} (p : N) (H : list N) (s : plus V) : Prop :=
  hp_tmpset s = [] /\
  match hp_registers s with
  | Some r => hp_sparse s = dif_new /\ holds 6 64 p H r /\ big_codes p H
  | None => exists L, is_code_list p H L /\ dif_repr (hp_sparse s) L /\
              gap_len 0 L <= sparse_limit p
  end.

Lemma sparse_limit_bounds : forall p, 4 <= p <= 18 -> 12 <= sparse_limit p <= 209715.
Proof.
  intros p Hp. unfold sparse_limit. pose proof (pow2_le 4 p ltac:(lia)).
  pose proof (pow2_le p 18 ltac:(lia)). change (2 ^ 4) with 16 in *. change (2 ^ 18) with 262144 in *.
  split.
  - apply N.div_le_lower_bound; lia.
  - apply N.lt_succ_r. apply N.div_lt_upper_bound; lia.
Qed.

Lemma codes_lt : forall p H, Forall (fun h => h < 2 ^ 64) H ->
  forall c, In c (codes p H) -> c < 2 ^ 32.
Proof.
  intros p H HF c Hc. apply in_map_iff in Hc. destruct Hc as (h & <- & Hh).
  rewrite Forall_forall in HF. apply sparse_code_lt. auto.
Qed.

Lemma dif_repr_unique : forall d d' L, dif_repr d L -> dif_repr d' L -> d = d'.
Proof.
  intros [c l b] [c' l' b'] L (_ & _ & A & B & C) (_ & _ & A' & B' & C'). cbn in *. congruence.
Qed.

Lemma flushed_unique : forall (V : Type) p (b : V -> N) H s s', p <= 18 ->
  header p b s -> header p b s' -> flushed p H s -> flushed p H s' -> s = s'.
Proof.
  intros V p b H s s' Hp (A & B & C & D & E) (A' & B' & C' & D' & E') (F & G) (F' & G').
  assert (hp_sparse s = hp_sparse s' /\ hp_registers s = hp_registers s') as [? ?].
  { destruct (hp_registers s) as [r|], (hp_registers s') as [r'|].
    - destruct G as (G1 & G2 & G3), G' as (G1' & G2' & G3').
      split; [congruence|]. f_equal. eapply (holds_unique 6 64 p); eauto; [now right|lia].
    - destruct G as (G1 & G2 & L & G3 & G4), G' as (L' & G1' & G2' & G3').
      rewrite (code_list_unique _ _ _ _ G3 G1') in G4. lia.
    - destruct G' as (G1 & G2 & L & G3 & G4), G as (L' & G1' & G2' & G3').
      rewrite (code_list_unique _ _ _ _ G3 G1') in G4. lia.
    - destruct G as (L & G1 & G2 & G3), G' as (L' & G1' & G2' & G3').
      rewrite (code_list_unique _ _ _ _ G1 G1') in G2.
      split; auto. eapply dif_repr_unique; eauto. }
  destruct s, s'. cbn in *. congruence.
Qed.

Lemma flushed_body : forall (V : Type) p H (s : plus V), p <= 18 ->
  flushed p H s -> body_ok p H s.
Proof.
  intros V p H s Hp (F & G). unfold body_ok. destruct (hp_registers s) as [r|].
  - tauto.
  - rewrite F. destruct G as (L & [G1 G1'] & G2 & G3). split; [|unfold len; cbn; lia].
    exists L. split; [constructor|]. split; [auto|split; [auto|split; [auto|auto]]].
Qed.

Lemma flushed_ext : forall (V : Type) p H H' (s : plus V), same_set H H' ->
  flushed p H s -> flushed p H' s.
Proof.
  intros V p H H' s E (F & G). split; auto. destruct (hp_registers s) as [r|].
  - destruct G as (A & B & L & C & D). split; [auto|split].
    + eapply holds_same_set; eauto. + exists L. split; auto. eapply code_list_ext; eauto.
  - destruct G as (L & A & B & C). exists L. split; auto. eapply code_list_ext; eauto.
Qed.

Lemma body_ext : forall (V : Type) p H H' (s : plus V), same_set H H' ->
  body_ok p H s -> body_ok p H' s.
Proof.
  intros V p H H' s E. unfold body_ok. destruct (hp_registers s) as [r|].
  - intros (A & B & C & L & D & F). split; [auto|split; [auto|split]].
    + eapply holds_same_set; eauto. + exists L. split; auto. eapply code_list_ext; eauto.
  - intros ((L & A & B & C & D & F) & G). split; auto. exists L.
    split; [auto|split; [auto|split; [auto|split; [|auto]]]].
    intros x. rewrite (D x). unfold codes. rewrite !in_map_iff.
    split; intros (h & Eh & Hh); exists h; (split; [auto|]); now apply E.
Qed.

(** ** Absorbing codes into registers *)
Lemma absorb_code_ok : forall e p H r h, 32 <= usize_bits e -> 4 <= p <= 18 -> h < 2 ^ 64 ->
  holds 6 64 p H r ->
  exists r', absorb_code e p r (sparse_code p h) = Ret r' /\ holds 6 64 p (h :: H) r'.
Proof.
  intros e p H r h He Hp Hh Hr. unfold absorb_code.
  rewrite decode_encode, bind_ret by lia.
  destruct (holds_insert e 6 64 p H r h) as (r' & E & Hr'); auto; [now right|lia| |eauto].
  change (2 ^ 6) with 64. lia.
Qed.

Lemma absorb_codes_ok : forall e p l H r, 32 <= usize_bits e -> 4 <= p <= 18 ->
  (forall c, In c l -> exists h, h < 2 ^ 64 /\ c = sparse_code p h) ->
  holds 6 64 p H r ->
  exists r' Hs, for_each l (absorb_code e p) r = Ret r' /\ holds 6 64 p (Hs ++ H) r' /\
    Forall (fun h => h < 2 ^ 64) Hs /\ same_set (codes p Hs) l.
Proof.
  intros e p l. induction l as [|c l IH]; intros H r He Hp Hl Hr; cbn [for_each].
  - exists r, []. split; [auto|split; [auto|split; [constructor|]]]. intros x. tauto.
  - destruct (Hl c) as (h & Hh & ->); [now left|].
    destruct (absorb_code_ok e p H r h He Hp Hh Hr) as (r1 & E1 & Hr1). rewrite E1, bind_ret.
    destruct (IH (h :: H) r1 He Hp) as (r2 & Hs & E2 & Hr2 & HF & HC); auto.
    { intros c Hc. apply Hl. now right. }
    exists r2, (Hs ++ [h]). split; [auto|]. split; [|split].
    + now rewrite <- app_assoc.
    + apply Forall_app. split; auto.
    + intros x. unfold codes. rewrite map_app, in_app_iff. cbn [map In].
      rewrite (HC x : In x (map _ _) <-> _). tauto.
Qed.

Lemma codes_cover : forall p Hs Ht, 4 <= p <= 18 ->
  Forall (fun h => h < 2 ^ 64) Hs -> Forall (fun h => h < 2 ^ 64) Ht ->
  incl (codes p Hs) (codes p Ht) -> covers 64 p Hs Ht.
Proof.
  intros p Hs Ht Hp Fs Ft HI h Hh. rewrite Forall_forall in *.
  assert (In (sparse_code p h) (codes p Ht)) as Hc by (apply HI, in_map; auto).
  apply in_map_iff in Hc. destruct Hc as (h' & E & Hh').
  exists h'. split; auto. destruct (sparse_code_inj p h' h) as [A B]; auto; lia.
Qed.

Lemma holds_codes : forall p Hs Ht H r, 4 <= p <= 18 ->
  Forall (fun h => h < 2 ^ 64) Hs -> Forall (fun h => h < 2 ^ 64) Ht ->
  same_set (codes p Hs) (codes p Ht) -> holds 6 64 p (Hs ++ H) r -> holds 6 64 p (Ht ++ H) r.
Proof.
  intros p Hs Ht H r Hp Fs Ft E. apply holds_ext.
  - intros h Hh. apply in_app_iff in Hh. destruct Hh as [Hh|Hh].
    + destruct (codes_cover p Hs Ht Hp Fs Ft) with (h := h) as (h' & A & B); auto.
      { intros x. now apply E. } exists h'. rewrite in_app_iff. auto.
    + exists h. rewrite in_app_iff. auto.
  - intros h Hh. apply in_app_iff in Hh. destruct Hh as [Hh|Hh].
    + destruct (codes_cover p Ht Hs Hp Ft Fs) with (h := h) as (h' & A & B); auto.
      { intros x. now apply E. } exists h'. rewrite in_app_iff. auto.
    + exists h. rewrite in_app_iff. auto.
Qed.

Lemma codes_exist : forall p H l, Forall (fun h => h < 2 ^ 64) H -> incl l (codes p H) ->
  forall c, In c l -> exists h, h < 2 ^ 64 /\ c = sparse_code p h.
Proof.
  intros p H l HF HI c Hc. apply HI in Hc. apply in_map_iff in Hc. destruct Hc as (h & <- & Hh).
  rewrite Forall_forall in HF. eauto.
Qed.

Lemma sparse_to_normal_ok : forall (V : Type) e p (b : V -> N) H L s,
  32 <= usize_bits e -> 4 <= p <= 18 -> header p b s -> Forall (fun h => h < 2 ^ 64) H ->
  is_code_list p H L -> dif_repr (hp_sparse s) L ->
  exists s' r, sparse_to_normal e s = Ret s' /\ header p b s' /\ hp_tmpset s' = [] /\
    hp_sparse s' = dif_new /\ hp_registers s' = Some r /\ holds 6 64 p H r.
Proof.
  intros V e p b H L s He Hp (A & B & C & D & F) HF [S1 E1] Hd.
  unfold sparse_to_normal. rewrite C.
  destruct (holds_new e 6 64 p) as (r0 & E0 & H0); [now right|apply pow_room; lia|].
  unfold SIZE_PLUS. rewrite E0, bind_ret. rewrite (dif_for_ok _ e _ L) by auto. rewrite B.
  destruct (absorb_codes_ok e p L [] r0 He Hp) as (r & Hs & E & Hr & HFs & HC); auto.
  { apply (codes_exist p H); auto. intros x. apply E1. }
  rewrite E, bind_ret. eexists. exists r. split; [reflexivity|].
  split; [split; [exact A|split; [exact B|split; [exact C|split; [exact D|exact F]]]]|].
  split; [reflexivity|split; [reflexivity|split; [reflexivity|]]].
  rewrite <- (app_nil_r H). apply (holds_codes p Hs); auto.
  intros x. rewrite (HC x). apply E1.
Qed.

(** ** Flushing *)
Lemma merge_sparse_ok : forall (V : Type) e ord p (b : V -> N) H s,
  32 <= usize_bits e -> 4 <= p <= 18 -> is_order ord -> header p b s ->
  Forall (fun h => h < 2 ^ 64) H ->
  hp_registers s = None -> sparse_holds p H (hp_tmpset s) (hp_sparse s) ->
  exists s', merge_sparse e ord s = Ret s' /\ header p b s' /\ flushed p H s'.
Proof.
  intros V e ord p b H s He Hp Ho Hh HF Hr (L & HN & Hd & HS & HC & HG).
  rewrite merge_sparse_codes.
  assert (BT : Forall (fun x => x < 2 ^ 32) (hp_tmpset s)).
  { apply Forall_forall. intros x Hx. apply (codes_lt p H HF). apply HC. apply in_app_iff. auto. }
  destruct (merge_codes_ok e ord _ _ L Ho HN BT Hd HS) as (d' & L' & E & Hd' & HS' & HC').
  rewrite E, bind_ret. cbv zeta.
  set (s1 := set_tmpset (set_sparse s d') []).
  assert (HL : is_code_list p H L').
  { split; auto. intros x. rewrite (HC' x). apply HC. }
  assert (H1 : header p b s1) by exact Hh.
  change (hp_counts2 s1) with (hp_counts2 s). change (hp_sparse s1) with d'.
  rewrite (dif_repr_len _ _ Hd'). pose proof Hh as (_ & _ & _ & _ & C2). rewrite C2.
  destruct (N.ltb_spec (sparse_limit p) (gap_len 0 L')) as [Hlt|Hle].
  - destruct (sparse_to_normal_ok V e p b H L' s1 He Hp H1 HF HL Hd')
      as (s' & r & E' & Hh' & T & S & R & Hold).
    exists s'. split; [auto|split; [auto|]]. split; [auto|]. rewrite R.
    split; [auto|split; [auto|]]. exists L'. auto.
  - exists s1. split; [auto|split; [auto|]]. split; [reflexivity|].
    change (hp_registers s1) with (hp_registers s). rewrite Hr. exists L'. auto.
Qed.

Lemma flush_if_full_ok : forall (V : Type) e ord p (b : V -> N) H s,
  32 <= usize_bits e -> 4 <= p <= 18 -> is_order ord -> header p b s ->
  Forall (fun h => h < 2 ^ 64) H ->
  hp_registers s = None -> sparse_holds p H (hp_tmpset s) (hp_sparse s) ->
  len (hp_tmpset s) <= 300000 ->
  exists s', flush_if_full e ord s = Ret s' /\ plus_ok p b H s'.
Proof.
  intros V e ord p b H s He Hp Ho Hh HF Hr Hs Hl. unfold flush_if_full, hset_len.
  rewrite umul_ok, bind_ret.
  2:{ eapply N.lt_le_trans; [|apply (pow2_le 32); auto]. change (2 ^ 32) with 4294967296. lia. }
  pose proof Hh as (_ & _ & _ & _ & C2). rewrite C2.
  destruct (N.ltb_spec (sparse_limit p) (len (hp_tmpset s) * 100)) as [Hlt|Hle].
  - destruct (merge_sparse_ok V e ord p b H s He Hp Ho Hh HF Hr Hs) as (s' & E & Hh' & Hf).
    exists s'. split; [auto|split; [auto|split; [auto|]]]. apply flushed_body; auto. lia.
  - exists s. split; [auto|split; [auto|split; [auto|]]]. unfold body_ok. rewrite Hr. auto.
Qed.

(** ** The operations *)
Lemma hp_new_ok : forall (V : Type) e p (b : V -> N), 32 <= usize_bits e -> 4 <= p <= 18 ->
  exists s, hp_new e p b = Ret (ROk s) /\ plus_ok p b [] s /\ flushed p [] s.
Proof.
  intros V e p b He Hp. unfold hp_new, MIN_PRECISION, MAX_PRECISION.
  rewrite (proj2 (N.ltb_ge p 4)), (proj2 (N.ltb_ge 18 p)) by lia. cbn [orb].
  rewrite register_count_ok, bind_ret by lia.
  unfold PRIME_PRECISION. change (25 - 1) with 24. rewrite register_count_ok, bind_ret by lia.
  unfold size_in_bytes. pose proof (pow_room e p He ltac:(lia)) as Hr.
  pose proof (pow2_le p 18 ltac:(lia)). pose proof (pow2_le _ _ He).
  change (2 ^ 18) with 262144 in *. change (2 ^ 32) with 4294967296 in *.
  rewrite umul_ok by lia. cbn -[N.pow N.mul N.div].
  eexists. split; [reflexivity|].
  assert (F : flushed (V := V) p []
    {| hp_builder := b; hp_precision := p; hp_counts0 := 2 ^ p; hp_counts1 := 2 ^ 24;
       hp_counts2 := 4 * 2 ^ p / count_per_word SIZE_PLUS; hp_tmpset := []; hp_sparse := dif_new;
       hp_registers := None |}).
  { split; [reflexivity|]. cbn [hp_registers hp_sparse]. exists [].
    split; [split; [constructor|intros x; tauto]|]. split; [apply dif_repr_new|cbn; lia]. }
  split; [|exact F]. split; [repeat (split; [reflexivity|]); reflexivity|].
  split; [constructor|]. apply flushed_body; auto. lia.
Qed.

Lemma big_codes_incl : forall p H H', incl H H' -> big_codes p H -> big_codes p H'.
Proof.
  intros p H H' HI (L & HL & HG). destruct (code_list_exists p H') as (L' & HL').
  exists L'. split; auto. pose proof (gap_len_incl p H H' L L' HL HL' HI). lia.
Qed.

Lemma hp_insert_hash_ok : forall (V : Type) e ord p (b : V -> N) H s h,
  32 <= usize_bits e -> 4 <= p <= 18 -> is_order ord -> h < 2 ^ 64 -> plus_ok p b H s ->
  exists s', hp_insert_hash e ord s h = Ret s' /\ plus_ok p b (h :: H) s'.
Proof.
  intros V e ord p b H s h He Hp Ho Hh (Hd & HF & Hb).
  pose proof Hd as (A & B & C & D & F).
  assert (HF' : Forall (fun h => h < 2 ^ 64) (h :: H)) by now constructor.
  unfold hp_insert_hash. rewrite B. unfold body_ok in Hb.
  destruct (hp_registers s) as [r|] eqn:Er.
  - destruct Hb as (T & S & Hr & HB).
    rewrite usub_ok, bind_ret by lia. rewrite ushr_ok, bind_ret by lia.
    rewrite ushl_ok, bind_ret by lia. rewrite usub_ok, bind_ret by lia.
    rewrite ushl_ok, bind_ret by lia. rewrite N.mul_1_l.
    rewrite (N.mod_small (2 ^ (p - 1))) by (apply pow2_lt; lia).
    pose proof (leading_zeros_rank 64 p h ltac:(lia) ltac:(lia) Hh) as LZ.
    pose proof (rank_bounds 64 p h ltac:(lia)) as RB.
    rewrite uadd_ok, bind_ret.
    2:{ rewrite LZ. change (2 ^ 32) with 4294967296. lia. }
    rewrite LZ. change (h / 2 ^ (64 - p)) with (bucket 64 p h).
    pose proof (bucket_lt 64 p h ltac:(lia) Hh) as Bk.
    unfold cast. rewrite (N.mod_small (bucket 64 p h)).
    2:{ eapply N.lt_le_trans; [exact Bk|]. apply pow2_le. lia. }
    destruct (holds_insert e 6 64 p H r h) as (r' & E & Hr'); auto; [now right|lia| |].
    { change (2 ^ 6) with 64. lia. }
    unfold SIZE_PLUS. rewrite E, bind_ret. eexists. split; [reflexivity|].
    split; [split; [exact A|split; [exact B|split; [exact C|split; [exact D|exact F]]]]|].
    split; [auto|]. unfold body_ok. cbn [hp_registers set_registers hp_tmpset hp_sparse].
    split; [auto|split; [auto|split; [auto|]]].
    eapply big_codes_incl; [|exact HB]. intros x Hx. now right.
  - destruct Hb as ((L & HN & HD & HS & HC & HG) & HT).
    rewrite encode_hash_ok, bind_ret by lia.
    apply flush_if_full_ok; auto.
    + exists L. cbn [hp_tmpset set_tmpset hp_sparse].
      split; [now apply hset_insert_NoDup|]. split; [auto|split; [auto|split; [|auto]]].
      intros x. rewrite in_app_iff, hset_insert_in. cbn [codes map In].
      specialize (HC x). rewrite in_app_iff in HC. unfold codes in HC. intuition auto.
    + cbn [hp_tmpset set_tmpset]. unfold hset_insert.
      pose proof (sparse_limit_bounds p Hp). rewrite len_length in *.
      destruct (existsb _ _); cbn [length]; lia.
Qed.

Lemma NoDup_same_len : forall (l l' : list N), NoDup l -> incl l l' ->
  N.of_nat (length l) <= N.of_nat (length l').
Proof. intros l l' Hn Hi. pose proof (NoDup_incl_len l l' Hn Hi). lia. Qed.

Lemma hp_merge_ok : forall (V W : Type) e ord p (b : V -> N) (b' : W -> N) H H' s s',
  32 <= usize_bits e -> 4 <= p <= 18 -> is_order ord -> plus_ok p b H s -> plus_ok p b' H' s' ->
  exists s'', hp_merge e ord s s' = Ret (s'', ROk tt) /\ plus_ok p b (H' ++ H) s''.
Proof.
  intros V W e ord p b b' H H' s s' He Hp Ho (Hd & HF & Hb) (Hd' & HF' & Hb').
  pose proof Hd as (A & B & C & D & F). pose proof Hd' as (A' & B' & C' & D' & F').
  assert (HFF : Forall (fun h => h < 2 ^ 64) (H' ++ H)) by (apply Forall_app; auto).
  unfold hp_merge. rewrite B, B', N.eqb_refl. cbn [negb].
  unfold is_sparse. unfold body_ok in Hb, Hb'.
  pose proof (sparse_limit_bounds p Hp) as HSL.
  destruct (hp_registers s') as [r'|] eqn:Er'.
  - (* other is normal *)
    destruct Hb' as (T' & S' & Hr' & HB').
    assert (Hself : exists s1 r1, 
      (if match hp_registers s with Some _ => false | None => true end then
        let* s1 := merge_sparse e ord s in
        if match hp_registers s1 with Some _ => false | None => true end
        then sparse_to_normal e s1 else Ret s1
       else Ret s) = Ret s1 /\ header p b s1 /\ hp_tmpset s1 = [] /\ hp_sparse s1 = dif_new /\
       hp_registers s1 = Some r1 /\ holds 6 64 p H r1).
    { destruct (hp_registers s) as [r|] eqn:Er.
      - destruct Hb as (T & S & Hr & _). exists s, r. auto 10.
      - destruct Hb as (Hs & _).
        destruct (merge_sparse_ok V e ord p b H s He Hp Ho Hd HF Er Hs) as (s1 & E1 & Hd1 & Hf1).
        rewrite E1, bind_ret. destruct Hf1 as (T1 & Hf1).
        destruct (hp_registers s1) as [r1|] eqn:Er1.
        + destruct Hf1 as (S1 & Hr1 & _). exists s1, r1. auto 10.
        + destruct Hf1 as (L & HL & HD & _).
          destruct (sparse_to_normal_ok V e p b H L s1 He Hp Hd1 HF HL HD)
            as (s2 & r2 & E2 & H2). exists s2, r2. auto. }
    destruct Hself as (s1 & r1 & E1 & Hd1 & T1 & S1 & R1 & Hold1).
    rewrite E1, bind_ret, R1. cbn [unwrap]. rewrite bind_ret.
    unfold registers_iter. rewrite Er'. cbn [unwrap]. rewrite bind_ret.
    pose proof Hr' as (_ & _ & _ & D2 & _).
    destruct (holds_merge e 6 64 p H H' r1 _ ltac:(now right) Hold1 D2) as (r & E & Hr).
    { apply reg_iter_lt. now right. }
    unfold SIZE_PLUS. rewrite E, bind_ret. eexists. split; [reflexivity|].
    split; [exact Hd1|]. split; [auto|]. unfold body_ok.
    cbn [hp_registers set_registers hp_tmpset hp_sparse].
    split; [auto|split; [auto|split; [auto|]]].
    eapply big_codes_incl; [|exact HB']. intros x Hx. apply in_app_iff. auto.
  - (* other is sparse *)
    destruct Hb' as ((L' & HN' & HD' & HS' & HC' & HG') & HT').
    destruct (hp_registers s) as [r|] eqn:Er.
    + destruct Hb as (T & S & Hr & HB). cbn [unwrap]. rewrite bind_ret.
      assert (HX : incl (ord (hp_tmpset s') ++ L') (codes p H')).
      { intros x Hx. apply HC'. rewrite in_app_iff in *. destruct Hx as [Hx|Hx]; auto.
        left. eapply Permutation_in; [apply Ho|exact Hx]. }
      pose proof (codes_exist p H' _ HF' HX) as HE.
      destruct (absorb_codes_ok e p (ord (hp_tmpset s')) H r He Hp) as (r1 & Hs1 & E1 & Hr1 & F1 & C1);
        auto.
      { intros c Hc. apply HE. apply in_app_iff. auto. }
      rewrite E1, bind_ret. rewrite (dif_for_ok _ e _ L') by auto.
      destruct (absorb_codes_ok e p L' (Hs1 ++ H) r1 He Hp) as (r2 & Hs2 & E2 & Hr2 & F2 & C2); auto.
      { intros c Hc. apply HE. apply in_app_iff. auto. }
      rewrite E2, bind_ret. eexists. split; [reflexivity|].
      split; [exact Hd|]. split; [auto|]. unfold body_ok.
      cbn [hp_registers set_registers hp_tmpset hp_sparse].
      split; [auto|split; [auto|split]].
      * rewrite app_assoc in Hr2. apply (holds_codes p (Hs2 ++ Hs1)); auto.
        { apply Forall_app; auto. }
        intros x. unfold codes in *. rewrite map_app, in_app_iff, (C1 x), (C2 x).
        rewrite <- (HC' x), in_app_iff. 
        assert (In x (ord (hp_tmpset s')) <-> In x (hp_tmpset s')).
        { split; apply Permutation_in; [|apply Permutation_sym]; apply Ho. }
        tauto.
      * eapply big_codes_incl; [|exact HB]. intros x Hx. apply in_app_iff. auto.
    + destruct Hb as ((L & HN & HD & HS & HC & HG) & HT).
      rewrite (for_each_ret _ _ hset_insert), bind_ret.
      rewrite (dif_for_ok _ e _ L') by auto. rewrite (for_each_ret _ _ hset_insert), bind_ret.
      rewrite <- fold_left_app.
      destruct (hset_inserts (ord (hp_tmpset s') ++ L') (hp_tmpset s) HN) as [HN2 HS2].
      set (T2 := fold_left hset_insert (ord (hp_tmpset s') ++ L') (hp_tmpset s)) in *.
      assert (HOrd : forall x, In x (ord (hp_tmpset s')) <-> In x (hp_tmpset s')).
      { intros x. split; apply Permutation_in; [|apply Permutation_sym]; apply Ho. }
      destruct (flush_if_full_ok V e ord p b (H' ++ H) (set_tmpset s T2)) as (s2 & E2 & H2); auto.
      { exists L. cbn [hp_tmpset set_tmpset hp_sparse].
        split; [auto|split; [auto|split; [auto|split; [|auto]]]].
        intros x. unfold codes. rewrite map_app, !in_app_iff, (HS2 x), !in_app_iff, HOrd.
        specialize (HC x). specialize (HC' x). unfold codes in *. rewrite in_app_iff in *. tauto. }
      { cbn [hp_tmpset set_tmpset]. rewrite len_length in *.
        assert (HI2 : incl T2 ((ord (hp_tmpset s') ++ L') ++ hp_tmpset s)) by (intros x Hx; now apply HS2).
        pose proof (NoDup_same_len T2 _ HN2 HI2) as HLn.
        rewrite !app_length in HLn. rewrite (Permutation_length (Ho (hp_tmpset s'))) in HLn.
        pose proof (gap_len_length L' 0). lia. }
      rewrite E2, bind_ret. eauto.
Qed.

Lemma hp_merge_mismatch : forall (V W : Type) e ord (s : plus V) (s' : plus W),
  hp_precision s <> hp_precision s' -> hp_merge e ord s s' = Ret (s, RErr IncompatiblePrecision).
Proof.
  intros V W e ord s s' H. unfold hp_merge. apply N.eqb_neq in H. now rewrite H.
Qed.

(** ** Counting *)

(** What [count] returns in normal representation, from the registers. *)
Definition normal_value (e : env) (p : N) (l : list N) : M f64 :=
  if negb (zero_count l =? 0) then
    let* c := linear_count e (2 ^ p) (zero_count l) in
    let* t := threshold p in
    if fle c t then Ret c else estimate_corrected e p l (2 ^ p)
  else estimate_corrected e p l (2 ^ p).

(** The value of [count] as a function of the set of hashes. *)
Definition value_of (e : env) (p : N) (H : list N) (c : f64) : Prop :=
  exists L, is_code_list p H L /\
   ((gap_len 0 L <= sparse_limit p /\
     linear_count e (2 ^ 24) (2 ^ 24 - N.of_nat (length L)) = Ret c) \/
    (sparse_limit p < gap_len 0 L /\
     exists l, is_register_file 64 p H l /\ Forall (fun v => v < 64) l /\
       normal_value e p l = Ret c)).

Lemma value_unique : forall e p H c c', p <= 18 -> value_of e p H c -> value_of e p H c' -> c = c'.
Proof.
  intros e p H c c' Hp (L & HL & A) (L' & HL' & A').
  rewrite (code_list_unique _ _ _ _ HL HL') in *.
  destruct A as [[A B]|(A & l & R & F & B)], A' as [[A' B']|(A' & l' & R' & F' & B')]; try lia.
  - congruence.
  - rewrite (is_register_file_unique 64 p H l l') in B; [congruence|lia|auto|auto].
Qed.

Lemma register_file_same : forall W p H H' l, same_set H H' -> is_register_file W p H l ->
  is_register_file W p H' l.
Proof.
  intros W p H H' l E. apply is_register_file_ext; apply covers_incl; intros x; apply E.
Qed.

Lemma value_ext : forall e p H H' c, same_set H H' -> value_of e p H c -> value_of e p H' c.
Proof.
  intros e p H H' c E (L & HL & A). exists L. split; [eapply code_list_ext; eauto|].
  destruct A as [A|(A & l & R & F & B)]; [now left|right].
  split; [auto|]. exists l. split; auto. eapply register_file_same; eauto.
Qed.

Lemma threshold_ok : forall p, 4 <= p <= 18 -> exists t, threshold p = Ret t.
Proof.
  intros p Hp.
  assert (p = 4 \/ p = 5 \/ p = 6 \/ p = 7 \/ p = 8 \/ p = 9 \/ p = 10 \/ p = 11 \/ p = 12 \/
          p = 13 \/ p = 14 \/ p = 15 \/ p = 16 \/ p = 17 \/ p = 18) as D by lia.
  repeat (destruct D as [D|D]; [subst p; eexists; reflexivity|]).
  subst p; eexists; reflexivity.
Qed.

Lemma linear_total : forall e a b, exists c, linear_count e a b = Ret c.
Proof.
  intros e a b. unfold linear_count.
  destruct (ln_total e (fdiv (of_N a) (of_N b))) as [y ->]. rewrite bind_ret. eauto.
Qed.

Lemma normal_value_total : forall e p l, build_std e -> 4 <= p <= 18 -> 2 * p < usize_bits e ->
  N.of_nat (length l) = 2 ^ p -> Forall (fun v => v < 64) l ->
  exists c, normal_value e p l = Ret c.
Proof.
  intros e p l [Hb Hs] Hp Hu HL Hl.
  destruct (estimate_corrected_ok e p l Hb Hs (proj1 Hp) (proj2 Hp) Hu HL Hl) as (c & E & _).
  unfold normal_value. destruct (negb _); eauto.
  destruct (linear_total e (2 ^ p) (zero_count l)) as [y ->]. rewrite bind_ret.
  destruct (threshold_ok p Hp) as [t ->]. rewrite bind_ret. destruct (fle y t); eauto.
Qed.

Lemma hp_count_ok : forall (V : Type) e ord p (b : V -> N) H s,
  build_std e -> 4 <= p <= 18 -> 2 * p < usize_bits e \/ fits p H -> is_order ord ->
  plus_ok p b H s ->
  exists s' c, hp_count e ord s = Ret (s', c) /\ header p b s' /\ flushed p H s' /\
    value_of e p H c.
Proof.
  intros V e ord p b H s Hb Hp Hu Ho (Hd & HF & HB).
  pose proof (proj1 (proj1 Hb)) as He.
  unfold hp_count.
  assert (HS : exists s', (if is_sparse s then merge_sparse e ord s else Ret s) = Ret s' /\
    header p b s' /\ flushed p H s').
  { unfold is_sparse. unfold body_ok in HB. destruct (hp_registers s) as [r|] eqn:Er.
    - exists s. split; [auto|split; [auto|]]. unfold flushed. rewrite Er. tauto.
    - destruct HB as [Hs _].
      destruct (merge_sparse_ok V e ord p b H s He Hp Ho Hd HF Er Hs) as (s' & E & Hx).
      exists s'. auto. }
  destruct HS as (s' & E & Hd' & Hf). rewrite E, bind_ret.
  pose proof Hf as [T Hf']. pose proof Hd' as (A & B & C0 & C1 & C2).
  destruct (hp_registers s') as [r|] eqn:Er.
  - destruct Hf' as (S' & Hr & L & HL & HG).
    pose proof Hr as (_ & _ & Z & RF & _).
    assert (Fl : Forall (fun v => v < 64) (reg_iter 6 r)) by (apply (reg_iter_lt 6); now right).
    destruct Hu as [Hu|Hu]; [|exfalso; specialize (Hu L HL); lia].
    destruct (normal_value_total e p (reg_iter 6 r) Hb Hp Hu (proj1 RF) Fl) as [c Ec].
    exists s', c. split.
    + unfold normal_value in Ec. unfold reg_zeros. cbv zeta. unfold exact_zeros in Z.
      rewrite !Z, C0, B. unfold SIZE_PLUS.
      destruct (negb _).
      * apply bind_inv in Ec. destruct Ec as (y & E1 & Ec). rewrite E1, bind_ret.
        apply bind_inv in Ec. destruct Ec as (t & E2 & Ec). rewrite E2, bind_ret.
        destruct (fle y t); [now inv Ec|]. rewrite Ec, bind_ret. reflexivity.
      * rewrite Ec, bind_ret. reflexivity.
    + split; [auto|split; [auto|]]. exists L. split; [auto|]. right. split; [auto|].
      exists (reg_iter 6 r). auto.
  - destruct Hf' as (L & HL & HD & HG).
    destruct (linear_total e (2 ^ 24) (2 ^ 24 - N.of_nat (length L))) as [c Ec].
    exists s', c. unfold dif_count. destruct HD as (_ & _ & _ & HC & _). rewrite HC, C1.
    rewrite usub_ok, bind_ret.
    2:{ pose proof (gap_len_length L 0). pose proof (sparse_limit_bounds p Hp).
        change (2 ^ 24) with 16777216. lia. }
    rewrite Ec, bind_ret. split; [auto|split; [auto|split; [auto|]]].
    exists L. auto.
Qed.

(** ** Serialization *)
Lemma dif_bytes_lt : forall L b, Forall (fun x => x < 2 ^ 8) (dif_bytes b L).
Proof.
  assert (G : forall f n, Forall (fun x => x < 2 ^ 8) (venc_f f n)).
  { induction f as [|f IH]; intros n; cbn [venc_f]; [constructor|].
    destruct (N.ltb_spec n 128).
    - constructor; [|constructor]. change (2 ^ 8) with 256. lia.
    - constructor; auto. pose proof (N.mod_lt n 128 ltac:(discriminate)).
      change (2 ^ 8) with 256. lia. }
  induction L as [|x L IH]; intros b; cbn [dif_bytes]; [constructor|].
  apply Forall_app. split; [apply G|apply IH].
Qed.

Lemma last_lt : forall L b, b < 2 ^ 32 -> Forall (fun x => x < 2 ^ 32) L -> last L b < 2 ^ 32.
Proof.
  induction L as [|x L IH]; intros b Hb HF; [exact Hb|]. rewrite last_cons.
  inversion HF; subst. auto.
Qed.

Lemma dif_repr_fits : forall e d L, dif_repr d L -> N.of_nat (length L) < 2 ^ usize_bits e ->
  dif_fits e d.
Proof.
  intros e d L (A & B & C & D & F) Hl. unfold dif_fits. rewrite C, D, F.
  split; [apply dif_bytes_lt|]. split; [exact Hl|]. unfold last_of. apply last_lt; auto.
Qed.

Lemma plus_serde_ok : forall (V : Type) e ord p (b : V -> N) H s ser_b de_b (b' : V -> N),
  32 <= usize_bits e -> 4 <= p <= 18 -> is_order ord -> plus_ok p b H s ->
  de_b (ser_b b) = Some b' ->
  exists s', de_plus e de_b (ser_plus ord ser_b s) = Some s' /\ plus_ok p b' H s' /\
    (flushed p H s -> flushed p H s').
Proof.
  intros V e ord p b H s ser_b de_b b' He Hp Ho (Hd & HF & HB) Hbb.
  pose proof Hd as (A & B & C0 & C1 & C2).
  pose proof (pow2_le _ _ He) as Hw. pose proof (pow2_le p 18 ltac:(lia)) as Hpw.
  pose proof (sparse_limit_bounds p Hp) as HSL.
  assert (HT : Forall (fun x => x < 2 ^ 32) (hp_tmpset s) /\ NoDup (hp_tmpset s) /\
               dif_fits e (hp_sparse s) /\
               forall r, hp_registers s = Some r -> registers_fit e r).
  { unfold body_ok in HB. destruct (hp_registers s) as [r|] eqn:Er.
    - destruct HB as (T & S & Hr & _). rewrite T, S.
      split; [constructor|]. split; [constructor|]. split.
      + eapply dif_repr_fits; [apply dif_repr_new|]. cbn. apply pow2_pos.
      + intros r' E. inv E. eapply holds_fit; [| |exact Hr]; [now right|lia].
    - destruct HB as ((L & HN & HD & HS & HC & HG) & HTl).
      split; [|split; [auto|split; [|discriminate]]].
      + apply Forall_forall. intros x Hx. apply (codes_lt p H HF). apply HC. apply in_app_iff. auto.
      + eapply dif_repr_fits; [exact HD|]. pose proof (gap_len_length L 0).
        change (2 ^ 32) with 4294967296 in Hw. lia. }
  destruct HT as (HT & HN & HDf & HR).
  change (2 ^ 18) with 262144 in *. change (2 ^ 32) with 4294967296 in Hw.
  rewrite (de_ser_plus V e ord ser_b de_b s b').
  - eexists. split; [reflexivity|].
    destruct (hset_inserts (ord (hp_tmpset s)) [] (NoDup_nil _)) as [HN2 HS2].
    assert (HO : same_set (fold_left hset_insert (ord (hp_tmpset s)) []) (hp_tmpset s)).
    { intros x. rewrite (HS2 x), app_nil_r. split; apply Permutation_in;
        [|apply Permutation_sym]; apply Ho. }
    assert (HE : hp_tmpset s = [] -> fold_left hset_insert (ord (hp_tmpset s)) [] = []).
    { intros E. destruct (fold_left hset_insert (ord (hp_tmpset s)) []) as [|x l] eqn:EF; auto.
      exfalso. rewrite E in HO. apply (HO x). now left. }
    split; [split; [|split; [auto|]]|].
    + split; [reflexivity|]. split; [exact B|split; [exact C0|split; [exact C1|exact C2]]].
    + unfold body_ok in *. cbn [hp_registers hp_tmpset hp_sparse].
      destruct (hp_registers s) as [r|].
      * destruct HB as (T & HB). auto.
      * destruct HB as ((L & HN' & HD & HS & HC & HG) & HTl). split.
        -- exists L. split; [auto|split; [auto|split; [auto|split; [|auto]]]].
           intros x. rewrite <- (HC x), !in_app_iff, (HO x). tauto.
        -- rewrite len_length in *. enough (length (fold_left hset_insert (ord (hp_tmpset s)) [])
             <= length (hp_tmpset s))%nat by lia.
           apply NoDup_incl_len; auto. intros x Hx. now apply HO.
    + intros (T & Hf). unfold flushed. cbn [hp_registers hp_tmpset hp_sparse]. auto.
  - now rewrite A.
  - rewrite B. change (2 ^ 8) with 256. lia.
  - rewrite C0. lia.
  - rewrite C1. change (2 ^ 24) with 16777216. lia.
  - rewrite C2. lia.
  - eapply Permutation_Forall; [apply Permutation_sym, Ho|exact HT].
  - exact HDf.
  - exact HR.
Qed.

(** ** Histories *)
Lemma hash64_lt : forall (V : Type) (b : V -> N) v, hash64 b v < 2 ^ 64.
Proof. intros. apply N.mod_lt. discriminate. Qed.

Theorem run_plus_gen : forall (V : Type) e (h : hist V), build_std e -> valid MAX_PLUS h ->
  countable (usize_bits e) h ->
  exists s, run_plus e h = Ret s /\ plus_ok (hist_precision h) (hist_builder h) (hist_hashes h) s.
Proof.
  intros V e h Hb. pose proof (proj1 (proj1 Hb)) as He.
  induction h as [p b|k ord h IH v|ord h1 IH1 h2 IH2|ord h IH|ord ser_b de_b h IH];
    cbn [valid countable hist_precision hist_builder hist_hashes run_plus]; intros Hv Hn.
  - destruct (hp_new_ok V e p b He Hv) as (s & E & Hs & _). rewrite E, bind_ret. exists s. auto.
  - destruct Hv as [Ho Hv]. destruct (IH Hv Hn) as (s & E & Hs). rewrite E, bind_ret.
    pose proof (hist_prec V _ h Hv) as Hp. unfold MAX_PLUS in Hp.
    destruct (hp_insert_hash_ok V e ord _ _ _ s (hash64 (hist_builder h) v) He Hp Ho
      (hash64_lt _ _ _) Hs) as (s' & E' & Hs').
    exists s'. split; auto. pose proof Hs as ((HB & _) & _).
    destruct k; unfold hp_add, hp_insert, hp_insert_any, hp_insert_impl; rewrite HB; exact E'.
  - destruct Hv as (Ho & Hv1 & Hv2). destruct Hn as [Hn1 Hn2].
    destruct (IH1 Hv1 Hn1) as (s1 & E1 & Hs1). destruct (IH2 Hv2 Hn2) as (s2 & E2 & Hs2).
    rewrite E1, bind_ret, E2, bind_ret.
    pose proof (hist_prec V _ h1 Hv1) as Hp. unfold MAX_PLUS in Hp.
    destruct (N.eqb_spec (hist_precision h1) (hist_precision h2)) as [E|E].
    + rewrite <- E in Hs2.
      destruct (hp_merge_ok V V e ord _ _ _ _ _ s1 s2 He Hp Ho Hs1 Hs2) as (s & E' & Hs).
      rewrite E', bind_ret. eauto.
    + rewrite hp_merge_mismatch, bind_ret
        by (destruct Hs1 as ((_ & -> & _) & _), Hs2 as ((_ & -> & _) & _); auto).
      eauto.
  - destruct Hv as [Ho Hv]. destruct Hn as [Hc Hn]. destruct (IH Hv Hn) as (s & E & Hs). rewrite E, bind_ret.
    pose proof (hist_prec V _ h Hv) as Hp. unfold MAX_PLUS in Hp.
    destruct (hp_count_ok V e ord _ _ _ s Hb Hp Hc Ho Hs)
      as (s' & c & E' & Hd & Hf & _).
    rewrite E', bind_ret. exists s'. split; [auto|]. split; [auto|].
    split; [apply Hs|]. apply flushed_body; auto. lia.
  - destruct Hv as (Ho & Hv & b & Eb & Hbv). destruct (IH Hv Hn) as (s & E & Hs).
    rewrite E, bind_ret. rewrite Eb. pose proof (hist_prec V _ h Hv) as Hp. unfold MAX_PLUS in Hp.
    destruct (plus_serde_ok V e ord _ _ _ s ser_b de_b b He Hp Ho Hs Eb) as (s' & E' & Hs' & _).
    rewrite E'. cbn [unwrap]. eauto.
Qed.

Theorem count_plus_gen : forall (V : Type) e ord (h : hist V), build_std e -> valid MAX_PLUS h ->
  countable (usize_bits e) (HCount ord h) -> is_order ord ->
  exists s s' c, run_plus e h = Ret s /\ hp_count e ord s = Ret (s', c) /\
    count_plus e ord h = Ret c /\
    header (hist_precision h) (hist_builder h) s' /\
    flushed (hist_precision h) (hist_hashes h) s' /\
    value_of e (hist_precision h) (hist_hashes h) c.
Proof.
  intros V e ord h Hb Hv [Hc Hn] Ho. destruct (run_plus_gen V e h Hb Hv Hn) as (s & E & Hs).
  pose proof (hist_prec V _ h Hv) as Hp. unfold MAX_PLUS in Hp.
  destruct (hp_count_ok V e ord _ _ _ s Hb Hp Hc Ho Hs)
    as (s' & c & E' & Hd & Hf & Hvl).
  exists s, s', c. unfold count_plus. rewrite E, bind_ret, E', bind_ret. auto 10.
Qed.

Lemma narrow_countable : forall (V : Type) w (h : hist V), narrow w h -> countable w h.
Proof.
  induction h; cbn [narrow countable]; intuition auto. left. now apply narrow_prec.
Qed.

Theorem run_plus_ok : forall (V : Type) e (h : hist V), build_std e -> valid MAX_PLUS h ->
  narrow (usize_bits e) h ->
  exists s, run_plus e h = Ret s /\ plus_ok (hist_precision h) (hist_builder h) (hist_hashes h) s.
Proof. intros. apply run_plus_gen; auto. now apply narrow_countable. Qed.

Theorem count_plus_ok : forall (V : Type) e ord (h : hist V), build_std e -> valid MAX_PLUS h ->
  narrow (usize_bits e) h -> is_order ord ->
  exists s s' c, run_plus e h = Ret s /\ hp_count e ord s = Ret (s', c) /\
    count_plus e ord h = Ret c /\
    header (hist_precision h) (hist_builder h) s' /\
    flushed (hist_precision h) (hist_hashes h) s' /\
    value_of e (hist_precision h) (hist_hashes h) c.
Proof.
  intros V e ord h Hb Hv Hn Ho. apply count_plus_gen; auto. apply narrow_countable. exact Hn.
Qed.
