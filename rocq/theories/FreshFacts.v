(** * Which hashes change a sketch *)
From Coq Require Import NArith ZArith Reals List Bool Lia Lra Sorted Permutation.
From Flocq Require Import Core BinarySingleNaN.
From Verif Require Import ModelRust ModelEnv ModelF64 ModelRegisters ModelEncoding ModelPF ModelPlus ModelHistory
  Spec SpecBuild SpecReal SpecCount SpecDist SpecSmall SpecFresh BitFacts CountFacts DistFacts CodeDist RegFacts EncFacts AbsorbFacts
  CodeFacts MergeFacts PFInv PlusInv ObsFacts ClaimFacts RawFacts SmallFacts ClaimFloat.
Import ListNotations.
Local Open Scope N_scope.

(** ** Sizes of disjoint unions *)

Lemma size_union : forall (A B : Type) (P : A -> B -> Prop) (f : A -> N) l, NoDup l ->
  (forall i, In i l -> size_of (P i) (f i)) ->
  (forall i j x, In i l -> In j l -> P i x -> P j x -> i = j) ->
  size_of (fun x => exists i, In i l /\ P i x) (sum (map f l)).
Proof.
  intros A B P f l ND S D. induction ND as [|i l Hi ND IH].
  - exists []. split; [|reflexivity]. split; [constructor|]. intros x. split; [intros []|intros (i & [] & _)].
  - destruct IH as (m & [M1 M2] & ML).
    { intros j Hj. apply S. now right. }
    { intros a b x Ha Hb. apply D; now right. }
    destruct (S i (or_introl eq_refl)) as (k & [K1 K2] & KL).
    exists (k ++ m). split; [split|].
    + clear - K1 K2 M1 M2 D Hi.
      assert (X : forall x, In x k -> ~ In x m).
      { intros x Hx Hm. apply K2 in Hx. apply M2 in Hm. destruct Hm as (j & Hj & Pj).
        apply Hi. rewrite (D i j x); [exact Hj|now left|now right|exact Hx|exact Pj]. }
      clear K2 M2 D. induction k as [|y k IHk]; [exact M1|]. cbn [app]. inversion K1; subst. constructor.
      * intros Y. apply in_app_iff in Y. destruct Y as [Y|Y]; [tauto|]. apply (X y); [now left|exact Y].
      * apply IHk; [assumption|]. intros x Hx. apply X. now right.
    + intros x. rewrite in_app_iff, K2, M2. split.
      * intros [H|(j & Hj & H)]; [exists i|exists j]; (split; [|exact H]); [now left|now right].
      * intros (j & [<-|Hj] & H); [now left|right; exists j; auto].
    + rewrite app_length, Nnat.Nat2N.inj_add, KL, ML. reflexivity.
Qed.

Lemma above_size : forall W p i k, p < W -> i < 2 ^ p -> k <= W - p ->
  size_of (fun h => h < 2 ^ W /\ bucket W p h = i /\ k < rank W p h) (2 ^ (W - p - k)).
Proof.
  intros W p i k Hp Hi Hk. apply size_of_has.
  eapply has_size_ext; [|apply (bucket_interval W p i 0 (2 ^ (W - p - k)) Hp Hi)].
  - intros h. cbv beta. rewrite (rank_above W p h k Hp Hk).
    generalize (2 ^ (W - p - k)), (h mod 2 ^ (W - p)). intros.
    split; intros (X & Y & Z); (split; [auto|split; [auto|lia]]).
  - assert (2 ^ (W - p - k) <= 2 ^ (W - p)) by (apply N.pow_le_mono_r; lia). lia.
Qed.

Lemma bucket_lt : forall W p x, p < W -> x < 2 ^ W -> bucket W p x < 2 ^ p.
Proof.
  intros W p x Hp Hx. unfold bucket. apply N.div_lt_upper_bound; [apply N.pow_nonzero; discriminate|].
  rewrite <- N.pow_add_r. replace (W - p + p) with W by lia. exact Hx.
Qed.

Lemma rank_max : forall W p x, p < W -> x < 2 ^ W -> rank W p x <= W - p + 1.
Proof.
  intros W p x Hp Hx. unfold rank. cbv zeta. destruct (_ =? 0); lia.
Qed.

Theorem raising_size : forall W p l, p < W -> N.of_nat (length l) = 2 ^ p ->
  size_of (fun x => x < 2 ^ W /\ raises W p l x) (raising W p l).
Proof.
  intros W p l Hp HL. unfold raising.
  replace (map (fun v => if v <=? W - p then 2 ^ (W - p - v) else 0) l) with
    (map (fun i => if nth (N.to_nat i) l 0 <=? W - p then 2 ^ (W - p - nth (N.to_nat i) l 0) else 0) (range (2 ^ p)))
    by (symmetry; etransitivity; [exact (f_equal (map (fun v => if v <=? W - p then 2 ^ (W - p - v) else 0)) (nth_range l (2 ^ p) HL))|apply map_map]).
  set (P := fun i x => x < 2 ^ W /\ bucket W p x = i /\ nth (N.to_nat i) l 0 < rank W p x).
  apply (size_of_ext _ (fun x => exists i, In i (range (2 ^ p)) /\ P i x)).
  - intros x. unfold P, raises. split.
    + intros (i & _ & Hx & <- & R). auto.
    + intros [Hx R]. exists (bucket W p x). split; [apply range_in; now apply bucket_lt|auto].
  - apply size_union.
    + apply range_NoDup.
    + intros i Hi. apply range_in in Hi. unfold P.
      destruct (N.leb_spec (nth (N.to_nat i) l 0) (W - p)) as [L|L].
      * now apply above_size.
      * exists []. split; [|reflexivity]. split; [constructor|]. intros x. split; [intros []|].
        intros (Hx & _ & R). pose proof (rank_max W p x Hp Hx). lia.
    + intros i j x _ _ (_ & <- & _) (_ & E & _). exact E.
Qed.

(** ** Registers *)

Lemma file_cons : forall W p H l x, is_register_file W p H l -> ~ raises W p l x ->
  bucket W p x < 2 ^ p -> is_register_file W p (x :: H) l.
Proof.
  intros W p H l x [HL F] R Hx. split; [exact HL|]. intros i v E. destruct (F i v E) as [U X]. split.
  - intros h [<-|Hh] Hi; [|now apply U]. unfold raises in R. rewrite Hi in R.
    rewrite (nth_error_nth _ _ _ E) in R. lia.
  - destruct X as [->|(h & Hh & A)]; [now left|right]. exists h. split; [now right|exact A].
Qed.

Lemma file_not_cons : forall W p H l x, is_register_file W p (x :: H) l ->
  bucket W p x < 2 ^ p -> ~ raises W p l x.
Proof.
  intros W p H l x F Hx R. destruct (file_nth W p _ l _ F Hx) as [U _].
  specialize (U x (or_introl eq_refl) eq_refl). unfold raises in R. lia.
Qed.

Lemma holds_cons : forall sz W p H r x, holds sz W p H r -> ~ raises W p (reg_iter sz r) x ->
  bucket W p x < 2 ^ p -> holds sz W p (x :: H) r.
Proof.
  intros sz W p H r x (A & B & C & D & E & G) R Hx. repeat (split; [assumption|]).
  split; [now apply file_cons|auto].
Qed.

Theorem pf_changes : forall (V : Type) e (h : hist V) s, build e -> valid MAX_PF h -> narrow (usize_bits e) h ->
  run_pf e h = Ret s ->
  let l := reg_iter 5 (pf_registers s) in
  (forall x, x < 2 ^ 32 -> (pf_insert_hash e s x <> Ret s <-> raises 32 (hist_precision h) l x)) /\
  has_size (fun x => x < 2 ^ 32 /\ pf_insert_hash e s x <> Ret s) (raising 32 (hist_precision h) l).
Proof.
  intros V e h s Hb Hv Hn E l.
  destruct (run_pf_ok V e h Hb Hv Hn) as (s' & E' & Hs). rewrite E in E'. injection E' as <-.
  pose proof (hist_prec V _ h Hv) as Hp. unfold MAX_PF in Hp.
  assert (A : forall x, x < 2 ^ 32 -> (pf_insert_hash e s x <> Ret s <-> raises 32 (hist_precision h) l x)).
  { intros x Hx. pose proof (bucket_lt 32 (hist_precision h) x ltac:(lia) Hx) as HB.
    destruct (pf_insert_hash_ok V e _ _ _ s x ltac:(apply Hb) Hp Hs) as (s1 & E1 & H1).
    rewrite N.mod_small in E1 by exact Hx. rewrite E1.
    destruct Hs as (S1 & S2 & S3 & S4). unfold l.
    split.
    - intros X. destruct (N.lt_ge_cases (nth (N.to_nat (bucket 32 (hist_precision h) x)) (reg_iter 5 (pf_registers s)) 0)
        (rank 32 (hist_precision h) x)) as [L|L]; [exact L|]. exfalso. apply X. f_equal.
      apply (pf_ok_inj V (hist_precision h) (hist_builder h) (x :: hist_hashes h)); [lia|exact H1|].
      split; [exact S1|]. split; [exact S2|]. split; [exact S3|].
      unfold low32. cbn [map]. rewrite N.mod_small by exact Hx. apply holds_cons; [exact S4| |exact HB].
      unfold raises. lia.
    - intros R X. injection X as ->. destruct H1 as (_ & _ & _ & _ & _ & _ & F & _).
      unfold low32 in F. cbn [map] in F. rewrite N.mod_small in F by exact Hx.
      exact (file_not_cons _ _ _ _ _ F HB R). }
  split; [exact A|]. apply size_of_has.
  apply (size_of_ext _ (fun x => x < 2 ^ 32 /\ raises 32 (hist_precision h) l x)).
  - intros x. split; intros [Hx R]; (split; [exact Hx|]); now apply A.
  - apply raising_size; [lia|]. destruct Hs as (_ & _ & _ & _ & _ & _ & F & _). apply F.
Qed.

Theorem plus_changes : forall (V : Type) e ord (h : hist V) s r, build_std e -> valid MAX_PLUS h ->
  narrow (usize_bits e) h -> is_order ord -> run_plus e h = Ret s -> hp_registers s = Some r ->
  let l := reg_iter 6 r in
  (forall x, x < 2 ^ 64 -> (hp_insert_hash e ord s x <> Ret s <-> raises 64 (hist_precision h) l x)) /\
  has_size (fun x => x < 2 ^ 64 /\ hp_insert_hash e ord s x <> Ret s) (raising 64 (hist_precision h) l).
Proof.
  intros V e ord h s r Hb Hv Hn Ho E Er l.
  destruct (run_plus_ok V e h Hb Hv Hn) as (s' & E' & Hs). rewrite E in E'. injection E' as <-.
  pose proof (hist_prec V _ h Hv) as Hp. unfold MAX_PLUS in Hp.
  assert (A : forall x, x < 2 ^ 64 -> (hp_insert_hash e ord s x <> Ret s <-> raises 64 (hist_precision h) l x)).
  { intros x Hx. pose proof (bucket_lt 64 (hist_precision h) x ltac:(lia) Hx) as HB.
    destruct (hp_insert_hash_ok V e ord _ _ _ s x ltac:(apply Hb) Hp Ho Hx Hs) as (s1 & E1 & H1).
    rewrite E1. destruct Hs as (Hd & HF & HB0). unfold body_ok in HB0. rewrite Er in HB0.
    destruct HB0 as (T & D & S4 & BC). unfold l.
    split.
    - intros X. destruct (N.lt_ge_cases (nth (N.to_nat (bucket 64 (hist_precision h) x)) (reg_iter 6 r) 0)
        (rank 64 (hist_precision h) x)) as [L|L]; [exact L|]. exfalso. apply X. f_equal.
      pose proof (big_codes_incl (hist_precision h) (hist_hashes h) (x :: hist_hashes h)
        ltac:(intros y Hy; now right) BC) as BC'.
      assert (F1 : flushed (hist_precision h) (x :: hist_hashes h) s).
      { split; [exact T|]. rewrite Er. split; [exact D|]. split; [|exact BC'].
        apply holds_cons; [exact S4|unfold raises; lia|exact HB]. }
      destruct H1 as (Hd1 & _ & HB1). unfold body_ok in HB1.
      assert (F2 : flushed (hist_precision h) (x :: hist_hashes h) s1).
      { unfold flushed. destruct (hp_registers s1) as [r1|] eqn:Er1; [tauto|].
        exfalso. unfold hp_insert_hash in E1. rewrite Er in E1.
        repeat match type of E1 with bind ?m _ = _ => destruct m; cbn [bind] in E1; try discriminate end;
        injection E1 as <-; cbn in Er1; discriminate. }
      apply (flushed_unique V (hist_precision h) (hist_builder h) (x :: hist_hashes h)); auto; lia.
    - intros R X. injection X as ->. destruct H1 as (_ & _ & HB1). unfold body_ok in HB1. rewrite Er in HB1.
      destruct HB1 as (_ & _ & (_ & _ & _ & F & _) & _).
      exact (file_not_cons _ _ _ _ _ F HB R). }
  split; [exact A|]. apply size_of_has.
  apply (size_of_ext _ (fun x => x < 2 ^ 64 /\ raises 64 (hist_precision h) l x)).
  - intros x. split; intros [Hx R]; (split; [exact Hx|]); now apply A.
  - apply raising_size; [lia|]. destruct Hs as (_ & _ & HB0). unfold body_ok in HB0. rewrite Er in HB0.
    destruct HB0 as (_ & _ & (_ & _ & _ & F & _) & _). apply F.
Qed.

(** ** Codes *)

Lemma code_class : forall p h, h < 2 ^ 64 ->
  size_of (fun x => x < 2 ^ 64 /\ sparse_code p x = sparse_code p h) (code_hashes (sparse_code p h)).
Proof.
  intros p h Hh. pose proof (prefix_lt h Hh) as Hq. pose proof (rank25 h Hh) as Hr.
  destruct (N.eq_dec (prefix25 h mod 2 ^ (25 - p)) 0) as [Z|Z].
  - assert (E : sparse_code p h = 128 * prefix25 h + 2 * rank 64 25 h + 1).
    { unfold sparse_code. rewrite Z. cbn [N.eqb]. change (2 ^ 7) with 128. lia. }
    rewrite E. replace (code_hashes _) with (weight (rank 64 25 h)); [now apply ranked_class|].
    unfold code_hashes, weight. set (q := prefix25 h) in *. set (r := rank 64 25 h) in *.
    replace (128 * q + 2 * r + 1) with (2 * (64 * q + r) + 1) by lia.
    replace (N.even (2 * (64 * q + r) + 1)) with false
      by (symmetry; rewrite <- N.negb_odd; apply negb_false_iff; apply N.odd_spec; exists (64 * q + r); lia).
    replace ((2 * (64 * q + r) + 1) / 2) with (64 * q + r) by (apply (N.div_unique _ _ _ 1); lia).
    replace ((64 * q + r) mod 64) with r by (apply (N.mod_unique _ _ q); lia). reflexivity.
  - assert (E : sparse_code p h = 2 * prefix25 h).
    { unfold sparse_code. destruct (N.eqb_spec (prefix25 h mod 2 ^ (25 - p)) 0); [tauto|]. apply N.mul_comm. }
    rewrite E. replace (code_hashes _) with (2 ^ 39); [now apply plain_class|].
    unfold code_hashes. replace (N.even (2 * prefix25 h)) with true; [reflexivity|].
    symmetry. apply N.even_spec. exists (prefix25 h). reflexivity.
Qed.

Lemma known_size : forall p H L, Forall (fun h => h < 2 ^ 64) H -> is_code_list p H L ->
  size_of (fun x => x < 2 ^ 64 /\ In (sparse_code p x) L) (sum (map code_hashes L)).
Proof.
  intros p H L HF [S E].
  apply (size_of_ext _ (fun x => exists c, In c L /\ (x < 2 ^ 64 /\ sparse_code p x = c))).
  - intros x. split; [intros (c & Hc & Hx & <-); auto|intros [Hx Hc]; eauto].
  - apply size_union.
    + apply MergeFacts.strong_NoDup. exact S.
    + intros c Hc. apply E in Hc. apply in_map_iff in Hc. destruct Hc as (h & <- & Hh).
      apply code_class. rewrite Forall_forall in HF. now apply HF.
    + intros i j x _ _ (_ & <-) (_ & <-). reflexivity.
Qed.

Lemma code_list_cons : forall p H L x, is_code_list p H L ->
  (In (sparse_code p x) L <-> is_code_list p (x :: H) L).
Proof.
  intros p H L x [S E]. split.
  - intros X. split; [exact S|]. intros c. cbn [map In]. rewrite (E c). split; [now right|].
    intros [<-|Y]; [now apply E|exact Y].
  - intros [_ E']. apply E'. now left.
Qed.

Theorem sparse_changes : forall (V : Type) e ord (h : hist V) s L, build_std e -> valid MAX_PLUS h ->
  narrow (usize_bits e) h -> is_order ord -> run_plus e h = Ret s ->
  is_code_list (hist_precision h) (hist_hashes h) L -> gap_len 0 L <= sparse_limit (hist_precision h) ->
  (forall x, x < 2 ^ 64 -> (unmoved e ord s x <-> In (sparse_code (hist_precision h) x) L)) /\
  has_size (fun x => x < 2 ^ 64 /\ unmoved e ord s x) (sum (map code_hashes L)).
Proof.
  intros V e ord h s L Hb Hv Hn Ho E HL HG.
  destruct (run_plus_ok V e h Hb Hv Hn) as (s' & E' & Hs). rewrite E in E'. injection E' as <-.
  pose proof (hist_prec V _ h Hv) as Hp. unfold MAX_PLUS in Hp.
  pose proof (narrow_prec V _ h Hn) as Hw.
  set (p := hist_precision h) in *. set (H := hist_hashes h) in *.
  destruct (hp_count_ok V e ord p _ H s Hb Hp (or_introl Hw) Ho Hs) as (s0 & c0 & C0 & D0 & F0 & _).
  pose proof F0 as [T0 B0].
  destruct (hp_registers s0) as [r|] eqn:Er.
  { exfalso. destruct B0 as (_ & _ & L' & HL' & HG'). rewrite (code_list_unique _ _ _ _ HL HL') in HG. lia. }
  destruct B0 as (L' & HL' & R0 & _). rewrite <- (code_list_unique _ _ _ _ HL HL') in R0. clear L' HL'.
  assert (A : forall x, x < 2 ^ 64 -> (unmoved e ord s x <-> In (sparse_code p x) L)).
  { intros x Hx.
    destruct (hp_insert_hash_ok V e ord _ _ _ s x ltac:(apply Hb) Hp Ho Hx Hs) as (s1 & E1 & H1).
    destruct (hp_count_ok V e ord p _ (x :: H) s1 Hb Hp (or_introl Hw) Ho H1) as (s2 & c2 & C2 & D2 & F2 & _).
    rewrite (code_list_cons p H L x HL). split.
    - intros (t0 & d0 & t1 & d1 & X1 & X2 & X3). rewrite C0 in X1. injection X1 as <- <-.
      rewrite E1 in X2. injection X2 as <-. rewrite C2 in X3. injection X3 as -> _.
      destruct F2 as [_ B2]. rewrite Er in B2. destruct B2 as (L2 & HL2 & R2 & _).
      replace L with L2; [exact HL2|].
      pose proof (dif_repr_reads e _ _ R0) as Q0. pose proof (dif_repr_reads e _ _ R2) as Q2.
      unfold dif_reads in Q0, Q2. rewrite Q0 in Q2. now injection Q2.
    - intros HL1. exists s0, c0, s1, c2. split; [exact C0|]. split; [exact E1|]. rewrite C2. f_equal. f_equal.
      apply (flushed_unique V p (hist_builder h) (x :: H)); auto; [lia|].
      split; [exact T0|]. rewrite Er. exists L. auto. }
  split; [exact A|]. apply size_of_has.
  apply (size_of_ext _ (fun x => x < 2 ^ 64 /\ In (sparse_code p x) L)).
  - intros x. split; intros [Hx R]; (split; [exact Hx|]); now apply A.
  - apply (known_size p H); [apply Hs|exact HL].
Qed.

(** ** Histories a sketch cannot tell apart *)

Lemma file_outranked : forall W p H H' l, p < W -> outranked W p H H' -> outranked W p H' H ->
  is_register_file W p H l -> is_register_file W p H' l.
Proof.
  intros W p H H' l Hp O O' [HL F]. split; [exact HL|]. intros i v E. destruct (F i v E) as [U X].
  assert (U' : forall h, In h H' -> bucket W p h = i -> rank W p h <= v).
  { intros h Hh Hi. destruct (O' h Hh) as (y & Hy & By & Ry). specialize (U y Hy ltac:(congruence)). lia. }
  split; [exact U'|]. destruct X as [->|(h & Hh & Hi & Hr)]; [now left|right].
  destruct (O h Hh) as (y & Hy & By & Ry). exists y. split; [exact Hy|]. split; [congruence|].
  specialize (U' y Hy ltac:(congruence)). lia.
Qed.

Theorem alike_pf : forall (V V' : Type) e (h : hist V) (h' : hist V'), build e ->
  valid MAX_PF h -> valid MAX_PF h' -> narrow (usize_bits e) h -> narrow (usize_bits e) h' ->
  hist_precision h = hist_precision h' ->
  let H := map (fun x => x mod 2 ^ 32) (hist_hashes h) in
  let H' := map (fun x => x mod 2 ^ 32) (hist_hashes h') in
  outranked 32 (hist_precision h) H H' -> outranked 32 (hist_precision h) H' H ->
  count_pf e h = count_pf e h'.
Proof.
  intros V V' e h h' Hb Hv Hv' Hn Hn' Ep H H' O O'.
  destruct (count_pf_ok V e h Hb Hv Hn) as (l & F & _ & Ec).
  destruct (count_pf_ok V' e h' Hb Hv' Hn') as (l' & F' & _ & Ec').
  pose proof (hist_prec V _ h Hv) as Hp. unfold MAX_PF in Hp.
  rewrite Ec, Ec', <- Ep in *.
  rewrite (is_register_file_unique 32 (hist_precision h) H' l l'); [reflexivity|lia| |exact F'].
  apply (file_outranked 32 _ H H'); auto. lia.
Qed.

Lemma same_code : forall p x y, 4 <= p <= 18 -> x < 2 ^ 64 -> y < 2 ^ 64 -> sparse_code p x = sparse_code p y ->
  bucket 64 p x = bucket 64 p y /\ rank 64 p x = rank 64 p y.
Proof.
  intros p x y Hp Hx Hy E.
  pose proof (decode_encode ModelTests.test_env p x) as Dx. pose proof (decode_encode ModelTests.test_env p y) as Dy.
  rewrite E in Dx. rewrite Dy in Dx; try lia; try (cbn; lia); auto. now injection Dx as -> ->.
Qed.

Lemma code_covers : forall p H H', 4 <= p <= 18 -> Forall (fun h => h < 2 ^ 64) H -> Forall (fun h => h < 2 ^ 64) H' ->
  incl (map (sparse_code p) H) (map (sparse_code p) H') -> covers 64 p H H'.
Proof.
  intros p H H' Hp F F' I x Hx. rewrite Forall_forall in F, F'.
  pose proof (I _ (in_map (sparse_code p) H x Hx)) as Y. apply in_map_iff in Y. destruct Y as (y & E & Hy).
  exists y. split; [exact Hy|]. apply same_code; auto.
Qed.

Theorem alike_plus : forall (V V' : Type) e ord ord' (h : hist V) (h' : hist V'), build_std e ->
  valid MAX_PLUS h -> valid MAX_PLUS h' -> narrow (usize_bits e) h -> narrow (usize_bits e) h' ->
  is_order ord -> is_order ord' -> hist_precision h = hist_precision h' ->
  same_set (map (sparse_code (hist_precision h)) (hist_hashes h))
    (map (sparse_code (hist_precision h)) (hist_hashes h')) ->
  count_plus e ord h = count_plus e ord' h'.
Proof.
  intros V V' e ord ord' h h' Hb Hv Hv' Hn Hn' Ho Ho' Ep S.
  destruct (count_plus_ok V e ord h Hb Hv Hn Ho) as (s & _ & c & E & _ & Ec & _ & _ & Vc).
  destruct (count_plus_ok V' e ord' h' Hb Hv' Hn' Ho') as (s' & _ & c' & E' & _ & Ec' & _ & _ & Vc').
  pose proof (hist_prec V _ h Hv) as Hp. unfold MAX_PLUS in Hp.
  destruct (run_plus_ok V e h Hb Hv Hn) as (_ & _ & _ & F & _).
  destruct (run_plus_ok V' e h' Hb Hv' Hn') as (_ & _ & _ & F' & _).
  rewrite Ec, Ec'. f_equal. rewrite <- Ep in *.
  apply (value_unique e (hist_precision h) (hist_hashes h')); [lia| |exact Vc'].
  destruct Vc as (L & [L1 L2] & A). exists L. split.
  { split; [exact L1|]. intros x. rewrite (L2 x). apply S. }
  destruct A as [A|(A & l & R & G & B)]; [now left|right]. split; [exact A|]. exists l. split; [|auto].
  eapply is_register_file_ext; [| |exact R]; apply code_covers; auto; intros x Hx; now apply S.
Qed.

(** ** Inputs that defeat the sketches *)

Lemma one_hit : forall W p H i, H <> [] -> (forall x, In x H -> bucket W p x = i) -> enumerates (hit W p H) [i].
Proof.
  intros W p H i NE A. split; [constructor; [intros []|constructor]|]. intros x. split.
  - intros [<-|[]]. destruct H as [|y H]; [tauto|]. exists y. split; [now left|]. apply A. now left.
  - intros (y & Hy & <-). left. symmetry. now apply A.
Qed.

Lemma limit_pos : forall p, 4 <= p <= 18 -> 1 <= exact_limit p.
Proof.
  intros p Hp. assert (C : p = 4 \/ p = 5 \/ p = 6 \/ p = 7 \/ p = 8 \/ p = 9 \/ p = 10 \/ p = 11 \/ p = 12 \/
    p = 13 \/ p = 14 \/ p = 15 \/ p = 16 \/ p = 17 \/ p = 18) by lia.
  repeat (destruct C as [->|C]; [vm_compute; discriminate|]). subst. vm_compute. discriminate.
Qed.

Theorem defeat_pf : forall (V : Type) e (h : hist V) i,
  build e -> accurate e -> valid MAX_PF h -> narrow (usize_bits e) h -> hist_hashes h <> [] ->
  (forall x, In x (hist_hashes h) -> bucket 32 (hist_precision h) (x mod 2 ^ 32) = i) ->
  exists c, count_pf e h = Ret c /\ is_finite c = true /\ Ztrunc (B2R c) = 1%Z.
Proof.
  intros V e h i Hb Ha Hv Hn NE A. pose proof (hist_prec V _ h Hv) as Hp. unfold MAX_PF in Hp.
  apply (pf_exact_small V e h [i] Hb Ha Hv Hn).
  - apply one_hit.
    + intros X. apply map_eq_nil in X. tauto.
    + intros x Hx. apply in_map_iff in Hx. destruct Hx as (y & <- & Hy). now apply A.
  - apply (limit_pos (hist_precision h)). lia.
Qed.

Theorem defeat_plus : forall (V : Type) e ord (h : hist V) i,
  build_std e -> accurate e -> valid MAX_PLUS h -> narrow (usize_bits e) h -> is_order ord ->
  ~ fits (hist_precision h) (hist_hashes h) ->
  (forall x, In x (hist_hashes h) -> bucket 64 (hist_precision h) x = i) ->
  exists c, count_plus e ord h = Ret c /\ is_finite c = true /\ Ztrunc (B2R c) = 1%Z.
Proof.
  intros V e ord h i Hb Ha Hv Hn Ho NF A. pose proof (hist_prec V _ h Hv) as Hp. unfold MAX_PLUS in Hp.
  apply (plus_exact_small V e ord h [i] Hb Ha Hv Hn Ho NF).
  - apply one_hit; [|exact A]. intros X. apply NF. rewrite X. intros L [_ E].
    destruct L as [|c L]; [cbn; lia|]. exfalso. apply (proj1 (E c)). now left.
  - apply (limit_pos (hist_precision h)). lia.
Qed.

Theorem defeat_sparse : forall (V : Type) e ord (h : hist V) k,
  build_std e -> accurate e -> valid MAX_PLUS h -> narrow (usize_bits e) h -> is_order ord ->
  hist_hashes h <> [] -> (forall x, In x (hist_hashes h) -> sparse_code (hist_precision h) x = k) ->
  exists c, count_plus e ord h = Ret c /\ is_finite c = true /\ Ztrunc (B2R c) = 1%Z.
Proof.
  intros V e ord h k Hb Ha Hv Hn Ho NE A. pose proof (hist_prec V _ h Hv) as Hp. unfold MAX_PLUS in Hp.
  assert (HL : is_code_list (hist_precision h) (hist_hashes h) [k]).
  { split; [constructor; constructor|]. intros x. rewrite in_map_iff. split.
    - intros [<-|[]]. destruct (hist_hashes h) as [|y H]; [tauto|]. exists y. split; [apply A|]; now left.
    - intros (y & <- & Hy). left. symmetry. now apply A. }
  apply (small_exact V e ord h [k] Hb Ha Hv Hn Ho HL); [|cbn; lia].
  pose proof (sparse_limit_bounds (hist_precision h) ltac:(lia)).
  assert (k < 2 ^ 32).
  { destruct (run_plus_ok V e h Hb Hv Hn) as (_ & _ & _ & F & _).
    destruct (hist_hashes h) as [|y H']; [tauto|]. rewrite <- (A y (or_introl eq_refl)). apply sparse_code_lt.
    now inversion F. }
  assert (gap_len 0 [k] <= 5); [|lia]. cbn [gap_len]. rewrite N.add_0_r, N.sub_0_r.
  transitivity (varint_len (2 ^ 32 - 1)); [apply varint_len_mono; lia|vm_compute; discriminate].
Qed.

(** ** The raw estimate *)

Lemma raising_inv : forall W p l, Forall (fun v => v <= W - p) l ->
  (IZR (Z.of_N (raising W p l)) = IZR (Z.of_N (2 ^ (W - p))) * inv_sum l)%R.
Proof.
  intros W p l F. induction F as [|v l Hv F IH].
  - unfold raising, sum, inv_sum. cbn [map fold_right]. cbn [Z.of_N]. lra.
  - unfold raising, sum, inv_sum in *. cbn [map fold_right]. rewrite N2Z.inj_add, plus_IZR, IH, Rmult_plus_distr_l.
    f_equal. destruct (N.leb_spec v (W - p)) as [_|X]; [|lia].
    replace (W - p) with (W - p - v + v) at 2 by lia.
    rewrite N.pow_add_r, N2Z.inj_mul, mult_IZR, (N2Z.inj_pow 2 v). cbn [Z.of_N].
    change (Z.of_N 2) with 2%Z. field. apply IZR_neq. apply Z.pow_nonzero; lia.
Qed.

Theorem raw_chance : forall W p l, p < W -> N.of_nat (length l) = 2 ^ p -> Forall (fun v => v <= W - p) l ->
  (raw_R p l = alpha_R p * m_R p / (IZR (Z.of_N (raising W p l)) / IZR (Z.of_N (2 ^ W))))%R.
Proof.
  intros W p l Hp HL F. rewrite (raising_inv W p l F). unfold raw_R.
  assert (P : (0 < inv_sum l)%R).
  { destruct l as [|v l]; [cbn in HL; pose proof (N.pow_nonzero 2 p); lia|].
    unfold inv_sum. cbn [fold_right]. fold (inv_sum l). pose proof (inv_pow_pos v). pose proof (inv_sum_nonneg l). lra. }
  assert (E : IZR (Z.of_N (2 ^ W)) = (m_R p * IZR (Z.of_N (2 ^ (W - p))))%R).
  { replace W with (p + (W - p)) at 1 by lia. rewrite N.pow_add_r, N2Z.inj_mul, mult_IZR. f_equal.
    unfold m_R. rewrite N2Z.inj_pow. reflexivity. }
  assert (Q : (IZR (Z.of_N (2 ^ (W - p))) <> 0)%R).
  { apply IZR_neq. pose proof (N.pow_nonzero 2 (W - p)). lia. }
  rewrite E. field. split; [exact Q|]. split; [|lra].
  intros X. rewrite X, Rmult_0_l in E. revert E. apply IZR_neq. pose proof (N.pow_nonzero 2 W). lia.
Qed.
