(** * Steps of whole programs *)
From Coq Require Import NArith List Bool Lia Permutation.
From Verif Require Import ModelRust ModelF64 ModelEnv ModelRegisters ModelEncoding ModelCommon ModelPF ModelPlus ModelSerde ModelHistory ModelCost
  Spec SpecBuild SpecCost BitFacts RegFacts EncFacts CodeFacts MergeFacts AbsorbFacts PFInv PlusInv SerdeFacts WideFacts CostFacts CostState.
Import ListNotations.
Local Open Scope N_scope.

Lemma erased_run : forall (V : Type) e (h : hist V) s n, t_run_plus e h = Ret (s, n) -> run_plus e h = Ret s.
Proof. intros V e h s n H. rewrite <- erase_run_plus. now apply erased in H. Qed.
Lemma run_shape : forall (V : Type) e (h : hist V) s n, build_std e -> valid MAX_PLUS h -> t_run_plus e h = Ret (s, n) -> shape (hist_precision h) s.
Proof.
  intros V e h s n Hb Hv H. apply erased_run in H. apply run_plus_ret in H; auto. eapply ok_shape; [|exact H].
  pose proof (hist_prec V _ h Hv) as Hp. exact Hp.
Qed.
Lemma serde_same : forall (V : Type) e ord p ser_b (de_b : sval -> option (V -> N)) (s s' : plus V), is_order ord -> shape p s -> de_plus e de_b (ser_plus ord ser_b s) = Some s' ->
  len (hp_tmpset s') <= len (hp_tmpset s) /\ is_sparse s' = is_sparse s.
Proof.
  intros V e ord p ser_b de_b s s' Ho (_ & _ & _ & K) H.
  assert (F : Forall (fun x => x < 2 ^ 32) (ord (hp_tmpset s))). { apply order_small; auto. destruct (hp_registers s); [|apply K]. destruct K as [-> _]. constructor. }
  unfold de_plus, ser_plus in H. cbn -[de_registers de_uint de_seq de_dif de_option de_triple hset_insert fold_left] in H.
  unfold de_seq in H. rewrite de_list_ints in H by exact F. cbn [obind] in H.
  destruct (de_b _); [|discriminate]. cbn [obind] in H. destruct (de_uint _ _); [|discriminate]. cbn [obind] in H. destruct (de_triple _ _) as [[[? ?] ?]|]; [|discriminate]. cbn [obind] in H.
  destruct (de_dif _ _); [|discriminate]. cbn [obind] in H. unfold is_sparse.
  assert (L : len (fold_left hset_insert (ord (hp_tmpset s)) []) <= len (hp_tmpset s)).
  { pose proof (inserts_length (ord (hp_tmpset s)) []) as Q. rewrite (order_len ord _ Ho) in Q. change (len (@nil N)) with 0 in Q. lia. }
  destruct (hp_registers s); cbn [de_option] in H; [destruct (de_registers _ _); [|discriminate]|]; cbn in H; injection H as <-; cbn [hp_tmpset hp_registers]; auto.
Qed.
Lemma plus_pending : forall (V : Type) e (h : hist V) s n, build_std e -> valid MAX_PLUS h -> t_run_plus e h = Ret (s, n) -> n + pending (hist_precision h) s <= budget h.
Proof.
  intros V e h. induction h as [p b|k ord h IH v|ord h1 IH1 h2 IH2|ord h IH|ord ser_b de_b h IH]; intros s n Hb Hv H;
    pose proof (run_shape _ _ _ _ _ Hb Hv H) as SH; pose proof (hist_prec V _ _ Hv) as Hp; unfold MAX_PLUS in Hp; pose proof (proj1 (proj1 Hb)) as He;
    pose proof (limit_lt _ Hp) as (L1 & L2 & L3); cbn [t_run_plus hist_precision budget] in *.
  - apply after_inv in H as (k & H & ->). apply free_inv in H as [H ->].
    assert (Q : hp_tmpset s = [] /\ is_sparse s = true).
    { unfold hp_new in H. destruct (_ || _); [discriminate|].
      destruct (register_count e p) as [c0| |]; try discriminate. destruct (register_count e (PRIME_PRECISION - 1)) as [c1| |]; try discriminate.
      cbn [bind] in H. destruct (size_in_bytes e SIZE_PLUS c0) as [c2| |]; try discriminate. cbn [bind unwrap_res] in H.
      injection H as <-. split; reflexivity. }
    destruct Q as [Q R]. unfold pending. rewrite Q, R. change (len (@nil N)) with 0. lia.
  - destruct Hv as [Ho Hv]. apply tbind_inv in H as (s1 & n1 & n2 & A & H & ->). pose proof (IH _ _ Hb Hv A) as I1. pose proof (run_shape _ _ _ _ _ Hb Hv A) as S1.
    apply (insert_cost V e ord (hist_precision h)) in H as (H & _); auto. lia.
  - destruct Hv as (Ho & Hv1 & Hv2). apply tbind_inv in H as (s1 & n1 & n2 & A1 & H & ->). apply tbind_inv in H as (s2 & n3 & n4 & A2 & H & ->).
    apply tbind_inv in H as ([s3 r] & n5 & n6 & A & H & ->). apply free_inv in H as [H ->]. injection H as <-.
    pose proof (IH1 _ _ Hb Hv1 A1) as I1. pose proof (IH2 _ _ Hb Hv2 A2) as I2. pose proof (run_shape _ _ _ _ _ Hb Hv1 A1) as S1. pose proof (run_shape _ _ _ _ _ Hb Hv2 A2) as S2.
    destruct (N.eq_dec (hist_precision h1) (hist_precision h2)) as [E|E].
    + rewrite <- E in *. apply (merge_cost V V e ord (hist_precision h1)) in A; auto. lia.
    + unfold t_hp_merge in A. apply after_inv in A as (k & A & ->). destruct S1 as (P1 & _), S2 as (P2 & _). rewrite P1, P2, (proj2 (N.eqb_neq _ _) E) in A. cbn [negb] in A.
      apply free_inv in A as [A ->]. injection A as <- _. lia.
  - destruct Hv as [Ho Hv]. apply tbind_inv in H as (s1 & n1 & n2 & A & H & ->). pose proof (IH _ _ Hb Hv A) as I1. pose proof (run_shape _ _ _ _ _ Hb Hv A) as S1.
    apply tbind_inv in H as ([s3 x] & n5 & n6 & B & H & ->). apply free_inv in H as [H ->]. injection H as <-.
    apply (count_cost V e ord (hist_precision h)) in B as (B & _); auto. lia.
  - destruct Hv as (Ho & Hv & _). apply tbind_inv in H as (s1 & n1 & n2 & A & H & ->). pose proof (IH _ _ Hb Hv A) as I1. pose proof (run_shape _ _ _ _ _ Hb Hv A) as S1.
    apply tbind_inv in H as (s3 & n5 & n6 & B & H & ->). apply free_inv in B as [B ->]. apply after_inv in H as (k & H & ->). apply free_inv in H as [H ->]. injection H as <-.
    destruct (de_plus e de_b (ser_plus ord ser_b s1)) as [s4|] eqn:D; [|discriminate]. injection B as ->. apply (serde_same V e ord (hist_precision h)) in D as [D1 D2]; auto.
    unfold pending in *. rewrite D2. unfold plus_elements. destruct S1 as (_ & _ & _ & S1), SH as (_ & _ & _ & SH). unfold is_sparse in *.
    destruct (hp_registers s1) as [r1|], (hp_registers s3) as [r3|]; try discriminate D2.
    + destruct S1 as (T1 & B1 & W1 & _), SH as (T3 & B3 & W3 & _). rewrite T1, B1, T3, B3 in *. change (len (@nil N)) with 0 in *. lia.
    + lia.
Qed.
Theorem plus_steps : forall (V : Type) e (h : hist V) s, build_std e -> valid MAX_PLUS h -> run_plus e h = Ret s ->
  exists n, t_run_plus e h = Ret (s, n) /\ n <= budget h.
Proof.
  intros V e h s Hb Hv H. rewrite <- erase_run_plus in H. apply erase_inv in H as (n & H). exists n. split; [exact H|]. apply plus_pending in H; auto. lia.
Qed.

(** ** One call *)
Lemma pending_most : forall (V : Type) p (s : plus V), 4 <= p <= 18 -> shape p s -> pending p s <= 15 * 2 ^ p.
Proof.
  intros V p s Hp (_ & _ & _ & K). pose proof (limit_lt p Hp) as (L1 & L2 & _). unfold pending, is_sparse. destruct (hp_registers s).
  - destruct K as (-> & _). change (len (@nil N)) with 0. lia.
  - lia.
Qed.
Lemma plus_reach : forall (V : Type) e (h : hist V) s, build_std e -> valid MAX_PLUS h -> run_plus e h = Ret s ->
  32 <= usize_bits e /\ 4 <= hist_precision h <= 18 /\ shape (hist_precision h) s.
Proof.
  intros V e h s Hb Hv H. pose proof (hist_prec V _ _ Hv) as Hp. unfold MAX_PLUS in Hp. split; [apply Hb|]. split; [exact Hp|]. eapply ok_shape; [exact Hp|]. now apply (run_plus_ret V e h s).
Qed.
Theorem insert_steps : forall (V : Type) e ord (h : hist V) s v s' n, build_std e -> valid MAX_PLUS h -> is_order ord -> run_plus e h = Ret s ->
  t_hp_insert e ord s v = Ret (s', n) -> n <= 17 * 2 ^ hist_precision h /\ (is_sparse s = false -> n = 1 /\ is_sparse s' = false).
Proof.
  intros V e ord h s v s' n Hb Hv Ho R H. destruct (plus_reach V e h s Hb Hv R) as (He & Hp & SH).
  apply (insert_cost V e ord (hist_precision h)) in H as (_ & H); auto.
Qed.
Theorem merge_steps : forall (V : Type) e ord (h1 h2 : hist V) s1 s2 s' r n, build_std e -> valid MAX_PLUS h1 -> valid MAX_PLUS h2 -> is_order ord ->
  run_plus e h1 = Ret s1 -> run_plus e h2 = Ret s2 -> t_hp_merge e ord s1 s2 = Ret ((s', r), n) ->
  n <= 56 * 2 ^ hist_precision h1 /\ (hist_precision h1 <> hist_precision h2 -> n = 1).
Proof.
  intros V e ord h1 h2 s1 s2 s' r n Hb Hv1 Hv2 Ho R1 R2 H. destruct (plus_reach V e h1 s1 Hb Hv1 R1) as (He & Hp & S1). destruct (plus_reach V e h2 s2 Hb Hv2 R2) as (_ & Hp2 & S2).
  pose proof (limit_lt _ Hp) as (_ & L2 & _). destruct (N.eq_dec (hist_precision h1) (hist_precision h2)) as [E|E].
  - rewrite <- E in *. apply (merge_cost V V e ord (hist_precision h1)) in H; auto. pose proof (pending_most _ _ _ Hp S1). pose proof (pending_most _ _ _ Hp S2). split; [lia|]. intros Q. congruence.
  - unfold t_hp_merge in H. apply after_inv in H as (k & A & ->). destruct S1 as (P1 & _), S2 as (P2 & _). rewrite P1, P2, (proj2 (N.eqb_neq _ _) E) in A. cbn [negb] in A.
    apply free_inv in A as [_ ->]. split; [lia|]. intros _. reflexivity.
Qed.
Theorem count_steps : forall (V : Type) e ord (h : hist V) s s' x n, build_std e -> valid MAX_PLUS h -> is_order ord -> run_plus e h = Ret s ->
  t_hp_count e ord s = Ret ((s', x), n) -> 1 + len (d_buf (hp_sparse s)) <= n /\ n <= 21 * 2 ^ hist_precision h.
Proof.
  intros V e ord h s s' x n Hb Hv Ho R H. destruct (plus_reach V e h s Hb Hv R) as (He & Hp & SH).
  assert (R' : run_plus e (HCount ord h) = Ret s'). { cbn [run_plus]. rewrite R, bind_ret. apply erased in H. rewrite erase_count in H. rewrite H. reflexivity. }
  destruct (plus_reach V e (HCount ord h) s' Hb (conj Ho Hv) R') as (_ & _ & SH'). cbn [hist_precision] in SH'.
  apply (count_cost V e ord (hist_precision h)) in H as (A & B); auto. pose proof (pending_most _ _ _ Hp SH). split; [exact B|]. lia.
Qed.

Theorem count_registers : forall (V : Type) e ord (h : hist V) s r s' x n, build_std e -> valid MAX_PLUS h -> run_plus e h = Ret s -> hp_registers s = Some r ->
  t_hp_count e ord s = Ret ((s', x), n) -> s' = s /\ (n = 1 \/ n = 1 + 2 ^ hist_precision h) /\ (reg_zeros r = 0 -> n = 1 + 2 ^ hist_precision h).
Proof.
  intros V e ord h s r s' x n Hb Hv R RS H. destruct (plus_reach V e h s Hb Hv R) as (He & Hp & (_ & _ & _ & SH)). rewrite RS in SH. destruct SH as (_ & _ & _ & SH).
  unfold t_hp_count in H. apply after_inv in H as (k & H & ->). assert (IS : is_sparse s = false) by (unfold is_sparse; now rewrite RS). rewrite IS in H.
  apply tbind_inv in H as (s1 & n1 & n2 & A & H & ->). apply free_inv in A as [A ->]. injection A as <-. rewrite RS in H. cbv zeta in H.
  destruct (N.eqb_spec (reg_zeros r) 0) as [Z|Z]; cbn [negb] in H.
  - apply tbind_inv in H as (w & m5 & m6 & B & H & ->). apply after_inv in B as (m7 & B & ->). apply free_inv in B as [_ ->]. apply free_inv in H as [H ->]. injection H as <- _. split; [reflexivity|]. lia.
  - apply tbind_inv in H as (c & m1 & m2 & B & H & ->). apply free_inv in B as [_ ->]. apply tbind_inv in H as (t & m3 & m4 & B & H & ->). apply free_inv in B as [_ ->]. destruct (fle c t).
    + apply free_inv in H as [H ->]. injection H as <- _. split; [reflexivity|]. split; [left; reflexivity|]. intros Q. contradiction.
    + apply tbind_inv in H as (w & m5 & m6 & B & H & ->). apply after_inv in B as (m7 & B & ->). apply free_inv in B as [_ ->]. apply free_inv in H as [H ->]. injection H as <- _. split; [reflexivity|]. split; [right; lia|]. intros Q. contradiction.
Qed.

(** ** Many insertions; counting again *)
Lemma insertions_facts : forall (V : Type) k ord l (h : hist V), is_order ord -> valid MAX_PLUS h ->
  valid MAX_PLUS (insertions k ord h l) /\ budget (insertions k ord h l) = budget h + 726 * len l.
Proof.
  intros V k ord. unfold insertions. induction l as [|v l IH]; intros h Ho Hv; cbn [fold_left].
  - split; [exact Hv|]. change (len (@nil V)) with 0. lia.
  - destruct (IH (HInsert k ord h v) Ho (conj Ho Hv)) as [A B]. split; [exact A|]. rewrite B. cbn [budget]. unfold len. cbn [length]. lia.
Qed.
Theorem stream_steps : forall (V : Type) e k ord p (b : V -> N) l, build_std e -> 4 <= p <= MAX_PLUS -> is_order ord ->
  exists s n, t_run_plus e (insertions k ord (HNew p b) l) = Ret (s, n) /\ n <= 10 * 2 ^ p + 726 * len l.
Proof.
  intros V e k ord p b l Hb Hp Ho. destruct (insertions_facts V k ord l (HNew p b) Ho Hp) as [Hv B].
  assert (R : exists s, run_plus e (insertions k ord (HNew p b) l) = Ret s).
  { clear B Hv. cut (forall h : hist V, valid MAX_PLUS h -> (exists s, run_plus e h = Ret s) -> exists s, run_plus e (insertions k ord h l) = Ret s).
    - intros Q. apply Q; [exact Hp|]. destruct (hp_new_ok V e p b (proj1 (proj1 Hb)) Hp) as (s & E & _). exists s. cbn [run_plus]. rewrite E. reflexivity.
    - unfold insertions. induction l as [|v l IH]; intros h Hv (s & R); cbn [fold_left]; [eauto|]. apply IH; [exact (conj Ho Hv)|].
      pose proof (hist_prec V _ h Hv) as Hp'. unfold MAX_PLUS in Hp'. pose proof (run_plus_ret V e h s Hb Hv R) as Hs.
      destruct (hp_insert_hash_ok V e ord _ _ _ s (hash64 (hist_builder h) v) (proj1 (proj1 Hb)) Hp' Ho (hash64_lt _ _ _) Hs) as (s' & E' & _).
      exists s'. cbn [run_plus]. rewrite R, bind_ret. destruct Hs as ((HB & _) & _). destruct k; unfold hp_add, hp_insert, hp_insert_any, hp_insert_impl; rewrite HB; exact E'. }
  destruct R as (s & R). destruct (plus_steps V e _ s Hb Hv R) as (n & T & L). rewrite B in L. exists s, n. split; [exact T|]. exact L.
Qed.
Lemma body_flushed : forall (V : Type) p H (s : plus V), hp_tmpset s = [] -> body_ok p H s -> flushed p H s.
Proof.
  intros V p H s T B. split; [exact T|]. unfold body_ok in B. destruct (hp_registers s) as [r|]; [apply B|]. destruct B as ((L & N1 & N2 & N3 & N4 & N5) & _).
  exists L. rewrite T in N4. cbn [app] in N4. split; [|auto]. split; auto.
Qed.
Theorem counts_again : forall (V : Type) e ord (h : hist V) s k m, build_std e -> valid MAX_PLUS h -> is_order ord -> t_run_plus e h = Ret (s, k) -> hp_tmpset s = [] ->
  forall s' n, t_run_plus e (counted ord h m) = Ret (s', n) -> s' = s /\ k + N.of_nat m * (1 + len (d_buf (hp_sparse s))) <= n.
Proof.
  intros V e ord h s k m Hb Hv Ho T E. unfold counted.
  assert (G : valid MAX_PLUS (Nat.iter m (HCount ord) h) /\ hist_precision (Nat.iter m (HCount ord) h) = hist_precision h /\
    hist_builder (Nat.iter m (HCount ord) h) = hist_builder h /\ hist_hashes (Nat.iter m (HCount ord) h) = hist_hashes h).
  { induction m as [|m IH]; [auto|]. destruct IH as (A & B). cbn [Nat.iter]. split; [exact (conj Ho A)|exact B]. }
  revert G. induction m as [|m IH]; intros (G1 & G2 & G3 & G4) s' n H.
  - cbn in H. rewrite T in H. injection H as <- <-. split; [reflexivity|lia].
  - change (Nat.iter (S m) (HCount ord) h) with (HCount ord (Nat.iter m (HCount ord) h)) in *. cbn [valid hist_precision hist_builder hist_hashes] in *.
    destruct G1 as [_ G1]. cbn [t_run_plus] in H. apply tbind_inv in H as (s1 & n1 & n2 & A & H & ->). destruct (IH (conj G1 (conj G2 (conj G3 G4))) _ _ A) as [-> I].
    apply tbind_inv in H as ([s2 x] & n3 & n4 & B & H & ->). apply free_inv in H as [H ->]. injection H as <-.
    pose proof (erased_run _ _ _ _ _ A) as R1. destruct (count_steps V e ord _ s s2 x n3 Hb G1 Ho R1 B) as [C _].
    pose proof (run_plus_ret V e _ s Hb G1 R1) as (O1 & O2 & O3). rewrite G2, G3, G4 in *.
    apply erased in B. rewrite erase_count in B. pose proof (hist_prec V _ h Hv) as Hp. unfold MAX_PLUS in Hp.
    destruct (hp_count_any V e ord _ _ _ s Hb Hp Ho (conj O1 (conj O2 O3))) as (s3 & F1 & F2 & F3). rewrite B in F3.
    destruct (flushed_value e (hist_precision h) s3); try discriminate. cbn [bind] in F3. injection F3 as -> _.
    split; [|lia]. eapply (flushed_unique V (hist_precision h) (hist_builder h) (hist_hashes h)); eauto; [lia|]. now apply body_flushed.
Qed.

(** ** HyperLogLogPF *)
Lemma pf_words : forall p r, wf_regs 5 r -> r_count r = 2 ^ p -> len (r_buf r) = (2 ^ p + 5) / 6.
Proof.
  intros p r [H _] C. rewrite C in H. change (count_per_word 5) with 6 in H. unfold len. rewrite H.
  replace (2 ^ p + 6 - 1) with (2 ^ p + 5) by lia. reflexivity.
Qed.
Lemma pf_shape : forall (V : Type) e (h : hist V) s n, build e -> valid MAX_PF h -> t_run_pf e h = Ret (s, n) ->
  pf_precision s = hist_precision h /\ len (r_buf (pf_registers s)) = (2 ^ hist_precision h + 5) / 6 /\ len (reg_iter SIZE_PF (pf_registers s)) = 2 ^ hist_precision h.
Proof.
  intros V e h s n Hb Hv H. assert (R : run_pf e h = Ret s) by (rewrite <- erase_run_pf; now apply erased in H).
  destruct (run_pf_ret V e h s Hb Hv R) as (_ & P & _ & (W & C & _)). split; [exact P|]. split; [now apply pf_words|].
  unfold len. pose proof (reg_iter_length 5 (pf_registers s) ltac:(red; auto) W) as Q. unfold SIZE_PF. rewrite Q, N2Nat.id. exact C.
Qed.
Lemma pf_exact : forall (V : Type) e (h : hist V) s n, build e -> valid MAX_PF h -> t_run_pf e h = Ret (s, n) -> n = pf_steps h.
Proof.
  intros V e h. induction h as [p b|k ord h IH v|ord h1 IH1 h2 IH2|ord h IH|ord ser_b de_b h IH]; intros s n Hb Hv H;
    pose proof (pf_shape _ _ _ _ _ Hb Hv H) as (_ & SH & _); cbn [t_run_pf hist_precision pf_steps] in *.
  - unfold t_pf_new in H. apply after_inv in H as (k & H & ->). apply tbind_inv in H as (s1 & n1 & n2 & A & H & ->). apply free_inv in A as [_ ->].
    apply after_inv in H as (k & H & ->). apply free_inv in H as [H ->]. injection H as <-. lia.
  - destruct Hv as [Ho Hv]. apply tbind_inv in H as (s1 & n1 & n2 & A & H & ->). rewrite (IH _ _ Hb Hv A). unfold t_pf_insert in H. apply after_inv in H as (x & H & ->). apply free_inv in H as [_ ->]. lia.
  - destruct Hv as (Ho & Hv1 & Hv2). apply tbind_inv in H as (s1 & n1 & n2 & A1 & H & ->). apply tbind_inv in H as (s2 & n3 & n4 & A2 & H & ->).
    apply tbind_inv in H as ([s3 r] & n5 & n6 & A & H & ->). apply free_inv in H as [_ ->]. rewrite (IH1 _ _ Hb Hv1 A1), (IH2 _ _ Hb Hv2 A2).
    destruct (pf_shape _ _ _ _ _ Hb Hv1 A1) as (P1 & _), (pf_shape _ _ _ _ _ Hb Hv2 A2) as (P2 & _ & L2).
    unfold t_pf_merge in A. apply after_inv in A as (x & A & ->). rewrite P1, P2 in A. destruct (N.eqb_spec (hist_precision h1) (hist_precision h2)) as [E|E]; cbn [negb] in A.
    + apply tbind_inv in A as (r' & m1 & m2 & A & H & ->). apply free_inv in H as [_ ->]. apply for_each_enum_steps in A. rewrite L2, <- E in A. lia.
    + apply free_inv in A as [_ ->]. lia.
  - destruct Hv as [Ho Hv]. apply tbind_inv in H as (s1 & n1 & n2 & A & H & ->). rewrite (IH _ _ Hb Hv A). destruct (pf_shape _ _ _ _ _ Hb Hv A) as (_ & _ & L).
    apply tbind_inv in H as (c & n3 & n4 & B & H & ->). apply free_inv in H as [_ ->]. unfold t_pf_count in B. apply after_inv in B as (x & B & ->). apply free_inv in B as [_ ->]. lia.
  - destruct Hv as (Ho & Hv & _). apply tbind_inv in H as (s1 & n1 & n2 & A & H & ->). rewrite (IH _ _ Hb Hv A). destruct (pf_shape _ _ _ _ _ Hb Hv A) as (_ & L & _).
    apply tbind_inv in H as (s3 & n5 & n6 & B & H & ->). apply free_inv in B as [_ ->]. apply after_inv in H as (k & H & ->). apply free_inv in H as [H ->]. injection H as <-. lia.
Qed.
Theorem pf_program_steps : forall (V : Type) e (h : hist V) s, build e -> valid MAX_PF h -> run_pf e h = Ret s -> t_run_pf e h = Ret (s, pf_steps h).
Proof.
  intros V e h s Hb Hv H. rewrite <- erase_run_pf in H. apply erase_inv in H as (n & H). rewrite H. now rewrite (pf_exact V e h s n Hb Hv H).
Qed.
