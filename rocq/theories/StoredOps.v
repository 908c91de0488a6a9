(** * Operations on stored sketches *)
From Coq Require Import NArith ZArith Arith List Bool Lia Permutation Sorted.
From Verif Require Import ModelRust ModelF64 ModelEnv ModelRegisters ModelEncoding ModelCommon ModelPF ModelPlus ModelSerde
  Spec SpecBuild SpecSketch SpecBytes SpecStored
  BitFacts RegFacts EncFacts CodeFacts MergeFacts RawFacts PlusInv CountFacts ClaimRefute DecodeFacts DecodeState UntidyFacts
  StoredFacts StoredCodes.
Import ListNotations.
Local Open Scope N_scope.

(** ** What is read is in range *)
Lemma de_registers_ok : forall e v r, de_registers e v = Some r -> words_ok r.
Proof.
  intros e v r H. unfold de_registers, obind in H.
  repeat match type of H with
  | match ?x with Some _ => _ | None => _ end = Some _ => let Q := fresh "Q" in destruct x eqn:Q; [|discriminate H]
  end.
  injection H as <-. unfold words_ok. cbn [r_buf]. eapply de_seq_range; eauto.
Qed.

Lemma de_uint_range : forall w v n, de_uint w v = Some n -> n < 2 ^ w.
Proof.
  intros w v n H. destruct v; cbn [de_uint] in H; try discriminate.
  destruct (N.ltb_spec n0 (2 ^ w)); [|discriminate]. now injection H as <-.
Qed.

Lemma de_pf_ok : forall (V : Type) e de_b v (s : pf V), de_pf e de_b v = Some s ->
  pf_precision s < 256 /\ words_ok (pf_registers s).
Proof.
  intros V e de_b v s H. unfold de_pf, obind in H.
  repeat match type of H with
  | match ?x with Some _ => _ | None => _ end = Some _ => let Q := fresh "Q" in destruct x eqn:Q; [|discriminate H]
  end.
  injection H as <-. cbn [pf_precision pf_registers]. split; [|eapply de_registers_ok; eauto].
  match goal with Q : de_uint 8 _ = Some ?n |- ?n < 256 => exact (de_uint_range 8 _ _ Q) end.
Qed.

Lemma de_plus_ok : forall (V : Type) e de_b v (s : plus V), de_plus e de_b v = Some s ->
  in_range s /\ forall r, hp_registers s = Some r -> words_ok r.
Proof.
  intros V e de_b v s H. destruct (de_plus_range _ _ _ _ _ H) as (A & B & C).
  assert (D : hp_precision s < 256 /\ forall r, hp_registers s = Some r -> words_ok r).
  { clear A B C. unfold de_plus, obind in H.
    repeat match type of H with
    | match ?x with Some _ => _ | None => _ end = Some _ => let Q := fresh "Q" in destruct x eqn:Q; [|discriminate H]
    | (let (_, _) := ?x in _) = Some _ => destruct x
    end.
    injection H as <-. cbn [hp_precision hp_registers]. split.
    - match goal with Q : de_uint 8 _ = Some ?n |- ?n < 256 => exact (de_uint_range 8 _ _ Q) end.
    - intros r ->. match goal with Q : de_option _ ?x = Some (Some r) |- _ => destruct x; cbn [de_option] in Q; try discriminate Q;
        unfold obind in Q; destruct (de_registers e _) eqn:Q'; try discriminate Q; injection Q as <-; eapply de_registers_ok; eauto end. }
  destruct D as [D1 D2]. split; [|exact D2]. repeat split; auto.
Qed.

(** ** Counting *)
Lemma count_stored : forall (V : Type) e ord de_b v (s : plus V), build_std e -> is_order ord ->
  overflow_checks e = true -> de_plus e de_b v = Some s -> hp_registers s = None ->
  let p := hp_precision s in let m := hp_counts0 s in
  let bad := flush_fails (usize_bits e) p m (hp_counts2 s) (hp_tmpset s) (d_buf (hp_sparse s)) in
  (hp_count e ord s = Panic /\ bad) \/
  (~ bad /\ exists L K, reads_as (d_buf (hp_sparse s)) L /\ flushes_to (hp_tmpset s) L K /\
     (gap_len 0 K <= hp_counts2 s /\
      (hp_count e ord s = Panic /\ hp_counts1 s < N.of_nat (length K) \/
       N.of_nat (length K) <= hp_counts1 s /\ exists s' c, hp_count e ord s = Ret (s', c)) \/
      hp_counts2 s < gap_len 0 K /\ exists s' r, hp_count e ord s = hp_count e ord s' /\ hp_registers s' = Some r /\
        hp_precision s' = p /\ hp_counts0 s' = m /\ r_zeros r + zeros_taken all_zero p [] K = m)).
Proof.
  intros V e ord de_b v s Hb Ho Ck D Er p m bad. destruct (de_plus_ok _ _ _ _ _ D) as [IR _].
  assert (Hu : 32 <= usize_bits e) by (destruct Hb as [[H _] _]; lia).
  assert (S : is_sparse s = true) by (unfold is_sparse; now rewrite Er).
  destruct (merge_sparse_stored V e ord s Hu Ho Ck IR) as [[E B]|(B & s' & L & K & E & H & FL & A1 & A2 & A3 & A4 & A5 & A6 & A7)].
  { left. split; [|exact B]. unfold hp_count. now rewrite S, E. }
  right. split; [exact B|]. exists L, K. split; [exact H|]. split; [exact FL|].
  destruct A7 as [(G & Q & R)|(G & r & Q & W & C & SL & Z & I)]; [left|right]; (split; [exact G|]).
  - destruct H as (ns & E1 & F1 & L5 & TT & ->). destruct IR as (_ & ND & FT & BB).
    destruct (count_sparse V e ord s ns K Ho Er ND FT BB E1 F1 L5 TT FL G) as [(X & _ & Y)|(s1 & c & z & X & _ & Y)].
    + now left.
    + right. split; [|eauto]. destruct Y as [Y|[Y _]]; [lia|congruence].
  - exists s', r. split; [|repeat split; auto]. apply count_after; auto. unfold is_sparse. now rewrite Q.
Qed.

(** ** Inserting without registers *)
Lemma encode_checked : forall e p h, overflow_checks e = true -> p < 256 -> h < 2 ^ 64 ->
  (25 <= p /\ encode_hash e p h = Panic) \/ (p < 25 /\ encode_hash e p h = Ret (sparse_code p h)).
Proof.
  intros e p h Ck Hp Hh. unfold encode_hash, PRIME_PRECISION.
  change (64 - 25) with 39.
  rewrite extract_ok by (auto; lia). rewrite bind_ret.
  destruct (N.le_gt_cases 25 p) as [L|L].
  { left. split; [exact L|]. rewrite Ck. unfold usub at 1. destruct (N.leb_spec p 64) as [L1|L1]; [|reflexivity].
    rewrite bind_ret. unfold extract. rewrite Ck.
    rewrite usub_ok by lia. rewrite bind_ret.
    unfold ushl at 1. destruct (N.ltb_spec (64 - (64 - p)) 64) as [L2|L2]; [|reflexivity]. rewrite bind_ret.
    unfold usub at 1. destruct (N.leb_spec 39 (64 - p)) as [L3|L3]; [|reflexivity]. rewrite bind_ret.
    rewrite usub_ok by lia. rewrite bind_ret. assert (p = 25) by lia. subst p. reflexivity. }
  right. split; [exact L|].
  rewrite usub_ok by lia. rewrite bind_ret.
  rewrite extract_ok by (auto; lia). rewrite bind_ret.
  change (64 - 39) with 25. change (25 - 1) with 24. fold (prefix25 h).
  pose proof (prefix25_lt h Hh) as Hpre.
  rewrite (N.mod_small (prefix25 h) (2 ^ 25)) by auto.
  unfold sparse_code. replace (64 - p - 39) with (25 - p) by lia.
  destruct (N.eqb_spec (prefix25 h mod 2 ^ (25 - p)) 0) as [E|E].
  - rewrite ushl_ok by lia. rewrite bind_ret. rewrite ushl_ok by lia. rewrite bind_ret.
    rewrite N.mul_1_l. rewrite (N.mod_small (2 ^ 24)) by reflexivity.
    change (2 ^ 24) with (2 ^ (25 - 1)).
    pose proof (leading_zeros_rank 64 25 h ltac:(lia) ltac:(lia) Hh) as Hr.
    pose proof (rank_bounds 64 25 h ltac:(lia)) as Hb.
    rewrite uadd_ok by (rewrite Hr; change (2 ^ 32) with 4294967296; lia).
    rewrite Hr. rewrite bind_ret.
    rewrite ushl_ok by lia. rewrite bind_ret. rewrite ushl_ok by lia. rewrite bind_ret.
    unfold cast. change (2 ^ 1) with 2.
    assert (Hpre' : prefix25 h < 33554432) by exact Hpre.
    rewrite (N.mod_small (prefix25 h)) by (change (2 ^ 32) with 4294967296; lia).
    rewrite (N.mod_small (prefix25 h * 2 ^ 7))
      by (change (2 ^ 7) with 128; change (2 ^ 32) with 4294967296; lia).
    rewrite (N.mod_small (rank 64 25 h * 2)) by (change (2 ^ 32) with 4294967296; lia).
    rewrite <- N.lor_assoc. change (rank 64 25 h * 2) with (rank 64 25 h * 2 ^ 1).
    rewrite (lor_mul_add (rank 64 25 h) 1 1) by reflexivity.
    rewrite lor_mul_add by (change (2 ^ 1) with 2; change (2 ^ 7) with 128; lia).
    f_equal. lia.
  - rewrite ushl_ok by lia. rewrite bind_ret. unfold cast. change (2 ^ 1) with 2.
    assert (Hpre' : prefix25 h < 33554432) by exact Hpre.
    rewrite (N.mod_small (prefix25 h * 2)) by (change (2 ^ 64) with 18446744073709551616; lia).
    rewrite N.mod_small by (change (2 ^ 32) with 4294967296; lia). reflexivity.
Qed.

Lemma insert_with_code : forall T c, hset_insert T c = with_code T c.
Proof.
  intros T c. unfold hset_insert, with_code. destruct (existsb (N.eqb c) T) eqn:E; destruct (in_dec N.eq_dec c T) as [I|I]; auto; exfalso.
  - apply existsb_exists in E. destruct E as (x & Hx & Q). apply N.eqb_eq in Q. now subst x.
  - assert (existsb (N.eqb c) T = true) by (apply existsb_exists; exists c; split; auto; apply N.eqb_refl). congruence.
Qed.

Lemma in_range_tmp : forall (V : Type) (s : plus V) T, in_range s -> NoDup T -> Forall (fun x => x < 2 ^ 32) T ->
  in_range (set_tmpset s T).
Proof. intros V s T (A & B & C & D) ND F. repeat split; auto. Qed.

Lemma flush_stored : forall (V : Type) e ord (s : plus V), 32 <= usize_bits e -> is_order ord ->
  overflow_checks e = true -> in_range s -> 100 * N.of_nat (length (hp_tmpset s)) < 2 ^ usize_bits e ->
  let bad := hp_counts2 s < 100 * N.of_nat (length (hp_tmpset s)) /\
    flush_fails (usize_bits e) (hp_precision s) (hp_counts0 s) (hp_counts2 s) (hp_tmpset s) (d_buf (hp_sparse s)) in
  (flush_if_full e ord s = Panic /\ bad) \/ ((exists s', flush_if_full e ord s = Ret s') /\ ~ bad).
Proof.
  intros V e ord s Hu Ho Ck IR H100 bad. unfold bad, flush_if_full, hset_len, len.
  rewrite (N.mul_comm 100) in *. rewrite umul_ok by exact H100. rewrite bind_ret.
  destruct (N.ltb_spec (hp_counts2 s) (N.of_nat (length (hp_tmpset s)) * 100)) as [L|L].
  - destruct (merge_sparse_stored V e ord s Hu Ho Ck IR) as [[E B]|(B & s' & _ & _ & E & _)].
    + left. auto.
    + right. split; [eauto|]. tauto.
  - right. split; [eauto|]. intros [Q _]. lia.
Qed.

Lemma plus_insert_sparse_stored : forall (V : Type) e ord (s : plus V) (x : V), 32 <= usize_bits e -> is_order ord ->
  overflow_checks e = true -> in_range s -> hp_registers s = None ->
  100 * (N.of_nat (length (hp_tmpset s)) + 1) < 2 ^ usize_bits e ->
  let p := hp_precision s in
  let T := with_code (hp_tmpset s) (sparse_code p (hp_builder s x mod 2 ^ 64)) in
  let bad := 25 <= p \/ hp_counts2 s < 100 * N.of_nat (length T) /\
    flush_fails (usize_bits e) p (hp_counts0 s) (hp_counts2 s) T (d_buf (hp_sparse s)) in
  (hp_insert e ord s x = Panic /\ bad) \/ ((exists s', hp_insert e ord s x = Ret s') /\ ~ bad).
Proof.
  intros V e ord s x Hu Ho Ck IR Er H100 p T bad. unfold hp_insert, hp_insert_impl, hp_insert_hash. rewrite Er. cbv zeta.
  assert (Hh : hp_builder s x mod 2 ^ 64 < 2 ^ 64) by (apply N.mod_lt; discriminate).
  change (cast 64 (hp_builder s x)) with (hp_builder s x mod 2 ^ 64).
  destruct (encode_checked e (hp_precision s) (hp_builder s x mod 2 ^ 64) Ck (proj1 IR) Hh) as [[L ->]|[L ->]]; fold p in L |- *.
  { left. split; [reflexivity|now left]. }
  rewrite bind_ret, insert_with_code. fold T.
  assert (ND : NoDup T) by (unfold T; rewrite <- insert_with_code; apply hset_insert_NoDup; apply IR).
  assert (FT : Forall (fun x => x < 2 ^ 32) T).
  { apply Forall_forall. intros c Hc. unfold T in Hc. rewrite <- insert_with_code in Hc. apply hset_insert_in in Hc.
    destruct Hc as [->|Hc]; [now apply sparse_code_lt|]. destruct IR as (_ & _ & F & _). rewrite Forall_forall in F. auto. }
  assert (LT : N.of_nat (length T) <= N.of_nat (length (hp_tmpset s)) + 1).
  { unfold T, with_code. destruct (in_dec _ _ _); simpl length; lia. }
  destruct (flush_stored V e ord (set_tmpset s T) Hu Ho Ck (in_range_tmp _ _ _ IR ND FT)) as [[E B]|[E B]].
  - cbn [hp_tmpset set_tmpset]. lia.
  - left. split; [exact E|]. right. exact B.
  - right. split; [exact E|]. intros [Q|Q]; [lia|]. now apply B.
Qed.

(** ** Merging *)
Lemma pf_merge_stored : forall (V W : Type) e (s : pf V) (o : pf W), words_ok (pf_registers s) -> words_ok (pf_registers o) ->
  let r := pf_registers s in let b := r_buf (pf_registers o) in
  let n := listed 5 (r_count (pf_registers o)) b in
  let bad := pf_precision s = pf_precision o /\ (slots 5 (r_buf r) < n \/
    overflow_checks e = true /\ r_zeros r < newly 5 (r_buf r) b n) in
  (pf_merge e s o = Panic /\ bad) \/
  (~ bad /\
   (pf_precision s <> pf_precision o /\ pf_merge e s o = Ret (s, RErr IncompatiblePrecision) \/
    pf_precision s = pf_precision o /\
    exists s', pf_merge e s o = Ret (s', ROk tt) /\
      (overflow_checks e = true -> r_zeros (pf_registers s') + newly 5 (r_buf r) b n = r_zeros r) /\
      forall j, reg_at 5 (r_buf (pf_registers s')) j =
        if j <? n then N.max (reg_at 5 (r_buf r) j) (reg_at 5 b j) else reg_at 5 (r_buf r) j)).
Proof.
  intros V W e s o Ws Wo r b n bad. unfold bad, pf_merge. destruct (N.eqb_spec (pf_precision s) (pf_precision o)) as [E|E]; cbn [negb].
  2:{ right. split; [tauto|]. left. auto. }
  destruct (merge_packed e 5 (pf_registers s) (pf_registers o) ltac:(now left) Ws Wo) as [[A B]|(B & r' & A & L & C & Z & P)];
    fold r b n in A, B |- *; change SIZE_PF with 5; rewrite A.
  - left. split; [reflexivity|]. auto.
  - right. split; [tauto|]. right. split; [exact E|]. rewrite bind_ret. eexists. split; [reflexivity|]. split; auto.
Qed.

Lemma plus_merge_normal_stored : forall (V W : Type) e ord (s : plus V) (o : plus W) r ro,
  hp_registers s = Some r -> hp_registers o = Some ro -> words_ok r -> words_ok ro ->
  hp_precision s = hp_precision o ->
  let n := listed 6 (r_count ro) (r_buf ro) in
  let bad := slots 6 (r_buf r) < n \/ overflow_checks e = true /\ r_zeros r < newly 6 (r_buf r) (r_buf ro) n in
  (hp_merge e ord s o = Panic /\ bad) \/
  (~ bad /\ exists s' r', hp_merge e ord s o = Ret (s', ROk tt) /\ hp_registers s' = Some r' /\
      (overflow_checks e = true -> r_zeros r' + newly 6 (r_buf r) (r_buf ro) n = r_zeros r) /\
      forall j, reg_at 6 (r_buf r') j =
        if j <? n then N.max (reg_at 6 (r_buf r) j) (reg_at 6 (r_buf ro) j) else reg_at 6 (r_buf r) j).
Proof.
  intros V W e ord s o r ro Es Eo Ws Wo Ep n bad. unfold bad, hp_merge, is_sparse, registers_iter.
  rewrite Ep, N.eqb_refl, Es, Eo. cbn [negb unwrap]. rewrite bind_ret, Es. cbn [unwrap]. rewrite !bind_ret.
  destruct (merge_packed e 6 r ro ltac:(now right) Ws Wo) as [[A B]|(B & r' & A & L & C & Z & P)];
    fold n in B |- *; change SIZE_PLUS with 6; rewrite A.
  - left. split; [reflexivity|]. exact B.
  - right. split; [exact B|]. rewrite bind_ret. exists (set_registers s (Some r')), r'. split; [reflexivity|]. repeat split; auto.
Qed.

Lemma bad_for : forall (S : Type) e d (body : S -> N -> M S) s, Forall byte (d_buf d) -> unreadable (overflow_checks e) (d_buf d) ->
  (forall L s, for_each L body s <> OutOfFuel) -> dif_for e d body s = Panic.
Proof.
  intros S e d body s B U NF. unfold dif_for. destruct (stream_bytes e d B) as (L & ok & SL & LL & K & _).
  apply K in U. subst ok. rewrite (stream_for _ e _ _ _ body SL) by lia. specialize (NF L s).
  destruct (for_each L body s); cbn [bind]; auto. congruence.
Qed.

Lemma insert_loop : forall L T, for_each L (fun t c => Ret (hset_insert t c)) T = Ret (fold_left hset_insert L T).
Proof. induction L as [|c L IH]; intros T; cbn [for_each fold_left]; [reflexivity|]. rewrite bind_ret. apply IH. Qed.

Lemma inserted : forall L T, NoDup T -> NoDup (fold_left hset_insert L T) /\
  forall c, In c (fold_left hset_insert L T) <-> In c L \/ In c T.
Proof.
  induction L as [|x L IH]; intros T ND; cbn [fold_left]; [split; [exact ND|]; simpl; tauto|].
  destruct (IH _ (hset_insert_NoDup T x ND)) as [A B]. split; [exact A|]. intros c. rewrite B, hset_insert_in. simpl. intuition.
Qed.

Lemma fails_perm : forall w p m l T T' v, Permutation T T' -> flush_fails w p m l T v -> flush_fails w p m l T' v.
Proof.
  intros w p m l T T' v P [U|(L & K & A & [B C] & D)]; [now left|]. right. exists L, K. split; [exact A|].
  split; [|exact D]. split; [exact B|]. rewrite C. apply Permutation_app_head. now apply sort_missing.
Qed.

Lemma plus_merge_sparse_stored : forall (V W : Type) e ord (s : plus V) (o : plus W), 32 <= usize_bits e -> is_order ord ->
  overflow_checks e = true -> in_range s -> in_range o -> hp_registers s = None -> hp_registers o = None ->
  hp_precision s = hp_precision o ->
  (unreadable true (d_buf (hp_sparse o)) -> hp_merge e ord s o = Panic) /\
  forall L T, reads_as (d_buf (hp_sparse o)) L -> union_of (hp_tmpset s) (hp_tmpset o) L T ->
    100 * N.of_nat (length T) < 2 ^ usize_bits e ->
    let bad := hp_counts2 s < 100 * N.of_nat (length T) /\
      flush_fails (usize_bits e) (hp_precision s) (hp_counts0 s) (hp_counts2 s) T (d_buf (hp_sparse s)) in
    (hp_merge e ord s o = Panic /\ bad) \/ ((exists s', hp_merge e ord s o = Ret (s', ROk tt)) /\ ~ bad).
Proof.
  intros V W e ord s o Hu Ho Ck Is Io Es Eo Ep. unfold hp_merge, is_sparse. replace (hp_precision s =? hp_precision o) with true by (symmetry; now apply N.eqb_eq). rewrite Es, Eo. cbn [negb].
  rewrite insert_loop, bind_ret. split.
  - intros U. rewrite bad_for; auto; [apply Io|now rewrite Ck|]. intros L t. rewrite insert_loop. discriminate.
  - intros L T RA [ND UN] H100. rewrite (for_stored _ e _ L) by (auto; apply Io). rewrite insert_loop, bind_ret.
    set (t2 := fold_left hset_insert L (fold_left hset_insert (ord (hp_tmpset o)) (hp_tmpset s))).
    destruct (inserted (ord (hp_tmpset o)) (hp_tmpset s) ltac:(apply Is)) as [N1 I1].
    destruct (inserted L _ N1) as [N2 I2]. fold t2 in N2, I2.
    assert (PO : forall c, In c (ord (hp_tmpset o)) <-> In c (hp_tmpset o)).
    { intros c. split; intros Q; (eapply Permutation_in; [|exact Q]); [|symmetry]; apply Ho. }
    assert (P : Permutation t2 T).
    { apply NoDup_Permutation; auto. intros c. rewrite I2, I1, UN, PO. tauto. }
    assert (FT : Forall (fun x => x < 2 ^ 32) t2).
    { apply Forall_forall. intros c Hc. apply I2 in Hc. rewrite I1, PO in Hc.
      destruct Is as (_ & _ & F1 & _). destruct Io as (_ & _ & F2 & _). pose proof (holds_lt _ _ RA) as F3.
      rewrite Forall_forall in F1, F2, F3. destruct Hc as [?|[?|?]]; auto. }
    pose proof (Permutation_length P) as PL.
    destruct (flush_stored V e ord (set_tmpset s t2) Hu Ho Ck (in_range_tmp _ _ _ Is N2 FT)) as [[E B]|[[s' E] B]];
      cbn [hp_tmpset set_tmpset hp_counts2 hp_counts0 hp_precision hp_sparse] in *; rewrite ?PL in *; auto.
    + left. rewrite E. split; [reflexivity|]. destruct B as [B1 B2]. split; [exact B1|]. eapply fails_perm; eauto.
    + right. rewrite E, bind_ret. split; [eauto|]. intros [B1 B2]. apply B. split; [exact B1|].
      eapply fails_perm; [symmetry; exact P|exact B2].
Qed.

Lemma plus_merge_codes_stored : forall (V W : Type) e ord (s : plus V) (o : plus W) r, 32 <= usize_bits e -> is_order ord ->
  overflow_checks e = true -> in_range o -> hp_registers s = Some r -> words_ok r -> hp_registers o = None ->
  hp_precision s = hp_precision o ->
  let bad := unreadable true (d_buf (hp_sparse o)) \/
    exists L, reads_as (d_buf (hp_sparse o)) L /\
      codes_fail (zero_in (r_buf r)) (hp_precision s) (slots 6 (r_buf r)) (r_zeros r) (ord (hp_tmpset o) ++ L) in
  (hp_merge e ord s o = Panic /\ bad) \/ ((exists s', hp_merge e ord s o = Ret (s', ROk tt)) /\ ~ bad).
Proof.
  intros V W e ord s o r Hu Ho Ck Io Es Wr Eo Ep bad. unfold bad, hp_merge, is_sparse.
  replace (hp_precision s =? hp_precision o) with true by (symmetry; now apply N.eqb_eq). rewrite Es, Eo. cbn [negb unwrap]. rewrite bind_ret.
  destruct (readable (d_buf (hp_sparse o))) as [U|[L RA]].
  - left. split; [|now left].
    destruct (for_each (ord (hp_tmpset o)) (absorb_code e (hp_precision o)) r) eqn:E; cbn [bind]; auto.
    + rewrite bad_for; auto; [apply Io|now rewrite Ck|]. intros. apply never_fuel.
    + exfalso. eapply never_fuel; eauto.
  - assert (EQ : (let* r1 := for_each (ord (hp_tmpset o)) (absorb_code e (hp_precision o)) r in
                  let* r2 := dif_for e (hp_sparse o) (absorb_code e (hp_precision o)) r1 in
                  Ret (set_registers s (Some r2), ROk tt)) =
                 let* r2 := for_each (ord (hp_tmpset o) ++ L) (absorb_code e (hp_precision o)) r in
                 Ret (set_registers s (Some r2), ROk tt)).
    { rewrite for_each_app. destruct (for_each (ord (hp_tmpset o)) _ r); cbn [bind]; auto.
      rewrite (for_stored _ e _ L) by (auto; apply Io). reflexivity. }
    rewrite EQ.
    assert (FK : Forall (fun x => x < 2 ^ 32) (ord (hp_tmpset o) ++ L)).
    { apply Forall_app. split; [|eapply holds_lt; eauto]. destruct Io as (_ & _ & F & _). rewrite Forall_forall in *.
      intros c Hc. apply F. eapply Permutation_in; [apply Ho|exact Hc]. }
    destruct (write_codes e (hp_precision o) (ord (hp_tmpset o) ++ L) r (zero_in (r_buf r)) Hu Ck (proj1 Io) FK Wr (fun i => or_introl eq_refl))
      as [[A B]|(B & r' & A & _)]; rewrite A; rewrite <- Ep in B; cbn [bind].
    + left. split; [reflexivity|]. right. exists L. auto.
    + right. split; [eauto|]. intros [Q|(L' & RA' & Q)].
      * eapply holds_readable; eauto. apply Io.
      * assert (L' = L) by exact (holds_unique _ _ _ (proj2 (proj2 (proj2 Io))) RA' RA). now subst L'.
Qed.

Lemma newly_fills : forall b o start n, (forall i, i < n -> (reg_at 6 b i =? 0) = start i) ->
  newly 6 b o n = fills start o n.
Proof.
  intros b o start n H. unfold newly, fills. do 2 f_equal. apply filter_ext_in. intros i Hi. apply in_seq in Hi.
  rewrite H by lia. reflexivity.
Qed.

Lemma plus_merge_into_sparse_stored : forall (V W : Type) e ord (s : plus V) (o : plus W) ro, 32 <= usize_bits e -> is_order ord ->
  overflow_checks e = true -> in_range s -> hp_registers s = None -> hp_registers o = Some ro -> words_ok ro ->
  hp_precision s = hp_precision o ->
  let p := hp_precision s in let m := hp_counts0 s in
  let n := listed 6 (r_count ro) (r_buf ro) in
  let bad := unreadable true (d_buf (hp_sparse s)) \/
    exists L K, reads_as (d_buf (hp_sparse s)) L /\ flushes_to (hp_tmpset s) L K /\
      (conversion_fails (usize_bits e) p m K \/ slots_for m < n \/
       m < zeros_taken all_zero p [] K + fills (fun i => zero_now all_zero p i (rev K)) (r_buf ro) n) in
  (hp_merge e ord s o = Panic /\ bad) \/ ((exists s', hp_merge e ord s o = Ret (s', ROk tt)) /\ ~ bad).
Proof.
  intros V W e ord s o ro Hu Ho Ck Is Es Eo Wo Ep p m n bad. unfold bad, hp_merge, is_sparse, registers_iter.
  replace (hp_precision s =? hp_precision o) with true by (symmetry; now apply N.eqb_eq). rewrite Es, Eo. cbn [negb].
  set (conv := let* s1 := merge_sparse e ord s in match hp_registers s1 with None => sparse_to_normal e s1 | Some _ => Ret s1 end).
  assert (CV : (conv = Panic /\ (unreadable true (d_buf (hp_sparse s)) \/
       exists L K, reads_as (d_buf (hp_sparse s)) L /\ flushes_to (hp_tmpset s) L K /\ conversion_fails (usize_bits e) p m K)) \/
     exists L K s1 r, reads_as (d_buf (hp_sparse s)) L /\ flushes_to (hp_tmpset s) L K /\
       ~ conversion_fails (usize_bits e) p m K /\ conv = Ret s1 /\ hp_registers s1 = Some r /\ words_ok r /\
       slots 6 (r_buf r) = slots_for m /\ r_zeros r + zeros_taken all_zero p [] K = m /\
       (forall i, (reg_at 6 (r_buf r) i =? 0) = zero_now all_zero p i (rev K) \/ slots_for m <= i)).
  { unfold conv. destruct (merge_sparse_stored V e ord s Hu Ho Ck Is) as [[-> B]|(B & s' & L & K & -> & RA & FL & A1 & A2 & A3 & A4 & A5 & A6 & A7)].
    - left. split; [reflexivity|]. destruct B as [B|(L & K & B1 & B2 & _ & B3)]; [now left|]. right. eauto.
    - rewrite bind_ret. destruct A7 as [(G & Q & R)|(G & r & Q & Wr & C & SL & Z & I)]; rewrite Q.
      + rewrite Es. destruct (convert_stored V e s' K Hu Ck ltac:(rewrite A2; apply Is) R)
          as [[-> B']|(B' & s1 & r & -> & X1 & X2 & X3 & X4 & X5 & X6 & X7 & X8 & X9)]; rewrite A2, A3 in *.
        * left. split; [reflexivity|]. right. eauto.
        * right. exists L, K, s1, r. repeat split; auto; apply FL.
      + right. exists L, K, s', r. repeat split; auto; try apply FL. intros CF. apply B. right. exists L, K. auto. }
  replace (let* s1 := merge_sparse e ord s in if match hp_registers s1 with Some _ => false | None => true end then sparse_to_normal e s1 else Ret s1) with conv.
  2:{ unfold conv. destruct (merge_sparse e ord s) as [s1| |]; cbn [bind]; auto. destruct (hp_registers s1); reflexivity. }
  destruct CV as [[-> B]|(L & K & s1 & r & RA & FL & NC & -> & Er & Wr & SL & Z & I)].
  { left. split; [reflexivity|]. destruct B as [B|(L & K & B1 & B2 & B3)]; [now left|]. right. exists L, K. auto. }
  rewrite bind_ret, Er. cbn [unwrap]. rewrite !bind_ret. change SIZE_PLUS with 6.
  assert (NF : n <= slots_for m -> newly 6 (r_buf r) (r_buf ro) n = fills (fun i => zero_now all_zero p i (rev K)) (r_buf ro) n).
  { intros LE. apply newly_fills. intros i Hi. destruct (I i) as [Q|Q]; [exact Q|lia]. }
  destruct (merge_packed e 6 r ro ltac:(now right) Wr Wo) as [[A B]|(B & r' & A & _)]; fold n in B; rewrite A; cbn [bind].
  - left. split; [reflexivity|]. right. exists L, K. split; [exact RA|]. split; [exact FL|]. right. rewrite SL in B.
    destruct (N.le_gt_cases n (slots_for m)) as [LE|LE]; [right|now left].
    destruct B as [B|[_ B]]; [lia|]. rewrite NF in B by exact LE. lia.
  - right. split; [eauto|]. intros [Q|(L' & K' & RA' & FL' & Q)].
    + eapply holds_readable; eauto. apply Is.
    + assert (L' = L) by exact (holds_unique _ _ _ (proj2 (proj2 (proj2 Is))) RA' RA). subst L'.
      assert (K' = K) by (eapply flushes_unique; eauto). subst K'.
      apply B. rewrite SL. destruct Q as [Q|[Q|Q]]; [contradiction|now left|].
      destruct (N.le_gt_cases n (slots_for m)) as [LE|LE]; [right|now left]. split; [exact Ck|]. rewrite NF by exact LE. lia.
Qed.
