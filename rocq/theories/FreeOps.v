(** * Counting, inserting and merging without overflow checks, whatever the bytes *)
From Coq Require Import String.
From Coq Require Import NArith ZArith Arith List Bool Lia Permutation Sorted.
From Verif Require Import ModelRust ModelF64 ModelEnv ModelRegisters ModelEncoding ModelCommon ModelPF ModelPlus ModelSerde
  Spec SpecBuild SpecSketch SpecBytes SpecStored SpecFree
  BitFacts RegFacts EncFacts CodeFacts MergeFacts RawFacts PlusInv CountFacts ClaimRefute DecodeFacts DecodeState UntidyFacts
  StoredFacts StoredCodes StoredOps StoredRelease StoredClaim FreeFacts Witness.
Import ListNotations.
Local Open Scope N_scope.

(** ** Counting *)
Lemma count_any : forall (V : Type) e ord de_b v (s : plus V), build_std e -> is_order ord ->
  overflow_checks e = false -> de_plus e de_b v = Some s -> hp_registers s = None ->
  let bad := flush_breaks (usize_bits e) (hp_precision s) (hp_counts0 s) (hp_counts2 s) (hp_tmpset s) (d_buf (hp_sparse s)) in
  (hp_count e ord s = Panic /\ bad) \/
  (~ bad /\ exists L K, reads_free (d_buf (hp_sparse s)) L /\ merges_to (hp_tmpset s) L K /\
     (step_len 0 K <= hp_counts2 s /\
      (exists s' c zeros, hp_count e ord s = Ret (s', c) /\ linear_count e (hp_counts1 s) zeros = Ret c /\
        (zeros + N.of_nat (length K) = hp_counts1 s \/
         hp_counts1 s < N.of_nat (length K) /\ zeros = hp_counts1 s + 2 ^ usize_bits e - N.of_nat (length K))) \/
      hp_counts2 s < step_len 0 K /\ exists s' r lc, hp_count e ord s = hp_count e ord s' /\ hp_registers s' = Some r /\
        hp_precision s' = hp_precision s /\ hp_counts0 s' = hp_counts0 s /\ linear_count e (hp_counts0 s') (r_zeros r) = Ret lc)).
Proof.
  intros V e ord de_b v s Hb Ho Ck D Er bad. destruct (de_plus_ok _ _ _ _ _ D) as [IR _].
  assert (Hu : 32 <= usize_bits e) by (destruct Hb as [[H _] _]; lia).
  assert (S : is_sparse s = true) by (unfold is_sparse; now rewrite Er).
  destruct (flush_any V e ord s Hu Ho Ck IR) as [[E B]|(B & s' & L & K & E & R & MT & A1 & A2 & A3 & A4)].
  { left. split; [|exact B]. unfold hp_count. now rewrite S, E. }
  right. split; [exact B|]. exists L, K. split; [exact R|]. split; [exact MT|].
  destruct A4 as [(G & Q & (_ & _ & C & _))|(G & r & Q & C & SL)]; [left|right]; (split; [exact G|]).
  - unfold hp_count. rewrite S, E, bind_ret, Q, Er. unfold dif_count. rewrite C, A3, Ck.
    unfold usub. destruct (N.leb_spec (N.of_nat (length K)) (hp_counts1 s)) as [LE|LE].
    + rewrite bind_ret. destruct (linear_total e (hp_counts1 s) (hp_counts1 s - N.of_nat (length K))) as [c Ec].
      rewrite Ec, bind_ret. do 3 eexists. split; [reflexivity|]. split; [exact Ec|]. left. lia.
    + rewrite bind_ret. destruct (linear_total e (hp_counts1 s) (hp_counts1 s + 2 ^ usize_bits e - N.of_nat (length K))) as [c Ec].
      rewrite Ec, bind_ret. do 3 eexists. split; [reflexivity|]. split; [exact Ec|]. right. auto.
  - destruct (linear_total e (hp_counts0 s') (r_zeros r)) as [lc El].
    exists s', r, lc. split; [|auto]. apply count_after; auto. unfold is_sparse. now rewrite Q.
Qed.

(** ** Inserting *)
Lemma umul_free : forall w a b, umul false w a b = Ret (a * b mod 2 ^ w).
Proof. intros. unfold umul. destruct (N.ltb_spec (a * b) (2 ^ w)); [now rewrite N.mod_small|reflexivity]. Qed.

Lemma ushl64_free : forall a k, ushl false 64 a k = Ret (a * 2 ^ (k mod 64) mod 2 ^ 64).
Proof.
  intros a k. unfold ushl. destruct (N.ltb_spec k 64); rewrite N.shiftl_mul_pow2; [now rewrite (N.mod_small k)|reflexivity].
Qed.
Lemma ushr64_free : forall a k, ushr false 64 a k = Ret (a / 2 ^ (k mod 64)).
Proof.
  intros a k. unfold ushr. destruct (N.ltb_spec k 64); rewrite N.shiftr_div_pow2; [now rewrite (N.mod_small k)|reflexivity].
Qed.
Lemma usub8_free : forall a b, a < 256 -> b < 256 -> exists c, usub false 8 a b = Ret c /\ c < 256 /\ (c + b) mod 256 = a.
Proof.
  intros a b Ha Hb. unfold usub. change (2 ^ 8) with 256. destruct (N.leb_spec b a) as [L|L]; eexists; (split; [reflexivity|]); split; try lia.
  - replace (a - b + b) with a by lia. now apply N.mod_small.
  - symmetry. apply (N.mod_unique _ _ 1); lia.
Qed.

Lemma mod64_of_256 : forall a b, a mod 256 = b mod 256 -> a mod 64 = b mod 64.
Proof.
  intros a b H. pose proof (N.div_mod a 256 ltac:(discriminate)) as A. pose proof (N.div_mod b 256 ltac:(discriminate)) as B.
  rewrite A, B, H. rewrite !(N.add_comm (256 * _)).
  replace (a mod 256) with (b mod 256) by congruence.
  replace (256 * (a / 256)) with (a / 256 * 4 * 64) by lia. replace (256 * (b / 256)) with (b / 256 * 4 * 64) by lia.
  now rewrite !N.mod_add.
Qed.

Lemma encode_any : forall e p h, overflow_checks e = false -> p < 256 -> h < 2 ^ 64 -> encode_hash e p h = Ret (code_free p h).
Proof.
  intros e p h Ck Hp Hh. unfold encode_hash, PRIME_PRECISION. change (64 - 25) with 39.
  rewrite extract_ok by (auto; lia). rewrite bind_ret. rewrite Ck.
  destruct (usub8_free 64 p ltac:(lia) Hp) as (hi & -> & Lhi & Ehi). rewrite bind_ret. unfold extract. rewrite Ck.
  destruct (usub8_free 64 hi ltac:(lia) Lhi) as (a & -> & La & Ea). rewrite bind_ret, ushl64_free, bind_ret.
  destruct (usub8_free hi 39 Lhi ltac:(lia)) as (d & -> & Ld & Ed). rewrite bind_ret.
  destruct (usub8_free 64 d ltac:(lia) Ld) as (b & -> & Lb & Eb). rewrite bind_ret, ushr64_free, bind_ret.
  assert (Xa : a = p).
  { assert (G : forall x y c, x < 256 -> y < 256 -> (x + c) mod 256 = (y + c) mod 256 -> x = y).
    { intros x y c Hx Hy Q.
      pose proof (N.div_mod (x + c) 256 ltac:(discriminate)) as A. pose proof (N.div_mod (y + c) 256 ltac:(discriminate)) as B.
      rewrite Q in A. set (q := (x + c) / 256) in *. set (q' := (y + c) / 256) in *. clearbody q q'. lia. }
    apply (G a p hi); auto. rewrite Ea. now rewrite N.add_comm, Ehi. }
  subst a.
  assert (Xb : b mod 64 = (p + 39) mod 64).
  { apply mod64_of_256.
    pose proof (N.div_mod (hi + p) 256 ltac:(discriminate)) as Q1. rewrite Ehi in Q1. set (q1 := (hi + p) / 256) in *. clearbody q1.
    pose proof (N.div_mod (d + 39) 256 ltac:(discriminate)) as Q2. rewrite Ed in Q2. set (q2 := (d + 39) / 256) in *. clearbody q2.
    pose proof (N.div_mod (b + d) 256 ltac:(discriminate)) as Q3. rewrite Eb in Q3. set (q3 := (b + d) / 256) in *. clearbody q3.
    clear Ea Ehi Ed Eb.
    (* b + d = 64 + 256 q3, d + 39 = hi + 256 q2, hi + p = 64 + 256 q1 *)
    assert (Z : b + 256 * (q2 + q1) = p + 39 + 256 * q3) by lia.
    rewrite <- (N.mod_add b (q2 + q1) 256) by discriminate. rewrite <- (N.mod_add (p + 39) q3 256) by discriminate. f_equal. lia. }
  rewrite Xb. unfold code_free. change (64 - 39) with 25. change (25 - 1) with 24. fold (prefix25 h).
  pose proof (prefix25_lt h Hh) as Hpre. rewrite (N.mod_small (prefix25 h) (2 ^ 25)) by auto.
  assert (Hpre' : prefix25 h < 33554432) by exact Hpre.
  destruct (_ =? 0).
  - rewrite ushl_ok by lia. rewrite bind_ret. rewrite ushl_ok by lia. rewrite bind_ret.
    rewrite N.mul_1_l. rewrite (N.mod_small (2 ^ 24)) by reflexivity.
    change (2 ^ 24) with (2 ^ (25 - 1)).
    pose proof (leading_zeros_rank 64 25 h ltac:(lia) ltac:(lia) Hh) as Hr.
    pose proof (rank_bounds 64 25 h ltac:(lia)) as Hb.
    rewrite uadd_ok by (rewrite Hr; change (2 ^ 32) with 4294967296; lia).
    rewrite Hr. rewrite bind_ret.
    rewrite ushl_ok by lia. rewrite bind_ret. rewrite ushl_ok by lia. rewrite bind_ret.
    unfold cast. change (2 ^ 1) with 2.
    rewrite (N.mod_small (prefix25 h)) by (change (2 ^ 32) with 4294967296; lia).
    rewrite (N.mod_small (prefix25 h * 2 ^ 7))
      by (change (2 ^ 7) with 128; change (2 ^ 32) with 4294967296; lia).
    rewrite (N.mod_small (rank 64 25 h * 2)) by (change (2 ^ 32) with 4294967296; lia).
    rewrite <- N.lor_assoc. change (rank 64 25 h * 2) with (rank 64 25 h * 2 ^ 1).
    rewrite (lor_mul_add (rank 64 25 h) 1 1) by reflexivity.
    rewrite lor_mul_add by (change (2 ^ 1) with 2; change (2 ^ 7) with 128; lia).
    f_equal. lia.
  - rewrite ushl_ok by lia. rewrite bind_ret. unfold cast. change (2 ^ 1) with 2.
    rewrite (N.mod_small (prefix25 h * 2)) by (change (2 ^ 64) with 18446744073709551616; lia).
    rewrite N.mod_small by (change (2 ^ 32) with 4294967296; lia). reflexivity.
Qed.

Lemma code_free_lt : forall p h, h < 2 ^ 64 -> code_free p h < 2 ^ 32.
Proof.
  intros p h Hh. unfold code_free. pose proof (prefix25_lt h Hh) as Hpre.
  assert (Hpre' : prefix25 h < 33554432) by exact Hpre. pose proof (rank_bounds 64 25 h ltac:(lia)) as Hb.
  change (2 ^ 7) with 128. change (2 ^ 32) with 4294967296. destruct (_ =? 0); lia.
Qed.

Lemma code_free_legal : forall p h, p < 25 -> h < 2 ^ 64 -> code_free p h = sparse_code p h.
Proof.
  intros p h Hp Hh. pose proof (encode_any small_env p h eq_refl ltac:(lia) Hh) as A.
  rewrite (encode_free small_env p h eq_refl Hh Hp) in A. now injection A.
Qed.

Lemma flush_if_any : forall (V : Type) e ord (s : plus V), 32 <= usize_bits e -> is_order ord ->
  overflow_checks e = false -> in_range s ->
  let bad := hp_counts2 s < 100 * N.of_nat (length (hp_tmpset s)) mod 2 ^ usize_bits e /\
    flush_breaks (usize_bits e) (hp_precision s) (hp_counts0 s) (hp_counts2 s) (hp_tmpset s) (d_buf (hp_sparse s)) in
  (flush_if_full e ord s = Panic /\ bad) \/ ((exists s', flush_if_full e ord s = Ret s') /\ ~ bad).
Proof.
  intros V e ord s Hu Ho Ck IR bad. unfold bad, flush_if_full, hset_len, len. rewrite Ck, umul_free, bind_ret, (N.mul_comm _ 100).
  destruct (N.ltb_spec (hp_counts2 s) (100 * N.of_nat (length (hp_tmpset s)) mod 2 ^ usize_bits e)) as [Q|Q].
  - destruct (flush_any V e ord s Hu Ho Ck IR) as [[E B]|(B & s' & L & K & E & _)].
    + left. auto.
    + right. split; [eauto|]. tauto.
  - right. split; [eauto|]. intros [Q' _]. lia.
Qed.

Lemma insert_any : forall (V : Type) e ord de_b v (s : plus V) (x : V), build e -> is_order ord ->
  overflow_checks e = false -> de_plus e de_b v = Some s -> hp_registers s = None ->
  let p := hp_precision s in
  let T := with_code (hp_tmpset s) (code_free p (hp_builder s x mod 2 ^ 64)) in
  let bad := hp_counts2 s < 100 * N.of_nat (length T) mod 2 ^ usize_bits e /\
    flush_breaks (usize_bits e) p (hp_counts0 s) (hp_counts2 s) T (d_buf (hp_sparse s)) in
  (hp_insert e ord s x = Panic /\ bad) \/ ((exists s', hp_insert e ord s x = Ret s') /\ ~ bad).
Proof.
  intros V e ord de_b v s x Hb Ho Ck D Er p T bad. destruct (de_plus_ok _ _ _ _ _ D) as [IR _]. pose proof (build_32 e Hb) as Hu.
  unfold bad, hp_insert, hp_insert_impl, hp_insert_hash. rewrite Er. cbv zeta.
  assert (Hh : hp_builder s x mod 2 ^ 64 < 2 ^ 64) by (apply N.mod_lt; discriminate).
  change (cast 64 (hp_builder s x)) with (hp_builder s x mod 2 ^ 64).
  rewrite (encode_any e (hp_precision s) _ Ck (proj1 IR) Hh), bind_ret, insert_with_code. fold p T.
  assert (ND : NoDup T) by (unfold T; rewrite <- insert_with_code; apply hset_insert_NoDup; apply IR).
  assert (FT : Forall (fun x => x < 2 ^ 32) T).
  { apply Forall_forall. intros c Hc. unfold T in Hc. rewrite <- insert_with_code in Hc. apply hset_insert_in in Hc.
    destruct Hc as [->|Hc]; [now apply code_free_lt|]. destruct IR as (_ & _ & F & _). rewrite Forall_forall in F. auto. }
  apply (flush_if_any V e ord (set_tmpset s T)); auto. now apply in_range_tmp.
Qed.

(** ** Merging *)
Lemma breaks_perm : forall w p m l T T' v, Permutation T T' -> flush_breaks w p m l T v -> flush_breaks w p m l T' v.
Proof.
  intros w p m l T T' v P [U|(L & K & A & (A' & PA & S & Q) & D)]; [now left|]. right. exists L, K. split; [exact A|].
  split; [|exact D]. exists A'. split; [now rewrite PA|auto].
Qed.

Lemma insert_fuel : forall (s : hset) c, @Ret hset (hset_insert s c) <> OutOfFuel.
Proof. discriminate. Qed.

Lemma merge_sparse_any : forall (V W : Type) e ord de_b de_b' v v' (s : plus V) (o : plus W), build e -> is_order ord ->
  overflow_checks e = false -> de_plus e de_b v = Some s -> de_plus e de_b' v' = Some o ->
  hp_registers s = None -> hp_registers o = None -> hp_precision s = hp_precision o ->
  (ends_open (d_buf (hp_sparse o)) -> hp_merge e ord s o = Panic) /\
  forall L T, reads_free (d_buf (hp_sparse o)) L -> union_of (hp_tmpset s) (hp_tmpset o) L T ->
    let bad := hp_counts2 s < 100 * N.of_nat (length T) mod 2 ^ usize_bits e /\
      flush_breaks (usize_bits e) (hp_precision s) (hp_counts0 s) (hp_counts2 s) T (d_buf (hp_sparse s)) in
    (hp_merge e ord s o = Panic /\ bad) \/ ((exists s', hp_merge e ord s o = Ret (s', ROk tt)) /\ ~ bad).
Proof.
  intros V W e ord de_b de_b' v v' s o Hb Ho Ck D D' Es Eo Ep.
  destruct (de_plus_ok _ _ _ _ _ D) as [Is _]. destruct (de_plus_ok _ _ _ _ _ D') as [Io _]. pose proof (build_32 e Hb) as Hu.
  unfold hp_merge, is_sparse.
  replace (hp_precision s =? hp_precision o) with true by (symmetry; now apply N.eqb_eq). rewrite Es, Eo. cbn [negb].
  rewrite insert_loop, bind_ret. split.
  { intros O. rewrite open_for; auto; [|discriminate]. apply Io. }
  intros L T RA [ND UN]. cbv zeta.
  rewrite (free_for _ e _ L) by (auto; apply Io). rewrite insert_loop, bind_ret.
  set (t2 := fold_left hset_insert L (fold_left hset_insert (ord (hp_tmpset o)) (hp_tmpset s))).
  destruct (inserted (ord (hp_tmpset o)) (hp_tmpset s) ltac:(apply Is)) as [N1 I1].
  destruct (inserted L _ N1) as [N2 I2]. fold t2 in N2, I2.
  assert (PO : forall c, In c (ord (hp_tmpset o)) <-> In c (hp_tmpset o)).
  { intros c. split; intros Q; (eapply Permutation_in; [|exact Q]); [|symmetry]; apply Ho. }
  assert (P : Permutation t2 T).
  { apply NoDup_Permutation; auto. intros c. rewrite I2, I1, UN, PO. tauto. }
  assert (FT : Forall (fun x => x < 2 ^ 32) t2).
  { apply Forall_forall. intros c Hc. apply I2 in Hc. rewrite I1, PO in Hc.
    destruct Is as (_ & _ & F1 & _). destruct Io as (_ & _ & F2 & _). pose proof (free_lt _ _ RA) as F3.
    rewrite Forall_forall in F1, F2, F3. destruct Hc as [?|[?|?]]; auto. }
  pose proof (Permutation_length P) as PL.
  destruct (flush_if_any V e ord (set_tmpset s t2) Hu Ho Ck (in_range_tmp _ _ _ Is N2 FT)) as [[E B]|[[s' E] B]];
    cbn [hp_tmpset set_tmpset hp_counts2 hp_counts0 hp_precision hp_sparse] in *; rewrite ?PL in *; auto.
  - left. rewrite E. split; [reflexivity|]. destruct B as [B1 B2]. split; [exact B1|]. eapply breaks_perm; eauto.
  - right. rewrite E, bind_ret. split; [eauto|]. intros [B1 B2]. apply B. split; [exact B1|]. eapply breaks_perm; [symmetry|]; eauto.
Qed.

Lemma merge_codes_any : forall (V W : Type) e ord de_b de_b' v v' (s : plus V) (o : plus W) r, build e -> is_order ord ->
  overflow_checks e = false -> de_plus e de_b v = Some s -> de_plus e de_b' v' = Some o ->
  hp_registers s = Some r -> hp_registers o = None -> hp_precision s = hp_precision o ->
  let bad := ends_open (d_buf (hp_sparse o)) \/
    exists L, reads_free (d_buf (hp_sparse o)) L /\ codes_out (hp_precision s) (slots 6 (r_buf r)) (hp_tmpset o ++ L) in
  (hp_merge e ord s o = Panic /\ bad) \/ ((exists s', hp_merge e ord s o = Ret (s', ROk tt)) /\ ~ bad).
Proof.
  intros V W e ord de_b de_b' v v' s o r Hb Ho Ck D D' Es Eo Ep bad.
  destruct (de_plus_ok _ _ _ _ _ D') as [Io _]. pose proof (build_32 e Hb) as Hu.
  unfold bad, hp_merge, is_sparse.
  replace (hp_precision s =? hp_precision o) with true by (symmetry; now apply N.eqb_eq). rewrite Es, Eo. cbn [negb unwrap].
  rewrite bind_ret. destruct (free_or_open (d_buf (hp_sparse o))) as [O|(NO & L & RA)].
  { left. split; [|now left]. pose proof (never_fuel e (hp_precision o) (ord (hp_tmpset o)) r) as NF.
    destruct (for_each (ord (hp_tmpset o)) _ r); cbn [bind]; try congruence.
    rewrite open_for; auto; [apply Io|apply absorb_fuel]. }
  assert (EQ : (let* r1 := for_each (ord (hp_tmpset o)) (absorb_code e (hp_precision o)) r in
                let* r2 := dif_for e (hp_sparse o) (absorb_code e (hp_precision o)) r1 in
                Ret (set_registers s (Some r2), ROk tt)) =
               let* r2 := for_each (ord (hp_tmpset o) ++ L) (absorb_code e (hp_precision o)) r in
               Ret (set_registers s (Some r2), ROk tt)).
  { rewrite for_each_app. destruct (for_each (ord (hp_tmpset o)) _ r); cbn [bind]; auto.
    rewrite (free_for _ e _ L) by (auto; apply Io). reflexivity. }
  rewrite EQ.
  assert (PO : forall c, In c (ord (hp_tmpset o) ++ L) <-> In c (hp_tmpset o ++ L)).
  { intros c. rewrite !in_app_iff. split; (intros [Q|Q]; [left|now right]); (eapply Permutation_in; [|exact Q]); [|symmetry]; apply Ho. }
  assert (FK : Forall (fun x => x < 2 ^ 32) (ord (hp_tmpset o) ++ L)).
  { apply Forall_app. split; [|eapply free_lt; eauto]. destruct Io as (_ & _ & F & _). rewrite Forall_forall in *.
    intros c Hc. apply F. eapply Permutation_in; [apply Ho|exact Hc]. }
  destruct (write_free e (hp_precision o) (ord (hp_tmpset o) ++ L) r Hu Ck (proj1 Io) FK) as [[A B]|(B & r' & A & _)];
    rewrite A; rewrite <- Ep in B; cbn [bind].
  - left. split; [reflexivity|]. right. exists L. split; [exact RA|]. destruct B as (c & I & Q). exists c. split; [now apply PO|exact Q].
  - right. split; [eauto|]. intros [O|(L' & RA' & c & I & Q)]; [contradiction|].
    assert (L' = L) by (eapply free_unique; eauto). subst L'. apply B. exists c. split; [now apply PO|exact Q].
Qed.

Lemma merge_into_any : forall (V W : Type) e ord de_b de_b' v v' (s : plus V) (o : plus W) ro, build e -> is_order ord ->
  overflow_checks e = false -> de_plus e de_b v = Some s -> de_plus e de_b' v' = Some o ->
  hp_registers s = None -> hp_registers o = Some ro -> hp_precision s = hp_precision o ->
  let n := slots_free (usize_bits e) (hp_counts0 s) in
  let bad := ends_open (d_buf (hp_sparse s)) \/ n < listed 6 (r_count ro) (r_buf ro) \/
    exists L, reads_free (d_buf (hp_sparse s)) L /\ codes_out (hp_precision s) n (hp_tmpset s ++ L) in
  (hp_merge e ord s o = Panic /\ bad) \/ ((exists s', hp_merge e ord s o = Ret (s', ROk tt)) /\ ~ bad).
Proof.
  intros V W e ord de_b de_b' v v' s o ro Hb Ho Ck D D' Es Eo Ep n bad.
  destruct (de_plus_ok _ _ _ _ _ D) as [Is _]. destruct (de_plus_ok _ _ _ _ _ D') as [_ Wo]. specialize (Wo ro Eo).
  pose proof (build_32 e Hb) as Hu. unfold bad, hp_merge, is_sparse, registers_iter.
  replace (hp_precision s =? hp_precision o) with true by (symmetry; now apply N.eqb_eq). rewrite Es, Eo. cbn [negb].
  set (conv := let* s1 := merge_sparse e ord s in match hp_registers s1 with None => sparse_to_normal e s1 | Some _ => Ret s1 end).
  set (breaks := ends_open (d_buf (hp_sparse s)) \/
    exists L, reads_free (d_buf (hp_sparse s)) L /\ codes_out (hp_precision s) n (hp_tmpset s ++ L)).
  assert (OUT : forall L K, merges_to (hp_tmpset s) L K -> codes_out (hp_precision s) n K <-> codes_out (hp_precision s) n (hp_tmpset s ++ L)).
  { intros L K MT. split; intros (c & I & Q); exists c; (split; [|exact Q]).
    - apply in_or_app. now apply (merges_in _ _ _ MT).
    - apply (merges_in _ _ _ MT). now apply in_app_or. }
  assert (CV : (conv = Panic /\ breaks) \/
     (~ breaks /\ exists s1 r, conv = Ret s1 /\ hp_registers s1 = Some r /\ slots 6 (r_buf r) = n)).
  { unfold conv, breaks. destruct (flush_any V e ord s Hu Ho Ck Is) as [[-> B]|(B & s' & L & K & -> & RA & MT & A1 & A2 & _ & A3)].
    { left. split; [reflexivity|]. destruct B as [B|(L & K & RA & MT & _ & C)]; [now left|right]. exists L. split; [exact RA|]. now apply (OUT _ _ MT). }
    assert (UQ : (ends_open (d_buf (hp_sparse s)) \/ exists L, reads_free (d_buf (hp_sparse s)) L /\ codes_out (hp_precision s) n (hp_tmpset s ++ L)) ->
      codes_out (hp_precision s) n K).
    { intros [O|(L' & RA' & Q)]; [exfalso; eapply free_closed; eauto|]. assert (L' = L) by (eapply free_unique; eauto). subst L'.
      now apply (OUT _ _ MT). }
    rewrite bind_ret. destruct A3 as [(G & Q & HF)|(G & r & Q & C & SL)]; rewrite Q.
    - rewrite Es. destruct (convert_any V e s' K Hu Ck) as [[-> B']|(B' & s1 & r & -> & X1 & _ & _ & _ & X5)].
      + rewrite A1. apply Is.
      + eapply holds_bytes; eauto.
      + now apply holds_reads.
      + rewrite A1, A2 in B'. left. split; [reflexivity|]. right. exists L. split; [exact RA|]. now apply (OUT _ _ MT).
      + rewrite A1, A2 in B'. right. split; [tauto|]. exists s1, r. rewrite A2 in X5. auto.
    - right. split; [|exists s', r; auto]. intros Z. apply B. right. exists L, K. split; [exact RA|]. split; [exact MT|]. split; [exact G|]. now apply UQ. }
  replace (let* s1 := merge_sparse e ord s in if match hp_registers s1 with Some _ => false | None => true end then sparse_to_normal e s1 else Ret s1) with conv.
  2:{ unfold conv. destruct (merge_sparse e ord s) as [s1| |]; cbn [bind]; auto. destruct (hp_registers s1); reflexivity. }
  destruct CV as [[-> B]|(NB & s1 & r & -> & Er & SL)]; [left; unfold breaks in B; tauto|].
  rewrite bind_ret, Er. cbn [unwrap]. rewrite !bind_ret. change SIZE_PLUS with 6.
  assert (LP : forall l i r, (for_each_enum i l (fun r i val => set_greater e 6 r i val) r = Panic /\ slots 6 (r_buf r) < i + N.of_nat (length l)) \/
     ((i + N.of_nat (length l) <= slots 6 (r_buf r) \/ l = []) /\ exists r', for_each_enum i l (fun r i val => set_greater e 6 r i val) r = Ret r')).
  { clear - Ck. induction l as [|v l IH]; intros i r; cbn [for_each_enum length]; [right; eauto|].
    destruct (set_greater_panics e 6 r i v ltac:(now right)) as [[-> B]|[[r' E] B]].
    - left. split; [reflexivity|]. destruct B as [B|[B _]]; [lia|congruence].
    - rewrite E, bind_ret. destruct (set_greater_length _ _ _ _ _ _ E) as [LL _].
      assert (S' : slots 6 (r_buf r') = slots 6 (r_buf r)) by (unfold slots; now rewrite LL).
      assert (i < slots 6 (r_buf r)) by (apply N.nle_gt; tauto).
      destruct (IH (i + 1) r') as [[-> Q]|[Q [r'' ->]]]; rewrite S' in Q; [left; split; [reflexivity|lia]|right; split; [|eauto]].
      left. destruct Q as [Q| ->]; simpl length; lia. }
  assert (LN : N.of_nat (length (reg_iter 6 ro)) = listed 6 (r_count ro) (r_buf ro)).
  { rewrite iter_packed by (auto; now right). unfold numbered. rewrite !map_length, seq_length. lia. }
  destruct (LP (reg_iter 6 ro) 0 r) as [[-> Q]|[Q [r' ->]]]; cbn [bind]; rewrite SL, ?N.add_0_l, LN in Q.
  - left. auto.
  - right. split; [eauto|]. intros [Q'|[Q'|Q']]; [apply NB; now left| |apply NB; now right]. destruct Q as [Q|Q]; [lia|].
    rewrite Q in LN. simpl in LN. rewrite <- LN in Q'. lia.
Qed.
