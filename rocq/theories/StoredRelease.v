(** * Operations on stored sketches without overflow checks *)
From Coq Require Import NArith ZArith Arith List Bool Lia Permutation Sorted.
From Verif Require Import ModelRust ModelF64 ModelEnv ModelRegisters ModelEncoding ModelCommon ModelPF ModelPlus ModelSerde
  Spec SpecBuild SpecSketch SpecBytes SpecStored
  BitFacts RegFacts EncFacts CodeFacts MergeFacts RawFacts PlusInv CountFacts ClaimRefute DecodeFacts DecodeState UntidyFacts
  StoredFacts StoredCodes StoredOps.
Import ListNotations.
Local Open Scope N_scope.

Lemma usub_free : forall w a b, exists v, usub false w a b = Ret v.
Proof. intros. unfold usub. destruct (b <=? a); eauto. Qed.
Lemma uadd_free : forall w a b, exists v, uadd false w a b = Ret v.
Proof. intros. unfold uadd. destruct (a + b <? 2 ^ w); eauto. Qed.
Lemma ushl_free : forall w a b, exists v, ushl false w a b = Ret v.
Proof. intros. unfold ushl. destruct (b <? w); eauto. Qed.

Lemma extract_free : forall e p x lo a, overflow_checks e = false -> p < 256 -> a = 32 \/ a = 26 ->
  lo = (if p <=? a then a - p else a + 256 - p) ->
  extract e 32 x a lo = Ret (x * 2 ^ (32 - a) mod 2 ^ 32 / 2 ^ ((256 - p) mod 32)).
Proof.
  intros e p x lo a Ck Hp Ha Hlo. unfold extract. rewrite Ck.
  rewrite usub_ok by lia. rewrite bind_ret, ushl_ok by lia. rewrite bind_ret.
  assert (D : usub false 8 a lo = Ret p).
  { unfold usub. change (2 ^ 8) with 256. subst lo. destruct (N.leb_spec p a) as [L|L].
    - replace (a - p <=? a) with true by (symmetry; apply N.leb_le; lia). f_equal. lia.
    - replace (a + 256 - p <=? a) with false by (symmetry; apply N.leb_gt; lia). f_equal. lia. }
  rewrite D, bind_ret.
  assert (S : exists b, usub false 8 32 p = Ret b /\ b mod 32 = (256 - p) mod 32).
  { unfold usub. change (2 ^ 8) with 256. destruct (N.leb_spec p 32) as [L|L]; eexists; (split; [reflexivity|]).
    - replace (256 - p) with (32 - p + 7 * 32) by lia. now rewrite N.mod_add.
    - replace (32 + 256 - p) with (256 - p + 1 * 32) by lia. now rewrite N.mod_add. }
  destruct S as (b & -> & Eb). rewrite bind_ret. unfold ushr. rewrite <- Eb.
  destruct (N.ltb_spec b 32) as [L|L]; rewrite N.shiftr_div_pow2; [now rewrite (N.mod_small b)|reflexivity].
Qed.

Lemma decode_free : forall e p c, 32 <= usize_bits e -> overflow_checks e = false -> p < 256 -> c < 2 ^ 32 ->
  exists z, decode_hash e p c = Ret (z, code_slot p c).
Proof.
  intros e p c Hu Ck Hp Hc. unfold decode_hash, code_index, PRIME_PRECISION, code_slot. rewrite land1, Ck.
  rewrite <- N.bit0_odd, N.bit0_eqb.
  assert (Hcast : forall x, x < 2 ^ 32 -> cast (usize_bits e) (x / 2 ^ ((256 - p) mod 32)) = x / 2 ^ ((256 - p) mod 32)).
  { intros x Hx. unfold cast. apply N.mod_small. apply N.le_lt_trans with x.
    - apply N.div_le_upper_bound; [apply pow2_nz|].
      assert (1 <= 2 ^ ((256 - p) mod 32)) by (apply N.lt_pred_le, N.neq_0_lt_0, pow2_nz). nia.
    - eapply N.lt_le_trans; [exact Hx|]. now apply pow2_le. }
  destruct (N.eqb_spec (c mod 2) 1) as [E|E].
  - rewrite extract_ok by (auto; lia). rewrite bind_ret.
    destruct (usub_free 8 25 p) as (d & ->). rewrite bind_ret.
    destruct (uadd_free 32 ((c / 2 ^ 1) mod 2 ^ (7 - 1)) d) as (z & ->). rewrite bind_ret.
    assert (Lo : usub false 8 32 p = Ret (if p <=? 32 then 32 - p else 32 + 256 - p)).
    { unfold usub. change (2 ^ 8) with 256. destruct (p <=? 32); reflexivity. }
    rewrite Lo, bind_ret. rewrite (extract_free e p c _ 32 Ck Hp ltac:(now left) eq_refl). rewrite !bind_ret.
    change (2 ^ (32 - 32)) with 1. rewrite N.mul_1_r, (N.mod_small c) by exact Hc. rewrite Hcast by exact Hc. eauto.
  - destruct (uadd_free 8 (32 - 25) p) as (a & ->). rewrite bind_ret.
    destruct (usub_free 8 a 1) as (b & ->). rewrite bind_ret.
    destruct (ushl_free 32 c b) as (h & ->). rewrite bind_ret.
    destruct (uadd_free 32 (leading_zeros 32 h) 1) as (z & ->). rewrite bind_ret.
    assert (Lo : (let* d := usub false 8 25 p in uadd false 8 d 1) = Ret (if p <=? 26 then 26 - p else 26 + 256 - p)).
    { unfold usub, uadd. change (2 ^ 8) with 256. destruct (N.leb_spec p 25) as [L|L]; cbn [bind].
      - replace (25 - p + 1 <? 256) with true by (symmetry; apply N.ltb_lt; lia).
        replace (p <=? 26) with true by (symmetry; apply N.leb_le; lia). f_equal. lia.
      - destruct (N.leb_spec p 26) as [L'|L'].
        + assert (p = 26) by lia. subst p. reflexivity.
        + replace (25 + 256 - p + 1 <? 256) with true by (symmetry; apply N.ltb_lt; lia). f_equal. lia. }
    destruct (usub false 8 25 p) as [d| |]; cbn [bind] in Lo |- *; try discriminate Lo.
    rewrite Lo, bind_ret. change (25 + 1) with 26.
    rewrite (extract_free e p c _ 26 Ck Hp ltac:(now right) eq_refl). rewrite !bind_ret.
    change (2 ^ (32 - 26)) with 64. rewrite Hcast by (apply N.mod_lt; discriminate). eauto.
Qed.

(** With a precision of 1 to 25 the two readings agree. *)
Lemma code_slot_reg : forall p c, 1 <= p <= 25 -> c < 2 ^ 32 -> code_slot p c = reg_of p c.
Proof.
  intros p c Hp Hc. unfold code_slot, reg_of.
  assert (M : (256 - p) mod 32 = 32 - p) by (symmetry; apply (N.mod_unique _ _ 7); lia). rewrite M.
  destruct (N.odd c); [reflexivity|].
  change 64 with (2 ^ 6). change (2 ^ 32) with (2 ^ (26 + 6)) at 1. rewrite N.pow_add_r, N.mul_mod_distr_r by apply pow2_nz.
  replace (32 - p) with (26 - p + 6) by lia. rewrite (N.pow_add_r 2 (26 - p) 6).
  rewrite N.div_mul_cancel_r by apply pow2_nz.
  replace 26 with (26 - p + p) at 1 by lia. rewrite N.pow_add_r.
  rewrite N.mod_mul_r by apply pow2_nz. rewrite N.mul_comm, N.div_add by apply pow2_nz.
  rewrite N.div_small by (apply N.mod_lt, pow2_nz). reflexivity.
Qed.

Lemma set_greater_length : forall e sz r i v r', set_greater e sz r i v = Ret r' ->
  length (r_buf r') = length (r_buf r) /\ r_count r' = r_count r.
Proof.
  intros e sz r i v r' H. unfold set_greater in H. destruct (index _ _); cbn [bind] in H; try discriminate.
  destruct (_ <? v); [|injection H as <-; auto]. destruct (_ =? 0).
  - destruct (usub _ _ _ _); cbn [bind] in H; try discriminate. injection H as <-. cbn [r_buf r_count]. now rewrite update_length.
  - injection H as <-. cbn [r_buf r_count]. now rewrite update_length.
Qed.

Lemma write_free : forall e p K r, 32 <= usize_bits e -> overflow_checks e = false -> p < 256 ->
  Forall (fun x => x < 2 ^ 32) K ->
  let bad := codes_out p (slots 6 (r_buf r)) K in
  (for_each K (absorb_code e p) r = Panic /\ bad) \/
  (~ bad /\ exists r', for_each K (absorb_code e p) r = Ret r' /\ length (r_buf r') = length (r_buf r) /\ r_count r' = r_count r).
Proof.
  intros e p K. induction K as [|c K IH]; intros r Hu Ck Hp F; cbn [for_each]; cbv zeta.
  { right. split; [intros (c & [] & _)|]. eauto. }
  inv F. unfold absorb_code at 1 3. change SIZE_PLUS with 6.
  destruct (decode_free e p c Hu Ck Hp H1) as (z & ->). rewrite bind_ret.
  destruct (set_greater_panics e 6 r (code_slot p c) z ltac:(now right)) as [[-> B]|[[r' E] B]].
  { left. split; [reflexivity|]. exists c. split; [now left|]. destruct B as [B|[B _]]; [exact B|congruence]. }
  destruct (set_greater_length _ _ _ _ _ _ E) as [L C]. rewrite E, bind_ret.
  assert (SL : slots 6 (r_buf r') = slots 6 (r_buf r)) by (unfold slots; now rewrite L).
  destruct (IH r' Hu Ck Hp H2) as [[-> (c' & I & Q)]|(Q & r'' & -> & L' & C')]; rewrite SL in Q.
  - left. split; [reflexivity|]. exists c'. split; [now right|exact Q].
  - right. split.
    + intros (c' & [<-|I] & Q'); [apply B; now left|apply Q; exists c'; auto].
    + exists r''. repeat split; congruence.
Qed.

Lemma convert_free : forall (V : Type) e (s : plus V) K, 32 <= usize_bits e -> overflow_checks e = false ->
  hp_precision s < 256 -> hp_counts0 s + 5 < 2 ^ usize_bits e -> dif_repr (hp_sparse s) K ->
  let bad := codes_out (hp_precision s) (slots_for (hp_counts0 s)) K in
  (sparse_to_normal e s = Panic /\ bad) \/
  (~ bad /\ exists s' r, sparse_to_normal e s = Ret s' /\ hp_registers s' = Some r /\ r_count r = hp_counts0 s /\
     hp_precision s' = hp_precision s /\ hp_counts0 s' = hp_counts0 s /\ slots 6 (r_buf r) = slots_for (hp_counts0 s)).
Proof.
  intros V e s K Hu Ck Hp Hm R bad. unfold bad, sparse_to_normal, with_count, ceil. change (count_per_word SIZE_PLUS) with 5.
  rewrite uadd_ok by exact Hm. rewrite bind_ret, usub_ok by lia. rewrite !bind_ret, (dif_for_ok _ e _ K _ _ R).
  set (r0 := {| r_buf := _; r_count := _; r_zeros := _ |}).
  assert (SL : slots 6 (r_buf r0) = slots_for (hp_counts0 s)).
  { unfold slots, slots_for, r0. cbn [r_buf]. rewrite repeat_length, N2Nat.id. change (32 / 6) with 5. do 2 f_equal. lia. }
  destruct (write_free e (hp_precision s) K r0 Hu Ck Hp ltac:(apply R)) as [[-> B]|(B & r' & -> & L' & C')]; rewrite SL in B.
  - left. auto.
  - right. split; [exact B|]. rewrite bind_ret. eexists. exists r'. split; [reflexivity|]. repeat split; auto.
    rewrite <- SL. unfold slots. now rewrite L'.
Qed.

(** ** Counting *)
Lemma flush_free : forall (V : Type) e ord (s : plus V) L, 32 <= usize_bits e -> is_order ord ->
  overflow_checks e = false -> in_range s -> hp_counts0 s + 5 < 2 ^ usize_bits e ->
  reads_as (d_buf (hp_sparse s)) L -> forall K, flushes_to (hp_tmpset s) L K ->
  let bad := hp_counts2 s < gap_len 0 K /\ codes_out (hp_precision s) (slots_for (hp_counts0 s)) K in
  (merge_sparse e ord s = Panic /\ bad) \/
  (~ bad /\ exists s', merge_sparse e ord s = Ret s' /\ hp_precision s' = hp_precision s /\ hp_counts0 s' = hp_counts0 s /\
     (gap_len 0 K <= hp_counts2 s /\ hp_registers s' = hp_registers s /\ dif_repr (hp_sparse s') K \/
      hp_counts2 s < gap_len 0 K /\ exists r, hp_registers s' = Some r /\ r_count r = hp_counts0 s /\ 
        slots 6 (r_buf r) = slots_for (hp_counts0 s))).
Proof.
  intros V e ord s L Hu Ho Ck (Hp & ND & FT & B) Hm RA K FL bad. unfold bad. rewrite merge_sparse_codes.
  destruct (flush_codes e ord _ _ L Ho ND FT B RA) as (d' & K' & -> & R & FL'). rewrite bind_ret. cbv zeta.
  assert (K' = K) by (eapply flushes_unique; eauto). subst K'.
  cbn [hp_counts2 set_tmpset set_sparse hp_sparse]. rewrite (dif_repr_len d' K R).
  destruct (N.ltb_spec (hp_counts2 s) (gap_len 0 K)) as [G|G].
  - destruct (convert_free V e (set_tmpset (set_sparse s d') []) K Hu Ck Hp Hm R) as [[E Q]|(Q & s' & r & E & A1 & A2 & A3 & A4 & A5)].
    + left. auto.
    + right. split; [tauto|]. exists s'. rewrite E. split; [reflexivity|]. split; [exact A3|]. split; [exact A4|]. right.
      split; [exact G|]. exists r. repeat split; auto.
  - right. split; [lia|]. eexists. split; [reflexivity|]. do 2 (split; [reflexivity|]). left. split; [exact G|]. split; [reflexivity|exact R].
Qed.

Lemma count_free : forall (V : Type) e ord de_b v (s : plus V) L K, build_std e -> is_order ord ->
  overflow_checks e = false -> de_plus e de_b v = Some s -> hp_registers s = None ->
  hp_counts0 s + 5 < 2 ^ usize_bits e ->
  reads_as (d_buf (hp_sparse s)) L -> flushes_to (hp_tmpset s) L K ->
  let bad := hp_counts2 s < gap_len 0 K /\ codes_out (hp_precision s) (slots_for (hp_counts0 s)) K in
  (hp_count e ord s = Panic /\ bad) \/
  (~ bad /\ (gap_len 0 K <= hp_counts2 s /\ (exists s' c, hp_count e ord s = Ret (s', c)) \/
     hp_counts2 s < gap_len 0 K /\ exists s' r, hp_count e ord s = hp_count e ord s' /\ hp_registers s' = Some r /\
       hp_precision s' = hp_precision s /\ hp_counts0 s' = hp_counts0 s)).
Proof.
  intros V e ord de_b v s L K Hb Ho Ck D Er Hm RA FL bad. destruct (de_plus_ok _ _ _ _ _ D) as [IR _].
  assert (Hu : 32 <= usize_bits e) by (destruct Hb as [[H _] _]; lia).
  assert (S : is_sparse s = true) by (unfold is_sparse; now rewrite Er).
  destruct (flush_free V e ord s L Hu Ho Ck IR Hm RA K FL) as [[E B]|(B & s' & E & A1 & A2 & A3)].
  { left. split; [|exact B]. unfold hp_count. now rewrite S, E. }
  right. split; [exact B|]. destruct A3 as [(G & Q & R)|(G & r & Q & C & SL)]; [left|right]; (split; [exact G|]).
  - destruct RA as (ns & E1 & F1 & L5 & TT & ->). destruct IR as (_ & ND & FT & BB).
    destruct (count_sparse V e ord s ns K Ho Er ND FT BB E1 F1 L5 TT FL G) as [(X & Y & _)|(s1 & c & z & X & _)]; [congruence|eauto].
  - exists s', r. split; [|auto]. apply count_after; auto. unfold is_sparse. now rewrite Q.
Qed.

(** ** Inserting and merging *)
Lemma flush_if_free : forall (V : Type) e ord (s : plus V) L K, 32 <= usize_bits e -> is_order ord ->
  overflow_checks e = false -> in_range s -> hp_counts0 s + 5 < 2 ^ usize_bits e ->
  100 * N.of_nat (length (hp_tmpset s)) < 2 ^ usize_bits e ->
  reads_as (d_buf (hp_sparse s)) L -> flushes_to (hp_tmpset s) L K ->
  let bad := hp_counts2 s < 100 * N.of_nat (length (hp_tmpset s)) /\
    hp_counts2 s < gap_len 0 K /\ codes_out (hp_precision s) (slots_for (hp_counts0 s)) K in
  (flush_if_full e ord s = Panic /\ bad) \/ ((exists s', flush_if_full e ord s = Ret s') /\ ~ bad).
Proof.
  intros V e ord s L K Hu Ho Ck IR Hm H100 RA FL bad. unfold bad, flush_if_full, hset_len, len.
  rewrite (N.mul_comm 100) in *. rewrite umul_ok by exact H100. rewrite bind_ret.
  destruct (N.ltb_spec (hp_counts2 s) (N.of_nat (length (hp_tmpset s)) * 100)) as [Q|Q].
  - destruct (flush_free V e ord s L Hu Ho Ck IR Hm RA K FL) as [[E B]|(B & s' & E & _)].
    + left. auto.
    + right. split; [eauto|]. tauto.
  - right. split; [eauto|]. intros [Q' _]. lia.
Qed.

Lemma encode_free : forall e p h, overflow_checks e = false -> h < 2 ^ 64 -> p < 25 -> encode_hash e p h = Ret (sparse_code p h).
Proof.
  intros e p h Ck Hh Hp.
  pose (e' := ModelTests.test_env).
  destruct (encode_checked e' p h eq_refl ltac:(lia) Hh) as [[L _]|[_ E]]; [lia|].
  rewrite <- E. unfold encode_hash, PRIME_PRECISION.
  rewrite !extract_ok by (auto; lia). rewrite !bind_ret. rewrite !usub_ok by lia. rewrite !bind_ret.
  rewrite !extract_ok by (auto; lia). rewrite !bind_ret.
  destruct (_ =? 0).
  - rewrite !(ushl_ok _ 64) by lia. rewrite !bind_ret.
    rewrite !uadd_ok by (unfold leading_zeros; change (2 ^ 32) with 4294967296; lia). rewrite !bind_ret.
    rewrite !ushl_ok by lia. reflexivity.
  - rewrite !ushl_ok by lia. reflexivity.
Qed.

Lemma plus_insert_free : forall (V : Type) e ord (s : plus V) (x : V) L K, 32 <= usize_bits e -> is_order ord ->
  overflow_checks e = false -> in_range s -> hp_registers s = None -> hp_precision s < 25 ->
  hp_counts0 s + 5 < 2 ^ usize_bits e ->
  100 * (N.of_nat (length (hp_tmpset s)) + 1) < 2 ^ usize_bits e ->
  let p := hp_precision s in
  let T := with_code (hp_tmpset s) (sparse_code p (hp_builder s x mod 2 ^ 64)) in
  reads_as (d_buf (hp_sparse s)) L -> flushes_to T L K ->
  let bad := hp_counts2 s < 100 * N.of_nat (length T) /\ hp_counts2 s < gap_len 0 K /\
    codes_out p (slots_for (hp_counts0 s)) K in
  (hp_insert e ord s x = Panic /\ bad) \/ ((exists s', hp_insert e ord s x = Ret s') /\ ~ bad).
Proof.
  intros V e ord s x L K Hu Ho Ck IR Er Hp Hm H100 p T RA FL bad. unfold bad, hp_insert, hp_insert_impl, hp_insert_hash. rewrite Er. cbv zeta.
  assert (Hh : hp_builder s x mod 2 ^ 64 < 2 ^ 64) by (apply N.mod_lt; discriminate).
  change (cast 64 (hp_builder s x)) with (hp_builder s x mod 2 ^ 64).
  rewrite (encode_free e (hp_precision s) _ Ck Hh Hp), bind_ret, insert_with_code. fold p T.
  assert (ND : NoDup T) by (unfold T; rewrite <- insert_with_code; apply hset_insert_NoDup; apply IR).
  assert (FT : Forall (fun x => x < 2 ^ 32) T).
  { apply Forall_forall. intros c Hc. unfold T in Hc. rewrite <- insert_with_code in Hc. apply hset_insert_in in Hc.
    destruct Hc as [->|Hc]; [now apply sparse_code_lt|]. destruct IR as (_ & _ & F & _). rewrite Forall_forall in F. auto. }
  assert (LT : N.of_nat (length T) <= N.of_nat (length (hp_tmpset s)) + 1).
  { unfold T, with_code. destruct (in_dec _ _ _); simpl length; lia. }
  apply (flush_if_free V e ord (set_tmpset s T) L K); auto.
  - now apply in_range_tmp.
  - cbn [hp_tmpset set_tmpset]. lia.
Qed.

Lemma plus_merge_free : forall (V W : Type) e ord (s : plus V) (o : plus W) L T L' K, 32 <= usize_bits e -> is_order ord ->
  overflow_checks e = false -> in_range s -> in_range o -> hp_registers s = None -> hp_registers o = None ->
  hp_precision s = hp_precision o -> hp_counts0 s + 5 < 2 ^ usize_bits e ->
  reads_as (d_buf (hp_sparse o)) L -> union_of (hp_tmpset s) (hp_tmpset o) L T ->
  100 * N.of_nat (length T) < 2 ^ usize_bits e ->
  reads_as (d_buf (hp_sparse s)) L' -> flushes_to T L' K ->
  let bad := hp_counts2 s < 100 * N.of_nat (length T) /\ hp_counts2 s < gap_len 0 K /\
    codes_out (hp_precision s) (slots_for (hp_counts0 s)) K in
  (hp_merge e ord s o = Panic /\ bad) \/ ((exists s', hp_merge e ord s o = Ret (s', ROk tt)) /\ ~ bad).
Proof.
  intros V W e ord s o L T L' K Hu Ho Ck Is Io Es Eo Ep Hm RA [ND UN] H100 RA' FL bad. unfold bad, hp_merge, is_sparse.
  replace (hp_precision s =? hp_precision o) with true by (symmetry; now apply N.eqb_eq). rewrite Es, Eo. cbn [negb].
  rewrite insert_loop, bind_ret, (for_stored _ e _ L) by (auto; apply Io). rewrite insert_loop, bind_ret.
  set (t2 := fold_left hset_insert L (fold_left hset_insert (ord (hp_tmpset o)) (hp_tmpset s))).
  destruct (inserted (ord (hp_tmpset o)) (hp_tmpset s) ltac:(apply Is)) as [N1 I1].
  destruct (inserted L _ N1) as [N2 I2]. fold t2 in N2, I2.
  assert (PO : forall c, In c (ord (hp_tmpset o)) <-> In c (hp_tmpset o)).
  { intros c. split; intros Q; (eapply Permutation_in; [|exact Q]); [|symmetry]; apply Ho. }
  assert (P : Permutation t2 T).
  { apply NoDup_Permutation; auto. intros c. rewrite I2, I1, UN, PO. tauto. }
  assert (FT : Forall (fun x => x < 2 ^ 32) t2).
  { apply Forall_forall. intros c Hc. apply I2 in Hc. rewrite I1, PO in Hc.
    destruct Is as (_ & _ & F1 & _). destruct Io as (_ & _ & F2 & _). pose proof (holds_lt _ _ RA) as F3.
    rewrite Forall_forall in F1, F2, F3. destruct Hc as [?|[?|?]]; auto. }
  pose proof (Permutation_length P) as PL.
  assert (FL2 : flushes_to t2 L' K).
  { destruct FL as [A B]. split; [exact A|]. rewrite B. apply Permutation_app_head. now apply sort_missing. }
  destruct (flush_if_free V e ord (set_tmpset s t2) L' K Hu Ho Ck (in_range_tmp _ _ _ Is N2 FT)) as [[E B]|[[s' E] B]];
    cbn [hp_tmpset set_tmpset hp_counts2 hp_counts0 hp_precision hp_sparse] in *; rewrite ?PL in *; auto.
  - left. rewrite E. split; [reflexivity|exact B].
  - right. rewrite E, bind_ret. split; [eauto|exact B].
Qed.

Lemma plus_merge_codes_free : forall (V W : Type) e ord (s : plus V) (o : plus W) r L, 32 <= usize_bits e -> is_order ord ->
  overflow_checks e = false -> in_range o -> hp_registers s = Some r -> hp_registers o = None ->
  hp_precision s = hp_precision o -> reads_as (d_buf (hp_sparse o)) L ->
  let bad := codes_out (hp_precision s) (slots 6 (r_buf r)) (hp_tmpset o ++ L) in
  (hp_merge e ord s o = Panic /\ bad) \/ ((exists s', hp_merge e ord s o = Ret (s', ROk tt)) /\ ~ bad).
Proof.
  intros V W e ord s o r L Hu Ho Ck Io Es Eo Ep RA bad. unfold bad, hp_merge, is_sparse.
  replace (hp_precision s =? hp_precision o) with true by (symmetry; now apply N.eqb_eq). rewrite Es, Eo. cbn [negb unwrap].
  rewrite bind_ret.
  assert (EQ : (let* r1 := for_each (ord (hp_tmpset o)) (absorb_code e (hp_precision o)) r in
                let* r2 := dif_for e (hp_sparse o) (absorb_code e (hp_precision o)) r1 in
                Ret (set_registers s (Some r2), ROk tt)) =
               let* r2 := for_each (ord (hp_tmpset o) ++ L) (absorb_code e (hp_precision o)) r in
               Ret (set_registers s (Some r2), ROk tt)).
  { rewrite for_each_app. destruct (for_each (ord (hp_tmpset o)) _ r); cbn [bind]; auto.
    rewrite (for_stored _ e _ L) by (auto; apply Io). reflexivity. }
  rewrite EQ.
  assert (PO : forall c, In c (ord (hp_tmpset o) ++ L) <-> In c (hp_tmpset o ++ L)).
  { intros c. rewrite !in_app_iff. split; (intros [Q|Q]; [left|now right]); (eapply Permutation_in; [|exact Q]); [|symmetry]; apply Ho. }
  assert (FK : Forall (fun x => x < 2 ^ 32) (ord (hp_tmpset o) ++ L)).
  { apply Forall_app. split; [|eapply holds_lt; eauto]. destruct Io as (_ & _ & F & _). rewrite Forall_forall in *.
    intros c Hc. apply F. eapply Permutation_in; [apply Ho|exact Hc]. }
  destruct (write_free e (hp_precision o) (ord (hp_tmpset o) ++ L) r Hu Ck (proj1 Io) FK) as [[A B]|(B & r' & A & _)];
    rewrite A; rewrite <- Ep in B; cbn [bind].
  - left. split; [reflexivity|]. destruct B as (c & I & Q). exists c. split; [now apply PO|exact Q].
  - right. split; [eauto|]. intros (c & I & Q). apply B. exists c. split; [now apply PO|exact Q].
Qed.

Lemma plus_merge_into_free : forall (V W : Type) e ord (s : plus V) (o : plus W) ro L K, 32 <= usize_bits e -> is_order ord ->
  overflow_checks e = false -> in_range s -> hp_registers s = None -> hp_registers o = Some ro -> words_ok ro ->
  hp_precision s = hp_precision o -> hp_counts0 s + 5 < 2 ^ usize_bits e ->
  reads_as (d_buf (hp_sparse s)) L -> flushes_to (hp_tmpset s) L K ->
  let m := hp_counts0 s in
  let bad := codes_out (hp_precision s) (slots_for m) K \/ slots_for m < listed 6 (r_count ro) (r_buf ro) in
  (hp_merge e ord s o = Panic /\ bad) \/ ((exists s', hp_merge e ord s o = Ret (s', ROk tt)) /\ ~ bad).
Proof.
  intros V W e ord s o ro L K Hu Ho Ck Is Es Eo Wo Ep Hm RA FL m bad. unfold bad, hp_merge, is_sparse, registers_iter.
  replace (hp_precision s =? hp_precision o) with true by (symmetry; now apply N.eqb_eq). rewrite Es, Eo. cbn [negb].
  set (conv := let* s1 := merge_sparse e ord s in match hp_registers s1 with None => sparse_to_normal e s1 | Some _ => Ret s1 end).
  assert (CV : (conv = Panic /\ codes_out (hp_precision s) (slots_for m) K) \/
     (~ codes_out (hp_precision s) (slots_for m) K /\ exists s1 r, conv = Ret s1 /\ hp_registers s1 = Some r /\
       slots 6 (r_buf r) = slots_for m)).
  { unfold conv. destruct (flush_free V e ord s L Hu Ho Ck Is Hm RA K FL) as [[-> [_ B]]|(B & s' & -> & A1 & A2 & A3)]; [left; auto|].
    rewrite bind_ret. destruct A3 as [(G & Q & R)|(G & r & Q & C & SL)]; rewrite Q.
    - rewrite Es. destruct (convert_free V e s' K Hu Ck) as [[-> B']|(B' & s1 & r & -> & X1 & _ & _ & _ & X5)]; rewrite ?A1, ?A2 in *; auto.
      + apply Is.
      + right. split; [exact B'|]. exists s1, r. auto.
    - right. split; [tauto|]. exists s', r. auto. }
  replace (let* s1 := merge_sparse e ord s in if match hp_registers s1 with Some _ => false | None => true end then sparse_to_normal e s1 else Ret s1) with conv.
  2:{ unfold conv. destruct (merge_sparse e ord s) as [s1| |]; cbn [bind]; auto. destruct (hp_registers s1); reflexivity. }
  destruct CV as [[-> B]|(NB & s1 & r & -> & Er & SL)]; [left; auto|].
  rewrite bind_ret, Er. cbn [unwrap]. rewrite !bind_ret. change SIZE_PLUS with 6.
  assert (LP : forall l i r, (for_each_enum i l (fun r i val => set_greater e 6 r i val) r = Panic /\ slots 6 (r_buf r) < i + N.of_nat (length l)) \/
     ((i + N.of_nat (length l) <= slots 6 (r_buf r) \/ l = []) /\ exists r', for_each_enum i l (fun r i val => set_greater e 6 r i val) r = Ret r')).
  { clear - Ck. induction l as [|v l IH]; intros i r; cbn [for_each_enum length]; [right; eauto|].
    destruct (set_greater_panics e 6 r i v ltac:(now right)) as [[-> B]|[[r' E] B]].
    - left. split; [reflexivity|]. destruct B as [B|[B _]]; [lia|congruence].
    - rewrite E, bind_ret. destruct (set_greater_length _ _ _ _ _ _ E) as [LL _].
      assert (S' : slots 6 (r_buf r') = slots 6 (r_buf r)) by (unfold slots; now rewrite LL).
      assert (i < slots 6 (r_buf r)) by (apply N.nle_gt; tauto).
      destruct (IH (i + 1) r') as [[-> Q]|[Q [r'' ->]]]; rewrite S' in Q; [left; split; [reflexivity|lia]|right; split; [|eauto]].
      left. destruct Q as [Q| ->]; simpl length; lia. }
  assert (LN : N.of_nat (length (reg_iter 6 ro)) = listed 6 (r_count ro) (r_buf ro)).
  { rewrite iter_packed by (auto; now right). unfold numbered. rewrite !map_length, seq_length. lia. }
  destruct (LP (reg_iter 6 ro) 0 r) as [[-> Q]|[Q [r' ->]]]; cbn [bind]; rewrite SL, ?N.add_0_l, LN in Q.
  - left. auto.
  - right. split; [eauto|]. intros [Q'|Q']; [contradiction|]. destruct Q as [Q|Q]; [lia|].
    rewrite Q in LN. simpl in LN. rewrite <- LN in Q'. lia.
Qed.
