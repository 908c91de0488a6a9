(** * Registers and codes read back from storage *)
From Coq Require Import NArith ZArith Arith List Bool Lia Permutation Sorted.
From Verif Require Import ModelRust ModelF64 ModelEnv ModelRegisters ModelEncoding ModelCommon ModelPF ModelPlus ModelSerde
  Spec SpecBuild SpecSketch SpecBytes SpecStored
  BitFacts RegFacts EncFacts CodeFacts MergeFacts RawFacts PlusInv CountFacts ClaimRefute DecodeFacts DecodeState UntidyFacts.
Import ListNotations.
Local Open Scope N_scope.

Definition words_ok (r : registers) : Prop := Forall (fun w => w < 2 ^ 32) (r_buf r).

(** The same words, all of their registers in use. *)
Definition whole_regs (sz z : N) (r : registers) : registers :=
  {| r_buf := r_buf r; r_count := slots sz (r_buf r); r_zeros := z |}.

Lemma slots_cpw : forall sz buf, slots sz buf = count_per_word sz * N.of_nat (length buf).
Proof. reflexivity. Qed.

Lemma packed_fld : forall sz buf i, reg_size sz ->
  reg_at sz buf i = fld sz (nth (N.to_nat (i / count_per_word sz)) buf 0) (i mod count_per_word sz).
Proof.
  intros sz buf i Hs. unfold reg_at, fld. change (32 / sz) with (count_per_word sz).
  replace (mask sz) with (N.ones sz) by (unfold mask, N.ones; rewrite N.sub_1_r; reflexivity).
  rewrite N.land_ones, N.shiftr_div_pow2. now rewrite (N.mul_comm sz).
Qed.

Lemma packed_field : forall r i, reg_at 6 (r_buf r) i = field r i.
Proof. intros. rewrite packed_fld by now right. reflexivity. Qed.

Lemma packed_lt : forall sz buf i, reg_at sz buf i < 2 ^ sz.
Proof. intros. unfold reg_at. apply N.mod_lt, pow2_nz. Qed.

Lemma packed_over : forall sz buf i, reg_size sz -> slots sz buf <= i -> reg_at sz buf i = 0.
Proof.
  intros sz buf i Hs H. unfold reg_at. rewrite nth_overflow.
  - rewrite N.div_0_l by apply pow2_nz. apply N.mod_0_l, pow2_nz.
  - destruct (reg_size_facts sz Hs) as (H1 & _). unfold slots in H. change (32 / sz) with (count_per_word sz) in *.
    assert (N.of_nat (length buf) <= i / count_per_word sz); [|set (q := i / _) in *; clearbody q; lia].
    apply N.div_le_lower_bound; lia.
Qed.

Lemma whole_wf : forall sz z r, reg_size sz -> words_ok r -> wf_regs sz (whole_regs sz z r).
Proof.
  intros sz z r Hs W. split; [|exact W]. cbn [r_buf r_count whole_regs]. rewrite slots_cpw.
  destruct (reg_size_facts sz Hs) as (H1 & _). set (n := N.of_nat _).
  apply (N.div_unique _ _ n (count_per_word sz - 1)); lia.
Qed.

Lemma whole_nth : forall sz z r i, reg_size sz -> words_ok r -> i < slots sz (r_buf r) ->
  nth_error (reg_iter sz (whole_regs sz z r)) (N.to_nat i) = Some (reg_at sz (r_buf r) i).
Proof.
  intros sz z r i Hs W Hi. pose proof (whole_wf sz z r Hs W) as WF.
  destruct (wf_word sz _ i Hs WF Hi) as (w & En & _).
  rewrite (reg_iter_nth sz _ i w Hs WF Hi En). f_equal. rewrite packed_fld by auto.
  cbn [r_buf whole_regs] in En. now rewrite (nth_error_nth _ _ 0 En).
Qed.

Lemma index_none : forall (A : Type) (v : list A) i, N.of_nat (length v) <= i -> index v i = Panic.
Proof.
  intros A v i H. unfold index. replace (nth_error v (N.to_nat i)) with (@None A); [reflexivity|].
  symmetry. apply nth_error_None. lia.
Qed.

Lemma index_cases : forall sz r i, reg_size sz ->
  (slots sz (r_buf r) <= i /\ index (r_buf r) (i / count_per_word sz) = Panic) \/
  (i < slots sz (r_buf r) /\
   index (r_buf r) (i / count_per_word sz) = Ret (nth (N.to_nat (i / count_per_word sz)) (r_buf r) 0)).
Proof.
  intros sz r i Hs. destruct (reg_size_facts sz Hs) as (H1 & _). rewrite slots_cpw.
  destruct (N.lt_ge_cases i (count_per_word sz * N.of_nat (length (r_buf r)))) as [L|L].
  - right. split; [exact L|]. unfold index.
    assert (Q : i / count_per_word sz < N.of_nat (length (r_buf r))) by (apply N.div_lt_upper_bound; lia).
    set (q := i / _) in *. clearbody q. erewrite nth_error_nth'; [reflexivity|]. lia.
  - left. split; [exact L|]. apply index_none. apply N.div_le_lower_bound; lia.
Qed.

(** ** When [set_greater] panics *)
Lemma set_greater_panics : forall e sz r i v, reg_size sz ->
  let bad := slots sz (r_buf r) <= i \/
    overflow_checks e = true /\ reg_at sz (r_buf r) i = 0 /\ 0 < v /\ r_zeros r = 0 in
  (set_greater e sz r i v = Panic /\ bad) \/ ((exists r', set_greater e sz r i v = Ret r') /\ ~ bad).
Proof.
  intros e sz r i v Hs bad. unfold set_greater. unfold bad. clear bad.
  destruct (index_cases sz r i Hs) as [[A ->]|[A ->]]; [left; split; [reflexivity|now left]|].
  rewrite bind_ret. cbv zeta. rewrite packed_fld by auto. unfold fld.
  set (cur := N.land _ _). destruct (N.ltb_spec cur v) as [L|L].
  - destruct (N.eqb_spec cur 0) as [Z|Z].
    + unfold usub. destruct (N.leb_spec 1 (r_zeros r)) as [Q|Q].
      * right. rewrite bind_ret. split; [eauto|]. intros [B|(_ & _ & _ & B)]; lia.
      * destruct (overflow_checks e) eqn:Ck.
        -- left. split; [reflexivity|]. right. repeat split; auto; lia.
        -- right. rewrite bind_ret. split; [eauto|]. intros [B|(B & _)]; [lia|discriminate].
    + right. split; [eauto|]. intros [B|(_ & B & _)]; [lia|contradiction].
  - right. split; [eauto|]. intros [B|(_ & B & C & _)]; lia.
Qed.

(** The effect on the reg_at registers. *)
Lemma set_greater_packed : forall e sz r i v, reg_size sz -> words_ok r -> v < 2 ^ sz ->
  let took := (reg_at sz (r_buf r) i =? 0) && (0 <? v) in
  (set_greater e sz r i v = Panic /\
   (slots sz (r_buf r) <= i \/ i < slots sz (r_buf r) /\ overflow_checks e = true /\ took = true /\ r_zeros r = 0)) \/
  (i < slots sz (r_buf r) /\
   exists r', set_greater e sz r i v = Ret r' /\ words_ok r' /\ length (r_buf r') = length (r_buf r) /\
     r_count r' = r_count r /\
     (overflow_checks e = true -> r_zeros r' + (if took then 1 else 0) = r_zeros r) /\
     forall j, reg_at sz (r_buf r') j = if j =? i then N.max (reg_at sz (r_buf r) i) v else reg_at sz (r_buf r) j).
Proof.
  intros e sz r i v Hs W Hv took.
  destruct (set_greater_panics e sz r i v Hs) as [[E B]|[[r' E] B]].
  { left. split; [exact E|]. destruct (N.le_gt_cases (slots sz (r_buf r)) i) as [L|L]; [now left|].
    destruct B as [B|(B1 & B2 & B3 & B4)]; [now left|]. right. repeat split; auto.
    unfold took. rewrite B2. rewrite (proj2 (N.ltb_lt _ _) B3). reflexivity. }
  assert (Hi : i < slots sz (r_buf r)) by (apply N.nle_gt; tauto).
  right. split; [exact Hi|]. exists r'. split; [exact E|].
  set (r1 := whole_regs sz (N.max 1 (r_zeros r)) r).
  destruct (set_greater_spec e sz r1 i v (reg_at sz (r_buf r) i) Hs (whole_wf sz _ r Hs W) Hi Hv
              (whole_nth sz _ r i Hs W Hi)) as (r1' & E1 & W1 & C1 & I1 & _ & _ & Z1).
  { intros _. cbn [r_zeros r1 whole_regs]. lia. }
  assert (S : r_buf r' = r_buf r1' /\ r_count r' = r_count r /\
              (overflow_checks e = true -> r_zeros r' + (if took then 1 else 0) = r_zeros r)).
  { unfold took. rewrite packed_fld by auto. unfold fld. revert E E1. unfold set_greater. change (r_buf r1) with (r_buf r).
    destruct (index_cases sz r i Hs) as [[A _]|[_ ->]]; [lia|]. rewrite !bind_ret. cbv zeta.
    set (cur := N.land _ _). destruct (N.ltb_spec cur v) as [L|L].
    - replace (0 <? v) with true by (symmetry; apply N.ltb_lt; lia).
      destruct (N.eqb_spec cur 0) as [Z|Z]; cbn [andb].
      + unfold usub. change (r_zeros r1) with (N.max 1 (r_zeros r)).
        replace (1 <=? N.max 1 (r_zeros r)) with true by (symmetry; apply N.leb_le; lia). rewrite bind_ret.
        destruct (N.leb_spec 1 (r_zeros r)).
        * rewrite bind_ret. intros [= <-] [= <-]. cbn. repeat split. lia.
        * destruct (overflow_checks e); [discriminate|]. rewrite bind_ret. intros [= <-] [= <-]. cbn. repeat split. discriminate.
      + intros [= <-] [= <-]. cbn. repeat split. lia.
    - intros [= <-] [= <-]. cbn. repeat split. intros _. destruct (N.eqb_spec cur 0); cbn [andb]; [|lia].
      replace (0 <? v) with false by (symmetry; apply N.ltb_ge; lia). lia. }
  destruct S as (SB & SC & SZ).
  assert (LB : length (r_buf r') = length (r_buf r)).
  { rewrite SB. destruct W1 as [L1 _]. destruct (whole_wf sz (N.max 1 (r_zeros r)) r Hs W) as [L0 _].
    rewrite C1 in L1. apply Nat2N.inj. change (r_buf (whole_regs sz (N.max 1 (r_zeros r)) r)) with (r_buf r) in L0.
    fold r1 in L0. rewrite L1, L0. reflexivity. }
  assert (W' : words_ok r') by (unfold words_ok; rewrite SB; apply W1).
  repeat split; auto. intros j.
  assert (SL : slots sz (r_buf r') = slots sz (r_buf r)) by (unfold slots; now rewrite LB).
  destruct (N.lt_ge_cases j (slots sz (r_buf r))) as [Lj|Lj].
  - assert (X : reg_iter sz r1' = reg_iter sz (whole_regs sz 0 r')).
    { unfold reg_iter. cbn [r_buf r_count whole_regs]. rewrite SB. f_equal. rewrite C1. cbn [r_count r1 whole_regs].
      now rewrite <- SL, SB. }
    pose proof (whole_nth sz 0 r' j Hs W' ltac:(now rewrite SL)) as Q. rewrite <- X, I1 in Q.
    unfold update in Q. destruct (N.eqb_spec j i) as [->|Nj].
    + rewrite update_nat_same in Q; [now injection Q as <-|]. apply nth_error_Some. unfold r1. rewrite whole_nth by auto. discriminate.
    + rewrite update_nat_other in Q by lia. unfold r1 in Q. rewrite whole_nth in Q by auto. now injection Q as <-.
  - rewrite !(packed_over sz _ j) by (auto; lia). destruct (N.eqb_spec j i); lia.
Qed.

(** ** Raising the registers one by one *)
Fixpoint fresh (sz : N) (buf : list N) (i : N) (l : list N) : N :=
  match l with
  | [] => 0
  | v :: l' => (if (reg_at sz buf i =? 0) && (0 <? v) then 1 else 0) + fresh sz buf (i + 1) l'
  end.

Lemma fresh_ext : forall sz b b' l i, (forall j, i <= j -> reg_at sz b j = reg_at sz b' j) ->
  fresh sz b i l = fresh sz b' i l.
Proof.
  induction l as [|v l IH]; intros i H; cbn [fresh]; [reflexivity|].
  rewrite (H i) by lia. f_equal. apply IH. intros. apply H. lia.
Qed.

Lemma raise_all : forall e sz l i r, reg_size sz -> words_ok r -> Forall (fun v => v < 2 ^ sz) l ->
  i <= slots sz (r_buf r) ->
  let n := i + N.of_nat (length l) in
  let loop := for_each_enum i l (fun r i val => set_greater e sz r i val) r in
  (loop = Panic /\
   (slots sz (r_buf r) < n \/ overflow_checks e = true /\ r_zeros r < fresh sz (r_buf r) i l)) \/
  (n <= slots sz (r_buf r) /\ (overflow_checks e = true -> fresh sz (r_buf r) i l <= r_zeros r) /\
   exists r', loop = Ret r' /\ length (r_buf r') = length (r_buf r) /\ r_count r' = r_count r /\
     (overflow_checks e = true -> r_zeros r' + fresh sz (r_buf r) i l = r_zeros r) /\
     forall j, reg_at sz (r_buf r') j =
       if (i <=? j) && (j <? n) then N.max (reg_at sz (r_buf r) j) (nth (N.to_nat (j - i)) l 0)
       else reg_at sz (r_buf r) j).
Proof.
  intros e sz l. induction l as [|v l IH]; intros i r Hs W F Hi; cbn [for_each_enum fresh length].
  { cbv zeta. right. split; [simpl; lia|]. split; [lia|]. exists r. repeat split; auto; try lia.
    intros j. destruct (N.leb_spec i j); destruct (N.ltb_spec j (i + N.of_nat 0)); simpl; auto; lia. }
  inv F. cbv zeta. set (took := (reg_at sz (r_buf r) i =? 0) && (0 <? v)).
  destruct (set_greater_packed e sz r i v Hs W H1) as [[E B]|(B & r1 & E & W1 & L1 & C1 & Z1 & P1)]; rewrite E; cbn [bind].
  { left. split; [reflexivity|]. destruct B as [B|(_ & Ck & T & Z)]; [left; lia|].
    right. split; [exact Ck|]. fold took in T. rewrite T, Z. lia. }
  fold took in Z1.
  assert (SL : slots sz (r_buf r1) = slots sz (r_buf r)) by (unfold slots; now rewrite L1).
  assert (FE : fresh sz (r_buf r1) (i + 1) l = fresh sz (r_buf r) (i + 1) l).
  { apply fresh_ext. intros j Hj. rewrite P1. destruct (N.eqb_spec j i); [lia|reflexivity]. }
  destruct (IH (i + 1) r1 Hs W1 H2 ltac:(lia)) as [[E' B']|(B' & F' & r' & E' & L' & C' & Z' & P')]; rewrite E'; rewrite FE, SL in *.
  - left. split; [reflexivity|]. destruct B' as [B'|[Ck B']]; [left; lia|right; split; [exact Ck|]].
    specialize (Z1 Ck). destruct took; lia.
  - right. split; [lia|]. split; [intros Ck; specialize (Z1 Ck); specialize (F' Ck); destruct took; lia|].
    exists r'. split; [reflexivity|]. split; [congruence|]. split; [congruence|].
    split; [intros Ck; specialize (Z1 Ck); specialize (Z' Ck); destruct took; lia|].
    intros j. rewrite P'. destruct (N.eqb_spec j i) as [->|Nj].
    + replace (i + 1 <=? i) with false by (symmetry; apply N.leb_gt; lia).
      replace (i <=? i) with true by (symmetry; apply N.leb_le; lia).
      replace (i <? i + N.of_nat (S (length l))) with true by (symmetry; apply N.ltb_lt; lia). cbn [andb].
      rewrite P1, N.eqb_refl, N.sub_diag. reflexivity.
    + rewrite P1. replace (j =? i) with false by (symmetry; now apply N.eqb_neq).
      replace (i + 1 + N.of_nat (length l)) with (i + N.of_nat (S (length l))) by lia.
      destruct (N.leb_spec (i + 1) j) as [A|A]; destruct (N.leb_spec i j) as [A'|A']; try lia; [|reflexivity].
      destruct (j <? i + N.of_nat (S (length l))); cbn [andb]; [|reflexivity].
      replace (N.to_nat (j - i)) with (S (N.to_nat (j - (i + 1)))) by lia. reflexivity.
Qed.

(** ** What [iter] lists *)
Definition numbered (n : N) : list N := map N.of_nat (seq 0 (N.to_nat n)).

Lemma firstn_seq : forall n k a, firstn k (seq a n) = seq a (Nat.min k n).
Proof. induction n; intros [|k] a; simpl; auto. now rewrite IHn. Qed.

Lemma iter_packed : forall sz r, reg_size sz -> words_ok r ->
  reg_iter sz r = map (reg_at sz (r_buf r)) (numbered (listed sz (r_count r) (r_buf r))).
Proof.
  intros sz r Hs W.
  assert (A : reg_iter sz (whole_regs sz 0 r) = map (reg_at sz (r_buf r)) (numbered (slots sz (r_buf r)))).
  { pose proof (reg_iter_length sz _ Hs (whole_wf sz 0 r Hs W)) as L. cbn [r_count whole_regs] in L.
    apply nth_error_ext. intros i.
    destruct (Nat.lt_ge_cases i (N.to_nat (slots sz (r_buf r)))) as [Hi|Hi].
    - rewrite <- (Nat2N.id i), whole_nth by (auto; lia). unfold numbered. rewrite map_map.
      rewrite nth_error_map. rewrite (nth_error_nth' _ 0%nat) by (rewrite seq_length; lia).
      rewrite seq_nth by lia. simpl. now rewrite Nat2N.id.
    - rewrite !(proj2 (nth_error_None _ _)); auto; [|lia]. unfold numbered. rewrite !map_length, seq_length. lia. }
  replace (reg_iter sz r) with (firstn (N.to_nat (r_count r)) (reg_iter sz (whole_regs sz 0 r))).
  - rewrite A. unfold numbered. rewrite !firstn_map. do 2 f_equal. unfold listed.
    rewrite firstn_seq. f_equal. lia.
  - unfold reg_iter. cbn [r_buf r_count whole_regs]. rewrite (firstn_all2 (n := N.to_nat (slots sz (r_buf r)))); [reflexivity|].
    rewrite (flat_map_length_c _ _ _ (cpw sz)) by apply word_registers_length. rewrite slots_cpw. unfold cpw. nia.
Qed.

Lemma fresh_newly : forall sz b o k a,
  fresh sz b (N.of_nat a) (map (reg_at sz o) (map N.of_nat (seq a k))) =
  N.of_nat (length (filter (fun i => (reg_at sz b (N.of_nat i) =? 0) && (0 <? reg_at sz o (N.of_nat i))) (seq a k))).
Proof.
  induction k as [|k IH]; intros a; cbn [seq map fresh filter]; [reflexivity|].
  replace (N.of_nat a + 1) with (N.of_nat (S a)) by lia. rewrite IH.
  destruct ((reg_at sz b (N.of_nat a) =? 0) && (0 <? reg_at sz o (N.of_nat a))); cbn [length]; lia.
Qed.

Lemma merge_packed : forall e sz r o, reg_size sz -> words_ok r -> words_ok o ->
  let n := listed sz (r_count o) (r_buf o) in
  let bad := slots sz (r_buf r) < n \/
    overflow_checks e = true /\ r_zeros r < newly sz (r_buf r) (r_buf o) n in
  let loop := for_each_enum 0 (reg_iter sz o) (fun r i val => set_greater e sz r i val) r in
  (loop = Panic /\ bad) \/
  (~ bad /\ exists r', loop = Ret r' /\ length (r_buf r') = length (r_buf r) /\ r_count r' = r_count r /\
     (overflow_checks e = true -> r_zeros r' + newly sz (r_buf r) (r_buf o) n = r_zeros r) /\
     forall j, reg_at sz (r_buf r') j =
       if j <? n then N.max (reg_at sz (r_buf r) j) (reg_at sz (r_buf o) j) else reg_at sz (r_buf r) j).
Proof.
  intros e sz r o Hs W Wo n bad loop. subst loop. rewrite iter_packed by auto. fold n.
  assert (FN : fresh sz (r_buf r) 0 (map (reg_at sz (r_buf o)) (numbered n)) = newly sz (r_buf r) (r_buf o) n).
  { unfold numbered. apply (fresh_newly sz (r_buf r) (r_buf o) (N.to_nat n) 0%nat). }
  assert (LN : 0 + N.of_nat (length (map (reg_at sz (r_buf o)) (numbered n))) = n).
  { unfold numbered. rewrite !map_length, seq_length. lia. }
  destruct (raise_all e sz (map (reg_at sz (r_buf o)) (numbered n)) 0 r Hs W) as [[E B]|(B & F & r' & E & L & C & Z & P)].
  - apply Forall_forall. intros v Hv. apply in_map_iff in Hv. destruct Hv as (j & <- & _). apply packed_lt.
  - lia.
  - left. rewrite FN, LN in B. split; [exact E|exact B].
  - right. rewrite FN in *. rewrite LN in *. split.
    + intros [Q|[Q1 Q2]]; [lia|]. specialize (F Q1). lia.
    + exists r'. repeat split; auto. intros j. rewrite P.
      replace (0 <=? j) with true by (symmetry; apply N.leb_le; lia). cbn [andb].
      destruct (N.ltb_spec j n) as [Q|Q]; [|reflexivity]. f_equal.
      rewrite N.sub_0_r. unfold numbered. rewrite map_map. apply nth_error_nth.
      rewrite nth_error_map, (nth_error_nth' _ 0%nat) by (rewrite seq_length; lia).
      rewrite seq_nth by lia. simpl. now rewrite N2Nat.id.
Qed.

(** ** Splitting a hash *)
Lemma split_hash : forall (B : Type) e w p h (k : N -> N -> M B), w = 32 \/ w = 64 -> p < 256 ->
  let ck := overflow_checks e in
  let bad := ck = true /\ (p = 0 \/ w <= p) in
  let m := let* sh := usub ck 8 w p in
           let* i := ushr ck w h sh in
           let* h1 := ushl ck w h p in
           let* pm1 := usub ck 8 p 1 in
           let* one := ushl ck w 1 pm1 in
           let* zeros := uadd ck 32 1 (leading_zeros w (N.lor h1 one)) in
           k i zeros in
  (bad /\ m = Panic) \/ (~ bad /\ exists z, 1 <= z /\ m = k (slot_of w p h) z).
Proof.
  intros B e w p h k Hw Hp ck bad m. subst bad m.
  assert (Up : forall x, uadd ck 32 1 (leading_zeros w x) = Ret (1 + leading_zeros w x)).
  { intros x. apply uadd_ok. unfold leading_zeros. change (2 ^ 32) with 4294967296. lia. }
  destruct ck eqn:Ck.
  - destruct (N.lt_ge_cases w p) as [L|L].
    { left. split; [lia|]. unfold usub. replace (p <=? w) with false by (symmetry; apply N.leb_gt; lia). reflexivity. }
    rewrite usub_ok by lia. rewrite bind_ret.
    destruct (N.eq_dec p 0) as [->|N0].
    { left. split; [lia|]. unfold ushr. replace (w - 0 <? w) with false by (symmetry; apply N.ltb_ge; lia). reflexivity. }
    rewrite ushr_ok by lia. rewrite bind_ret.
    destruct (N.eq_dec p w) as [->|Nw].
    { left. split; [lia|]. unfold ushl. replace (w <? w) with false by (symmetry; apply N.ltb_ge; lia). reflexivity. }
    right. split; [lia|]. rewrite ushl_ok by lia. rewrite bind_ret, usub_ok by lia. rewrite bind_ret, ushl_ok by lia.
    rewrite bind_ret, Up, bind_ret. eexists. split; [|f_equal].
    2:{ unfold slot_of. do 2 f_equal. destruct Hw as [-> | ->].
        - apply (N.mod_unique _ _ 7); lia.
        - apply (N.mod_unique _ _ 3); lia. }
    lia.
  - right. split; [intros [Q _]; discriminate|].
    assert (S : exists sh, usub false 8 w p = Ret sh /\ sh mod w = (256 - p) mod w).
    { unfold usub. destruct (N.leb_spec p w) as [L|L]; eexists; (split; [reflexivity|]); destruct Hw as [-> | ->].
      - replace (256 - p) with (32 - p + 7 * 32) by lia. now rewrite N.mod_add.
      - replace (256 - p) with (64 - p + 3 * 64) by lia. now rewrite N.mod_add.
      - change (2 ^ 8) with 256. replace (32 + 256 - p) with (256 - p + 1 * 32) by lia. now rewrite N.mod_add.
      - change (2 ^ 8) with 256. replace (64 + 256 - p) with (256 - p + 1 * 64) by lia. now rewrite N.mod_add. }
    destruct S as (sh & -> & Es). rewrite bind_ret.
    assert (R : ushr false w h sh = Ret (slot_of w p h)).
    { unfold ushr, slot_of. rewrite <- Es. destruct (N.ltb_spec sh w) as [L|L].
      - now rewrite N.mod_small, N.shiftr_div_pow2.
      - now rewrite N.shiftr_div_pow2. }
    rewrite R, bind_ret.
    assert (SH : forall x y, exists v, ushl false w x y = Ret v) by (intros x y; unfold ushl; destruct (y <? w); eauto).
    destruct (SH h p) as (h1 & ->). rewrite bind_ret.
    assert (US : exists v, usub false 8 p 1 = Ret v) by (unfold usub; destruct (1 <=? p); eauto).
    destruct US as (pm1 & ->). rewrite bind_ret.
    destruct (SH 1 pm1) as (one & ->). rewrite bind_ret, Up, bind_ret. eexists. split; [|reflexivity]. lia.
Qed.

(** ** Inserting into stored registers *)
Lemma pf_insert_stored : forall (V : Type) e (s : pf V) (x : V), 32 <= usize_bits e -> pf_precision s < 256 ->
  let p := pf_precision s in
  let b := r_buf (pf_registers s) in
  let i := slot_of 32 p (pf_builder s x mod 2 ^ 32) in
  let bad := overflow_checks e = true /\ (p = 0 \/ 32 <= p) \/ slots 5 b <= i \/
    overflow_checks e = true /\ reg_at 5 b i = 0 /\ r_zeros (pf_registers s) = 0 in
  (pf_insert e s x = Panic /\ bad) \/ ((exists s', pf_insert e s x = Ret s') /\ ~ bad).
Proof.
  intros V e s x Hu Hp p b i bad. unfold pf_insert, pf_insert_impl.
  assert (Eh : cast 32 (cast 64 (pf_builder s x)) = pf_builder s x mod 2 ^ 32).
  { unfold cast. change (2 ^ 64) with (2 ^ 32 * 2 ^ 32). rewrite N.mod_mul_r by discriminate.
    rewrite N.mul_comm, N.mod_add by discriminate. apply N.mod_mod. discriminate. }
  rewrite Eh. set (h := pf_builder s x mod 2 ^ 32) in *.
  assert (Hh : h < 2 ^ 32) by (apply N.mod_lt; discriminate). clearbody h.
  unfold pf_insert_hash. cbv zeta. fold p.
  destruct (split_hash _ e 32 p h (fun i z => let* r := set_greater e SIZE_PF (pf_registers s) (cast (usize_bits e) i) z in
     Ret (pf_set_registers s r)) ltac:(now left) Hp) as [[B ->]|[B (z & Hz & ->)]].
  { left. split; [reflexivity|]. left. exact B. }
  fold i. assert (Ci : cast (usize_bits e) i = i).
  { unfold cast. apply N.mod_small. apply N.le_lt_trans with h.
    - unfold i, slot_of. apply N.div_le_upper_bound; [apply pow2_nz|].
      assert (1 <= 2 ^ ((256 - p) mod 32)) by (apply N.lt_pred_le, N.neq_0_lt_0, pow2_nz). nia.
    - eapply N.lt_le_trans; [exact Hh|]. now apply pow2_le. }
  rewrite Ci. change SIZE_PF with 5.
  destruct (set_greater_panics e 5 (pf_registers s) i z ltac:(now left)) as [[-> Q]|[[r' ->] Q]].
  - left. split; [reflexivity|]. unfold bad. fold b in Q. tauto.
  - right. rewrite bind_ret. split; [eauto|]. unfold bad. fold b in Q. intros [A|[A|(A1 & A2 & A3)]]; apply Q; auto.
    + exfalso. now apply B.
    + right. repeat split; auto. lia.
Qed.

Lemma plus_insert_stored : forall (V : Type) e ord (s : plus V) (x : V) r, hp_precision s < 256 ->
  hp_registers s = Some r ->
  let p := hp_precision s in
  let i := slot_of 64 p (hp_builder s x mod 2 ^ 64) mod 2 ^ usize_bits e in
  let bad := overflow_checks e = true /\ (p = 0 \/ 64 <= p) \/ slots 6 (r_buf r) <= i \/
    overflow_checks e = true /\ reg_at 6 (r_buf r) i = 0 /\ r_zeros r = 0 in
  (hp_insert e ord s x = Panic /\ bad) \/ ((exists s', hp_insert e ord s x = Ret s') /\ ~ bad).
Proof.
  intros V e ord s x r Hp Er p i bad. unfold hp_insert, hp_insert_impl, hp_insert_hash. rewrite Er. cbv zeta. fold p.
  destruct (split_hash _ e 64 p (cast 64 (hp_builder s x)) (fun i z => let* r' := set_greater e SIZE_PLUS r (cast (usize_bits e) i) z in
     Ret (set_registers s (Some r'))) ltac:(now right) Hp) as [[B ->]|[B (z & Hz & ->)]].
  { left. split; [reflexivity|]. left. exact B. }
  change SIZE_PLUS with 6. change (cast (usize_bits e) (slot_of 64 p (cast 64 (hp_builder s x)))) with i.
  destruct (set_greater_panics e 6 r i z ltac:(now right)) as [[-> Q]|[[r' ->] Q]].
  - left. split; [reflexivity|]. unfold bad. tauto.
  - right. rewrite bind_ret. split; [eauto|]. unfold bad. intros [A|[A|(A1 & A2 & A3)]]; apply Q; auto.
    + exfalso. now apply B.
    + right. repeat split; auto. lia.
Qed.

(** ** Decoding with overflow checks *)
Lemma decode_checked : forall e p c, 32 <= usize_bits e -> overflow_checks e = true -> p < 256 -> c < 2 ^ 32 ->
  ((p = 0 \/ 25 < p) /\ decode_hash e p c = Panic) \/
  (1 <= p <= 25 /\ exists z, decode_hash e p c = Ret (z, reg_of p c) /\ z < 128 /\
     (z = stored_rank p c \/ 1 <= z < 64 /\ stored_rank p c = 1)).
Proof.
  intros e p c Hu Ck Hp Hc. unfold decode_hash, code_index, PRIME_PRECISION, reg_of, stored_rank. rewrite land1.
  rewrite <- N.bit0_odd, N.bit0_eqb, Ck.
  destruct (N.lt_ge_cases 25 p) as [L|L].
  { left. split; [lia|]. destruct (c mod 2 =? 1).
    - rewrite extract_ok by (auto; lia). rewrite bind_ret. unfold usub at 1.
      replace (p <=? 25) with false by (symmetry; apply N.leb_gt; lia). reflexivity.
    - unfold uadd at 1. change (2 ^ 8) with 256. destruct (N.ltb_spec (32 - 25 + p) 256); [|reflexivity].
      rewrite bind_ret, usub_ok by lia. rewrite bind_ret. unfold ushl.
      replace (32 - 25 + p - 1 <? 32) with false by (symmetry; apply N.ltb_ge; lia). reflexivity. }
  destruct (N.eq_dec p 0) as [->|N0].
  { left. split; [lia|]. destruct (c mod 2 =? 1).
    - rewrite extract_ok by (auto; lia). rewrite bind_ret, usub_ok by lia. rewrite bind_ret.
      change (7 - 1) with 6. change (2 ^ 1) with 2. change (2 ^ 6) with 64.
      assert (Hz : (c / 2) mod 64 < 64) by (apply N.mod_lt; discriminate).
      rewrite uadd_ok by (change (2 ^ 32) with 4294967296; nlia). rewrite bind_ret.
      unfold extract. rewrite Ck. reflexivity.
    - rewrite (uadd_ok _ 8) by reflexivity. rewrite bind_ret, usub_ok by lia. rewrite bind_ret, ushl_ok by reflexivity.
      rewrite bind_ret. rewrite uadd_ok by (unfold leading_zeros; change (2 ^ 32) with 4294967296; lia). rewrite bind_ret.
      unfold extract. rewrite Ck. reflexivity. }
  right. split; [lia|].
  assert (Hcast : forall x, x < 2 ^ p -> cast (usize_bits e) x = x).
  { intros x Hx. unfold cast. apply N.mod_small. eapply N.lt_le_trans; [exact Hx|]. apply pow2_le. lia. }
  destruct (N.eqb_spec (c mod 2) 1) as [E|E].
  - rewrite extract_ok by (auto; lia). rewrite bind_ret. rewrite usub_ok by lia. rewrite bind_ret.
    change (7 - 1) with 6. change (2 ^ 1) with 2. change (2 ^ 6) with 64.
    assert (Hz : (c / 2) mod 64 < 64) by (apply N.mod_lt; discriminate).
    rewrite uadd_ok by (change (2 ^ 32) with 4294967296; nlia). rewrite bind_ret.
    rewrite usub_ok by lia. rewrite bind_ret. rewrite extract_ok by (auto; lia). rewrite !bind_ret.
    assert (Hi : c / 2 ^ (32 - p) < 2 ^ p).
    { replace p with (32 - (32 - p)) at 2 by lia. apply div_lt_pow2; [lia|exact Hc]. }
    replace (32 - (32 - p)) with p by lia. rewrite (N.mod_small _ _ Hi).
    rewrite Hcast by auto. eexists. split; [reflexivity|].
    set (y := (c / 2) mod 64) in *. clearbody y. split; [lia|]. now left.
  - rewrite (uadd_ok _ 8) by (change (2 ^ 8) with 256; lia). rewrite bind_ret.
    rewrite usub_ok by lia. rewrite bind_ret. rewrite ushl_ok by lia. rewrite bind_ret.
    rewrite uadd_ok by (unfold leading_zeros; change (2 ^ 32) with 4294967296; lia). rewrite bind_ret.
    rewrite usub_ok by lia. rewrite bind_ret.
    rewrite (uadd_ok _ 8) by (change (2 ^ 8) with 256; lia). rewrite bind_ret.
    rewrite extract_ok by (auto; lia). rewrite !bind_ret.
    replace (25 + 1 - (25 - p + 1)) with p by lia. replace (25 - p + 1) with (26 - p) by lia.
    assert (Hi : (c / 2 ^ (26 - p)) mod 2 ^ p < 2 ^ p) by apply N.mod_lt, pow2_nz.
    rewrite Hcast by auto. eexists. split; [reflexivity|].
    unfold leading_zeros. split; [lia|]. right. lia.
Qed.

(** [set_greater] does not look at the number of registers. *)
Lemma set_greater_count : forall e sz b c c' z i v,
  set_greater e sz {| r_buf := b; r_count := c; r_zeros := z |} i v =
  let* r' := set_greater e sz {| r_buf := b; r_count := c'; r_zeros := z |} i v in
  Ret {| r_buf := r_buf r'; r_count := c; r_zeros := r_zeros r' |}.
Proof.
  intros. unfold set_greater. cbn [r_buf r_zeros r_count].
  destruct (index b (i / count_per_word sz)); cbn [bind]; auto.
  destruct (_ <? v); cbn [bind r_buf r_zeros]; auto. destruct (_ =? 0); cbn [bind r_buf r_zeros]; auto.
  destruct (usub _ _ z 1); reflexivity.
Qed.

Lemma set_greater_wide : forall e r i v, overflow_checks e = true -> words_ok r -> v < 128 ->
  let took := (reg_at 6 (r_buf r) i =? 0) && (0 <? v) in
  (set_greater e 6 r i v = Panic /\ (slots 6 (r_buf r) <= i \/ i < slots 6 (r_buf r) /\ took = true /\ r_zeros r = 0)) \/
  (i < slots 6 (r_buf r) /\
   exists r', set_greater e 6 r i v = Ret r' /\ words_ok r' /\ length (r_buf r') = length (r_buf r) /\
     r_count r' = r_count r /\ r_zeros r' + (if took then 1 else 0) = r_zeros r /\
     (v <= reg_at 6 (r_buf r) i /\ r' = r \/
      reg_at 6 (r_buf r) i < v /\ forall j, reg_at 6 (r_buf r') j =
        if j =? i then v mod 64
        else if (j =? i + 1) && negb (j mod 5 =? 0) then N.lor (reg_at 6 (r_buf r) j) (v / 64)
        else reg_at 6 (r_buf r) j)).
Proof.
  intros e r i v Ck W Hv took.
  destruct (set_greater_panics e 6 r i v ltac:(now right)) as [[E B]|[_ B]].
  { left. split; [exact E|]. destruct (N.le_gt_cases (slots 6 (r_buf r)) i) as [L|L]; [now left|].
    destruct B as [B|(B1 & B2 & B3 & B4)]; [now left|]. right. repeat split; auto.
    unfold took. rewrite B2. rewrite (proj2 (N.ltb_lt _ _) B3). reflexivity. }
  assert (Hi : i < slots 6 (r_buf r)) by (apply N.nle_gt; tauto).
  right. split; [exact Hi|].
  set (r1 := whole_regs 6 (r_zeros r) r).
  pose proof (whole_wf 6 (r_zeros r) r ltac:(now right) W) as WF. fold r1 in WF.
  assert (T : took = (field r1 i =? 0) && (0 <? v)) by (unfold took; rewrite packed_field; reflexivity).
  assert (SC : set_greater e 6 r i v = let* r' := set_greater e 6 r1 i v in
                 Ret {| r_buf := r_buf r'; r_count := r_count r; r_zeros := r_zeros r' |}).
  { unfold r1, whole_regs. destruct r as [rb rc rz]. cbn [r_buf r_count r_zeros]. apply set_greater_count. }
  destruct (set_greater_7 e r1 i v Ck WF Hi Hv) as [(A1 & A2 & A3 & _)|(r1' & E1 & W1 & C1 & Z1 & P1)].
  { exfalso. apply B. right. repeat split; auto. rewrite packed_field. exact A1. }
  rewrite E1, bind_ret in SC. rewrite SC. eexists. split; [reflexivity|]. cbn [r_buf r_count r_zeros].
  split; [apply W1|].
  split. { destruct W1 as [L1 _]. destruct WF as [L0 _]. rewrite C1 in L1. apply Nat2N.inj.
    change (r_buf r1) with (r_buf r) in L0. now rewrite L1, L0. }
  split; [reflexivity|]. rewrite <- T in Z1. change (r_zeros r1) with (r_zeros r) in Z1.
  split; [destruct took; lia|].
  destruct P1 as [[P1 ->]|[P1 P2]]; [left|right].
  - split; [rewrite packed_field; exact P1|]. destruct r; reflexivity.
  - split; [rewrite packed_field; exact P1|]. intros j. rewrite !packed_field. exact (P2 j).
Qed.

(** ** Absorbing codes into stored registers *)
Lemma absorbs_checked : forall e p start K before r, 32 <= usize_bits e -> overflow_checks e = true -> 1 <= p <= 25 ->
  Forall (fun x => x < 2 ^ 32) K -> words_ok r ->
  (forall i, (reg_at 6 (r_buf r) i =? 0) = zero_now start p i before \/ slots 6 (r_buf r) <= i) ->
  let bad := (exists c, In c K /\ slots 6 (r_buf r) <= reg_of p c) \/ r_zeros r < zeros_taken start p before K in
  (for_each K (absorb_code e p) r = Panic /\ bad) \/
  (~ bad /\ exists r', for_each K (absorb_code e p) r = Ret r' /\ words_ok r' /\
     length (r_buf r') = length (r_buf r) /\ r_count r' = r_count r /\
     r_zeros r' + zeros_taken start p before K = r_zeros r /\
     (forall i, (reg_at 6 (r_buf r') i =? 0) = zero_now start p i (rev K ++ before) \/ slots 6 (r_buf r) <= i)).
Proof.
  intros e p start K. induction K as [|c K IH]; intros before r Hu Ck Hp F W Z; cbn [for_each zeros_taken]; cbv zeta.
  { right. split; [intros [(c & [] & _)|Q]; lia|]. exists r. repeat split; auto. lia. }
  inv F. unfold absorb_code at 1 3. change SIZE_PLUS with 6.
  destruct (decode_checked e p c Hu Ck ltac:(lia) H1) as [[Q _]|(_ & z & E & Z2 & ZR)]; [lia|]. rewrite E, bind_ret.
  assert (SR : (0 <? z) = negb (stored_rank p c =? 0)).
  { destruct ZR as [->|[? ->]].
    - destruct (N.eqb_spec (stored_rank p c) 0) as [->|]; [reflexivity|]. apply N.ltb_lt. lia.
    - apply N.ltb_lt. lia. }
  destruct (set_greater_wide e r (reg_of p c) z Ck W Z2) as [[-> B]|(Hi & r' & -> & W' & L' & C' & D & N)].
  { left. split; [reflexivity|]. destruct B as [B|(B1 & B2 & B3)]; [left; exists c; split; [now left|exact B]|].
    right. rewrite SR in B2. apply andb_prop in B2. destruct B2 as [B2 B4]. rewrite B4. cbn [andb].
    destruct (Z (reg_of p c)) as [Q|Q]; [|lia]. rewrite <- Q, B2, B3.
    apply N.lt_le_trans with 1; [reflexivity|apply N.le_add_r]. }
  rewrite bind_ret.
  assert (SL : slots 6 (r_buf r') = slots 6 (r_buf r)) by (unfold slots; now rewrite L').
  assert (ZC : (reg_at 6 (r_buf r) (reg_of p c) =? 0) = zero_now start p (reg_of p c) before).
  { destruct (Z (reg_of p c)) as [Q|Q]; [exact Q|lia]. }
  rewrite SR, ZC, andb_comm in D.
  assert (Inv : forall i, (reg_at 6 (r_buf r') i =? 0) = zero_now start p i (c :: before) \/ slots 6 (r_buf r') <= i).
  { intros i. destruct (N.le_gt_cases (slots 6 (r_buf r')) i) as [|Li]; [now right|]. left.
    assert (Zi : (reg_at 6 (r_buf r) i =? 0) = zero_now start p i before) by (destruct (Z i) as [Q|Q]; [exact Q|lia]).
    cbn [zero_now]. rewrite (N.eqb_sym (reg_of p c) i), (N.eqb_sym (reg_of p c + 1) i).
    pose proof (packed_lt 6 (r_buf r) (reg_of p c)) as FL. change (2 ^ 6) with 64 in FL.
    destruct N as [[N ->]|[N N2]].
    - destruct (N.eqb_spec (stored_rank p c) 0) as [S0|S0]; [exact Zi|].
      destruct (N.eqb_spec i (reg_of p c)) as [->|Ni].
      + replace (stored_rank p c =? 64) with false by (symmetry; apply N.eqb_neq; destruct ZR; lia).
        apply N.eqb_neq. lia.
      + replace (64 <=? stored_rank p c) with false by (symmetry; apply N.leb_gt; destruct ZR; lia). simpl. auto.
    - rewrite N2. replace (stored_rank p c =? 0) with false by (symmetry; apply N.eqb_neq; destruct ZR; lia).
      destruct (N.eqb_spec i (reg_of p c)) as [->|Ni].
      + assert (z mod 64 = if z <? 64 then z else z - 64).
        { destruct (N.ltb_spec z 64) as [L|L]; [now apply N.mod_small|].
          symmetry. apply (N.mod_unique z 64 1); lia. }
        rewrite H. destruct (N.ltb_spec z 64) as [L|L].
        * replace (stored_rank p c =? 64) with false by (symmetry; apply N.eqb_neq; destruct ZR; lia). apply N.eqb_neq. lia.
        * assert (stored_rank p c = z) as -> by (destruct ZR; lia).
          destruct (N.eqb_spec z 64) as [->|Nz]; [reflexivity|]. apply N.eqb_neq. lia.
      + destruct (N.eqb_spec i (reg_of p c + 1)) as [E1|E1]; [|rewrite andb_false_r; simpl; auto].
        rewrite andb_true_r. simpl. destruct (i mod 5 =? 0); simpl; [rewrite andb_false_r; auto|]. rewrite andb_true_r.
        assert (z / 64 = if z <? 64 then 0 else 1).
        { destruct (N.ltb_spec z 64) as [L|L]; [now apply N.div_small|]. symmetry. apply (N.div_unique z 64 1 (z - 64)); lia. }
        rewrite H. destruct (N.ltb_spec z 64) as [L|L].
        * replace (64 <=? stored_rank p c) with false by (symmetry; apply N.leb_gt; destruct ZR; lia). rewrite N.lor_0_r. auto.
        * replace (64 <=? stored_rank p c) with true by (symmetry; apply N.leb_le; destruct ZR; lia).
          apply N.eqb_neq. intros Q. apply N.lor_eq_0_iff in Q. lia. }
  destruct (IH (c :: before) r' Hu Ck Hp H2 W' Inv) as [[-> B]|(B & r'' & -> & W'' & L'' & C'' & Z'' & I'')]; rewrite SL in *.
  - left. split; [reflexivity|]. destruct B as [(c' & A & B)|B]; [left; exists c'; split; [now right|exact B]|].
    right. destruct (negb _ && _); lia.
  - right. split.
    + intros [(c' & [<-|A] & Q)|Q]; [lia|apply B; left; eauto|apply B; right; destruct (negb _ && _); lia].
    + exists r''. split; [reflexivity|]. split; [exact W''|]. split; [congruence|]. split; [congruence|].
      split; [destruct (negb _ && _); lia|]. intros i. cbn [rev]. rewrite <- app_assoc. exact (I'' i).
Qed.

(** At a precision without a shift every code panics. *)
Lemma absorbs_stuck : forall e p K r, 32 <= usize_bits e -> overflow_checks e = true -> p < 256 -> p = 0 \/ 25 < p ->
  Forall (fun x => x < 2 ^ 32) K -> K <> [] -> for_each K (absorb_code e p) r = Panic.
Proof.
  intros e p [|c K] r Hu Ck Hp Hb F NK; [congruence|]. inv F. cbn [for_each]. unfold absorb_code.
  destruct (decode_checked e p c Hu Ck Hp H1) as [[_ ->]|[Q _]]; [reflexivity|lia].
Qed.
