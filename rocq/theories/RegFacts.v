(** * Packed registers behave as a list of values *)
From Coq Require Import NArith ZArith List Bool Lia.
From Verif Require Import ModelRust ModelEnv ModelRegisters Spec BitFacts.
Import ListNotations.
Local Open Scope N_scope.

(** The two register sizes of the crate. *)
Definition reg_size (sz : N) : Prop := sz = 5 \/ sz = 6.

(** A register file: as many words as needed, each a u32, with room for [count]. *)
Definition wf_regs (sz : N) (r : registers) : Prop :=
  N.of_nat (length (r_buf r)) = (r_count r + count_per_word sz - 1) / count_per_word sz /\
  Forall (fun w => w < 2 ^ 32) (r_buf r).

(** The bits of a word above its registers. *)
Definition padding (sz w : N) : N := w / 2 ^ (sz * count_per_word sz).

Definition cpw (sz : N) : nat := N.to_nat (count_per_word sz).

Lemma reg_size_facts : forall sz, reg_size sz ->
  1 <= count_per_word sz /\ sz * count_per_word sz = 30 /\ 1 <= sz /\ mask sz = 2 ^ sz - 1.
Proof. intros sz [->| ->]; repeat split; reflexivity || (compute; congruence). Qed.

(** Field [i] of word [w]. *)
Definition fld (sz w i : N) : N := N.land (N.shiftr w (i * sz)) (mask sz).

Lemma mask_bits : forall sz m, reg_size sz -> N.testbit (mask sz) m = (m <? sz).
Proof.
  intros. destruct (reg_size_facts sz H) as (_ & _ & _ & ->).
  replace (2 ^ sz - 1) with (N.ones sz) by (rewrite N.ones_equiv; lia).
  destruct (N.ltb_spec m sz).
  - now apply N.ones_spec_low.
  - now apply N.ones_spec_high.
Qed.

Lemma fld_bits : forall sz w i m, reg_size sz ->
  N.testbit (fld sz w i) m = N.testbit w (m + i * sz) && (m <? sz).
Proof. intros. unfold fld. now rewrite N.land_spec, N.shiftr_spec', mask_bits. Qed.

Lemma fld_lt : forall sz w i, reg_size sz -> fld sz w i < 2 ^ sz.
Proof.
  intros. unfold fld. destruct (reg_size_facts sz H) as (_ & _ & _ & ->).
  rewrite land_mask. now apply N.mod_lt.
Qed.

(** [w'] is [w] with field [i] replaced by [v], all other bits unchanged. *)
Definition replaced (sz w i v w' : N) : Prop :=
  forall m, N.testbit w' m =
    if (i * sz <=? m) && (m <? (i + 1) * sz) then N.testbit v (m - i * sz) else N.testbit w m.

Lemma replaced_fld_same : forall sz w i v w', reg_size sz -> v < 2 ^ sz ->
  replaced sz w i v w' -> fld sz w' i = v.
Proof.
  intros sz w i v w' Hs Hv R. apply N.bits_inj. intro m. rewrite fld_bits by auto.
  rewrite R. destruct (N.ltb_spec m sz).
  - rewrite andb_true_r.
    replace (i * sz <=? m + i * sz) with true by (symmetry; apply N.leb_le; lia).
    replace (m + i * sz <? (i + 1) * sz) with true by (symmetry; apply N.ltb_lt; nia).
    simpl. f_equal. lia.
  - rewrite andb_false_r. symmetry. now apply testbit_small with sz.
Qed.

Lemma replaced_fld_other : forall sz w i v w' j, reg_size sz -> i <> j ->
  replaced sz w i v w' -> fld sz w' j = fld sz w j.
Proof.
  intros sz w i v w' j Hs Hij R. apply N.bits_inj. intro m. rewrite !fld_bits by auto.
  destruct (N.ltb_spec m sz); [|now rewrite !andb_false_r].
  f_equal. rewrite R.
  destruct (N.leb_spec (i * sz) (m + j * sz)); [|reflexivity].
  destruct (N.ltb_spec (m + j * sz) ((i + 1) * sz)); [|reflexivity].
  exfalso. nia.
Qed.

Lemma replaced_lt : forall sz w i v w', reg_size sz -> i < count_per_word sz ->
  w < 2 ^ 32 -> replaced sz w i v w' -> w' < 2 ^ 32.
Proof.
  intros sz w i v w' Hs Hi Hw R. destruct (reg_size_facts sz Hs) as (_ & E & _ & _).
  destruct (N.eq_dec w' 0) as [->|Hn]; [reflexivity|].
  apply N.log2_lt_pow2; [lia|].
  destruct (N.lt_ge_cases (N.log2 w') 32) as [|Hge]; auto. exfalso.
  pose proof (N.bit_log2 w' Hn) as Hb. rewrite R in Hb.
  replace (N.log2 w' <? (i + 1) * sz) with false in Hb
    by (symmetry; apply N.ltb_ge; nia).
  rewrite andb_false_r in Hb.
  rewrite (testbit_small w 32) in Hb; auto. discriminate.
Qed.

Lemma replaced_padding : forall sz w i v w', reg_size sz -> i < count_per_word sz ->
  replaced sz w i v w' -> padding sz w' = padding sz w.
Proof.
  intros sz w i v w' Hs Hi R. destruct (reg_size_facts sz Hs) as (_ & E & _ & _).
  unfold padding. rewrite <- !N.shiftr_div_pow2. apply N.bits_inj. intro m.
  rewrite !N.shiftr_spec'. rewrite R.
  replace (m + sz * count_per_word sz <? (i + 1) * sz) with false
    by (symmetry; apply N.ltb_ge; nia).
  now rewrite andb_false_r.
Qed.

(** The two ways [set_greater] writes a field. *)
Lemma shifted_bits : forall sz i v m, reg_size sz -> i < count_per_word sz -> v < 2 ^ sz ->
  N.testbit (cast 32 (N.shiftl v (i * sz))) m
  = (i * sz <=? m) && (m <? (i + 1) * sz) && N.testbit v (m - i * sz).
Proof.
  intros sz i v m Hs Hi Hv. destruct (reg_size_facts sz Hs) as (_ & E & _ & _).
  unfold cast. destruct (N.lt_ge_cases m 32) as [Hm|Hm].
  - rewrite N.mod_pow2_bits_low by auto.
    destruct (N.leb_spec (i * sz) m).
    + rewrite N.shiftl_spec_high' by auto. simpl.
      destruct (N.ltb_spec m ((i + 1) * sz)); [reflexivity|].
      simpl. apply testbit_small with sz; auto. nia.
    + rewrite N.shiftl_spec_low by auto. reflexivity.
  - rewrite N.mod_pow2_bits_high by auto.
    replace (m <? (i + 1) * sz) with false by (symmetry; apply N.ltb_ge; nia).
    now rewrite andb_false_r.
Qed.

Lemma replaced_or : forall sz w i v, reg_size sz -> i < count_per_word sz -> v < 2 ^ sz ->
  fld sz w i = 0 -> replaced sz w i v (N.lor w (cast 32 (N.shiftl v (i * sz)))).
Proof.
  intros sz w i v Hs Hi Hv H0 m. rewrite N.lor_spec, shifted_bits by auto.
  destruct (N.leb_spec (i * sz) m) as [H1|]; simpl; [|apply orb_false_r].
  destruct (N.ltb_spec m ((i + 1) * sz)) as [H2|]; simpl; [|apply orb_false_r].
  assert (Hb : N.testbit (fld sz w i) (m - i * sz) = false) by (rewrite H0; apply N.bits_0).
  rewrite fld_bits in Hb by auto.
  replace (m - i * sz + i * sz) with m in Hb by lia.
  replace (m - i * sz <? sz) with true in Hb by (symmetry; apply N.ltb_lt; nia).
  rewrite andb_true_r in Hb. now rewrite Hb.
Qed.

Lemma replaced_mask : forall sz w i v, reg_size sz -> i < count_per_word sz -> v < 2 ^ sz ->
  w < 2 ^ 32 ->
  replaced sz w i v
    (N.lor (N.land w (unot 32 (cast 32 (N.shiftl (mask sz) (i * sz)))))
           (cast 32 (N.shiftl v (i * sz)))).
Proof.
  intros sz w i v Hs Hi Hv Hw m. rewrite N.lor_spec, N.land_spec, shifted_bits by auto.
  destruct (reg_size_facts sz Hs) as (_ & E & Hsz & Em).
  assert (Hm : mask sz < 2 ^ sz) by (rewrite Em; pose proof (pow2_pos sz); lia).
  unfold unot. destruct (N.lt_ge_cases m 32) as [H32|H32].
  - rewrite N.lnot_spec_low by auto. rewrite shifted_bits by auto. rewrite mask_bits by auto.
    destruct (N.leb_spec (i * sz) m) as [H1|]; simpl; [|now rewrite orb_false_r, andb_true_r].
    destruct (N.ltb_spec m ((i + 1) * sz)) as [H2|]; simpl;
      [|now rewrite orb_false_r, andb_true_r].
    replace (m - i * sz <? sz) with true by (symmetry; apply N.ltb_lt; nia).
    simpl. now rewrite andb_false_r.
  - rewrite (testbit_small w 32) by auto.
    replace (m <? (i + 1) * sz) with false by (symmetry; apply N.ltb_ge; nia).
    simpl. rewrite andb_false_r. reflexivity.
Qed.

(** ** Iteration *)
Lemma word_registers_length : forall sz w, length (word_registers sz w) = cpw sz.
Proof. intros. unfold word_registers. now rewrite map_length, range_length. Qed.

Lemma word_registers_nth : forall sz w i, (i < cpw sz)%nat ->
  nth_error (word_registers sz w) i = Some (fld sz w (N.of_nat i)).
Proof.
  intros. unfold word_registers. rewrite nth_error_map, range_nth by auto. reflexivity.
Qed.

Lemma word_registers_replaced : forall sz w i v w', reg_size sz -> i < count_per_word sz ->
  v < 2 ^ sz -> replaced sz w i v w' ->
  word_registers sz w' = update_nat (word_registers sz w) (N.to_nat i) v.
Proof.
  intros sz w i v w' Hs Hi Hv R. apply nth_error_ext. intro j.
  destruct (Nat.lt_ge_cases j (cpw sz)) as [Hj|Hj].
  - rewrite word_registers_nth by auto.
    destruct (Nat.eq_dec (N.to_nat i) j) as [<-|Hn].
    + rewrite update_nat_same by (rewrite word_registers_length; unfold cpw; lia).
      rewrite N2Nat.id. f_equal. now apply replaced_fld_same with w.
    + rewrite update_nat_other by auto. rewrite word_registers_nth by auto.
      f_equal. apply replaced_fld_other with (i := i) (v := v); auto. lia.
  - transitivity (@None N); [|symmetry]; apply nth_error_None.
    + rewrite word_registers_length. auto.
    + rewrite update_nat_length, word_registers_length. auto.
Qed.

Section FlatMap.
  Variables (A B : Type) (f : A -> list B) (c : nat).
  Hypothesis f_len : forall a, length (f a) = c.

  Lemma flat_map_length_c : forall l, length (flat_map f l) = (length l * c)%nat.
  Proof. induction l; simpl; auto. rewrite app_length, f_len, IHl. lia. Qed.

  Lemma flat_map_nth_c : forall l q r a, nth_error l q = Some a -> (r < c)%nat ->
    nth_error (flat_map f l) (q * c + r) = nth_error (f a) r.
  Proof.
    induction l as [|b l IH]; intros [|q] r a H Hr; simpl in H; try discriminate; simpl.
    - inv H. rewrite nth_error_app1; auto. now rewrite f_len.
    - rewrite nth_error_app2 by (rewrite f_len; lia). rewrite f_len.
      replace (c + q * c + r - c)%nat with (q * c + r)%nat by lia. now apply IH.
  Qed.

  Lemma flat_map_update_c : forall l q r a a' v, nth_error l q = Some a -> (r < c)%nat ->
    f a' = update_nat (f a) r v ->
    flat_map f (update_nat l q a') = update_nat (flat_map f l) (q * c + r) v.
  Proof.
    induction l as [|b l IH]; intros [|q] r a a' v H Hr Ha; simpl in H; try discriminate; simpl.
    - inv H. rewrite Ha. rewrite update_nat_app_l; auto. now rewrite f_len.
    - rewrite (IH q r a a' v) by auto.
      replace (c + q * c + r)%nat with (length (f b) + (q * c + r))%nat by (rewrite f_len; lia).
      now rewrite update_nat_app_r.
  Qed.
End FlatMap.

Lemma firstn_update : forall (A : Type) (l : list A) n i x, (i < n)%nat ->
  firstn n (update_nat l i x) = update_nat (firstn n l) i x.
Proof.
  induction l; intros [|n] [|i] x H; simpl; auto; try lia. f_equal. apply IHl. lia.
Qed.

Lemma firstn_nth_error : forall (A : Type) (l : list A) n i, (i < n)%nat ->
  nth_error (firstn n l) i = nth_error l i.
Proof. induction l; intros [|n] [|i] H; simpl; auto; try lia. apply IHl. lia. Qed.

Lemma cpw_pos : forall sz, reg_size sz -> (0 < cpw sz)%nat.
Proof. intros. destruct (reg_size_facts sz H). unfold cpw. lia. Qed.

Lemma index_split : forall sz i, reg_size sz ->
  N.to_nat i = (N.to_nat (i / count_per_word sz) * cpw sz + N.to_nat (i mod count_per_word sz))%nat
  /\ (N.to_nat (i mod count_per_word sz) < cpw sz)%nat.
Proof.
  intros sz i Hs. destruct (reg_size_facts sz Hs) as (H1 & _).
  assert (Hc : count_per_word sz <> 0) by lia.
  pose proof (N.div_mod i (count_per_word sz) Hc).
  pose proof (N.mod_lt i (count_per_word sz) Hc). unfold cpw. split; [|lia].
  rewrite <- N2Nat.inj_mul, <- N2Nat.inj_add. f_equal. lia.
Qed.

Lemma wf_total : forall sz r, reg_size sz -> wf_regs sz r ->
  (N.to_nat (r_count r) <= length (r_buf r) * cpw sz)%nat.
Proof.
  intros sz r Hs [Hl _]. destruct (reg_size_facts sz Hs) as (H1 & _).
  assert (Hc : count_per_word sz <> 0) by lia.
  pose proof (N.div_mod (r_count r + count_per_word sz - 1) (count_per_word sz) Hc).
  pose proof (N.mod_lt (r_count r + count_per_word sz - 1) (count_per_word sz) Hc).
  unfold cpw. nia.
Qed.

Lemma reg_iter_length : forall sz r, reg_size sz -> wf_regs sz r ->
  length (reg_iter sz r) = N.to_nat (r_count r).
Proof.
  intros. unfold reg_iter. rewrite firstn_length.
  rewrite (flat_map_length_c _ _ _ (cpw sz)) by apply word_registers_length.
  pose proof (wf_total sz r H H0). lia.
Qed.

Lemma wf_word : forall sz r i, reg_size sz -> wf_regs sz r -> i < r_count r ->
  exists w, nth_error (r_buf r) (N.to_nat (i / count_per_word sz)) = Some w /\ w < 2 ^ 32.
Proof.
  intros sz r i Hs Hw Hi. pose proof (wf_total sz r Hs Hw) as Ht.
  destruct (index_split sz i Hs) as [E L]. destruct Hw as [Hl Hf].
  destruct (nth_error (r_buf r) (N.to_nat (i / count_per_word sz))) as [w|] eqn:En.
  - exists w. split; auto. rewrite Forall_forall in Hf. apply Hf. eapply nth_error_In; eauto.
  - exfalso. apply nth_error_None in En.
    pose proof (Nat.mul_le_mono_r _ _ (cpw sz) En) as Hm.
    assert (Hi' : (N.to_nat i < N.to_nat (r_count r))%nat) by lia. rewrite E in Hi'.
    clear - Hi' Ht Hm. revert Hi' Ht Hm.
    generalize (N.to_nat (i / count_per_word sz) * cpw sz)%nat.
    generalize (N.to_nat (i mod count_per_word sz)). intros. lia.
Qed.

Lemma reg_iter_nth : forall sz r i w, reg_size sz -> wf_regs sz r -> i < r_count r ->
  nth_error (r_buf r) (N.to_nat (i / count_per_word sz)) = Some w ->
  nth_error (reg_iter sz r) (N.to_nat i) = Some (fld sz w (i mod count_per_word sz)).
Proof.
  intros sz r i w Hs Hw Hi Hn. unfold reg_iter. rewrite firstn_nth_error by lia.
  destruct (index_split sz i Hs) as [E L]. rewrite E.
  rewrite (flat_map_nth_c _ _ _ (cpw sz) (word_registers_length sz) _ _ _ w) by auto.
  rewrite word_registers_nth by auto. now rewrite N2Nat.id.
Qed.

(** [get] returns what [iter] lists. *)
Lemma reg_get_spec : forall sz r i, reg_size sz -> wf_regs sz r -> i < r_count r ->
  exists v, reg_get sz r i = Ret v /\ nth_error (reg_iter sz r) (N.to_nat i) = Some v /\ v < 2 ^ sz.
Proof.
  intros sz r i Hs Hw Hi. destruct (wf_word sz r i Hs Hw Hi) as (w & Hn & Hlt).
  exists (fld sz w (i mod count_per_word sz)). unfold reg_get.
  rewrite (index_ok _ _ _ _ Hn). simpl. repeat split.
  - now apply reg_iter_nth.
  - now apply fld_lt.
Qed.

Lemma Forall_update : forall (A : Type) (P : A -> Prop) l i x, Forall P l -> P x ->
  Forall P (update_nat l i x).
Proof.
  intros A P l. induction l; intros [|i] x H Hx; simpl; auto; inv H; constructor; auto.
Qed.

Lemma map_update : forall (A B : Type) (f : A -> B) l i x,
  map f (update_nat l i x) = update_nat (map f l) i (f x).
Proof. induction l; intros [|i] x; simpl; auto. now f_equal. Qed.

Lemma update_nat_id : forall (A : Type) (l : list A) i x, nth_error l i = Some x ->
  update_nat l i x = l.
Proof.
  induction l; intros [|i] x H; simpl in *; try discriminate; auto.
  - now inv H.
  - f_equal. auto.
Qed.

(** Number of zeros after an update. *)
Lemma zero_count_update : forall l i old v, nth_error l i = Some old ->
  zero_count (update_nat l i v) + (if old =? 0 then 1 else 0)
  = zero_count l + (if v =? 0 then 1 else 0).
Proof.
  intros l. unfold zero_count. induction l as [|a l IH]; intros [|i] old v H;
    cbn [nth_error] in H; try discriminate; cbn [update_nat filter].
  - inv H. rewrite (N.eqb_sym 0 old), (N.eqb_sym 0 v).
    destruct (old =? 0), (v =? 0); simpl length; lia.
  - specialize (IH i old v H). destruct (0 =? a); simpl length; lia.
Qed.

Lemma zero_count_pos : forall l i, nth_error l i = Some 0 -> 1 <= zero_count l.
Proof.
  intros l i H. unfold zero_count.
  assert (In 0 (filter (N.eqb 0) l)).
  { apply filter_In. split; [eapply nth_error_In; eauto|reflexivity]. }
  destruct (filter (N.eqb 0) l); [contradiction|]. simpl. lia.
Qed.

Lemma skipn_update : forall (A : Type) (l : list A) n i x, (i < n)%nat ->
  skipn n (update_nat l i x) = skipn n l.
Proof.
  induction l as [|y l IH]; intros [|n] [|i] x H; simpl; auto; try lia. apply IH. lia.
Qed.

(** The fields of the last word that belong to no register. *)
Definition spare (sz : N) (r : registers) : list N :=
  skipn (N.to_nat (r_count r)) (flat_map (word_registers sz) (r_buf r)).

(** Effect of [set_greater]. *)
Lemma set_greater_spec : forall e sz r i v old,
  reg_size sz -> wf_regs sz r -> i < r_count r -> v < 2 ^ sz ->
  nth_error (reg_iter sz r) (N.to_nat i) = Some old ->
  (old = 0 -> 1 <= r_zeros r) ->
  exists r', set_greater e sz r i v = Ret r' /\ wf_regs sz r' /\ r_count r' = r_count r /\
    reg_iter sz r' = update (reg_iter sz r) i (N.max old v) /\
    map (padding sz) (r_buf r') = map (padding sz) (r_buf r) /\ spare sz r' = spare sz r /\
    r_zeros r' = (if (old =? 0) && (0 <? v) then r_zeros r - 1 else r_zeros r).
Proof.
  intros e sz r i v old Hs Hw Hi Hv Hold Hz.
  destruct (wf_word sz r i Hs Hw Hi) as (w & Hn & Hlt).
  rewrite (reg_iter_nth sz r i w Hs Hw Hi Hn) in Hold.
  assert (Eold : fld sz w (i mod count_per_word sz) = old) by congruence. clear Hold.
  destruct (reg_size_facts sz Hs) as (Hc1 & _).
  assert (Hrm : i mod count_per_word sz < count_per_word sz) by (apply N.mod_lt; lia).
  destruct (index_split sz i Hs) as [Ei Li].
  unfold set_greater. rewrite (index_ok _ _ _ _ Hn). simpl bind.
  change (N.land (N.shiftr w (i mod count_per_word sz * sz)) (mask sz))
    with (fld sz w (i mod count_per_word sz)). rewrite Eold.
  assert (Hgen : forall w' z, replaced sz w (i mod count_per_word sz) v w' -> old < v ->
    let r' := {| r_buf := update (r_buf r) (i / count_per_word sz) w';
                 r_count := r_count r; r_zeros := z |} in
    wf_regs sz r' /\ r_count r' = r_count r /\
    reg_iter sz r' = update (reg_iter sz r) i (N.max old v) /\
    map (padding sz) (r_buf r') = map (padding sz) (r_buf r) /\ spare sz r' = spare sz r).
  { intros w' z R Hov r'. split; [|split; [reflexivity|split; [|split]]].
    - destruct Hw as [Hl Hf]. split; simpl.
      + unfold update. now rewrite update_nat_length.
      + apply Forall_update; auto. eapply replaced_lt; eauto.
    - unfold r', reg_iter, update; simpl. rewrite N.max_r by lia.
      rewrite <- firstn_update by lia. f_equal. rewrite Ei.
      apply (flat_map_update_c _ _ _ (cpw sz) (word_registers_length sz)) with w; auto.
      apply word_registers_replaced; auto.
    - unfold r'; simpl. unfold update. rewrite map_update.
      apply update_nat_id. rewrite nth_error_map, Hn. simpl. f_equal. symmetry.
      eapply replaced_padding; eauto.
    - unfold r', spare, update; simpl.
      rewrite (flat_map_update_c _ _ _ (cpw sz) (word_registers_length sz)
                 (r_buf r) (N.to_nat (i / count_per_word sz))
                 (N.to_nat (i mod count_per_word sz)) w w' v); auto.
      + rewrite <- Ei. apply skipn_update. lia.
      + apply word_registers_replaced; auto. }
  destruct (N.ltb_spec old v) as [Hov|Hov].
  - destruct (N.eqb_spec old 0) as [E0|E0].
    + rewrite usub_ok by (now apply Hz). simpl bind.
      eexists. split; [reflexivity|].
      edestruct (Hgen (N.lor w (cast 32 (N.shiftl v (i mod count_per_word sz * sz)))) (r_zeros r - 1))
        as (A & B & C & D & F); auto.
      { apply replaced_or; auto. congruence. }
      repeat split; auto; try apply A. simpl.
      replace (0 <? v) with true; auto. symmetry. apply N.ltb_lt. lia.
    + eexists. split; [reflexivity|].
      edestruct (Hgen (N.lor (N.land w (unot 32 (cast 32 (N.shiftl (mask sz) (i mod count_per_word sz * sz)))))
           (cast 32 (N.shiftl v (i mod count_per_word sz * sz)))) (r_zeros r))
        as (A & B & C & D & F); auto.
      { apply replaced_mask; auto. }
      repeat split; auto; try apply A.
  - exists r. split; [reflexivity|]. repeat split; try apply Hw.
    + rewrite N.max_l by lia. unfold update. symmetry. apply update_nat_id.
      rewrite (reg_iter_nth sz r i w Hs Hw Hi Hn). congruence.
    + destruct (N.eqb_spec old 0); simpl; auto.
      replace (0 <? v) with false; auto. symmetry. apply N.ltb_ge. lia.
Qed.

(** The exact zero counter is preserved. *)
Definition exact_zeros (sz : N) (r : registers) : Prop := r_zeros r = zero_count (reg_iter sz r).

Lemma set_greater_exact : forall e sz r i v,
  reg_size sz -> wf_regs sz r -> exact_zeros sz r -> i < r_count r -> v < 2 ^ sz ->
  exists r' old, set_greater e sz r i v = Ret r' /\ wf_regs sz r' /\ r_count r' = r_count r /\
    exact_zeros sz r' /\ nth_error (reg_iter sz r) (N.to_nat i) = Some old /\
    reg_iter sz r' = update (reg_iter sz r) i (N.max old v) /\
    map (padding sz) (r_buf r') = map (padding sz) (r_buf r) /\
    spare sz r' = spare sz r.
Proof.
  intros e sz r i v Hs Hw Hz Hi Hv.
  destruct (reg_get_spec sz r i Hs Hw Hi) as (old & _ & Hold & _).
  assert (Hp : old = 0 -> 1 <= r_zeros r).
  { intros ->. rewrite Hz. eapply zero_count_pos; eauto. }
  destruct (set_greater_spec e sz r i v old Hs Hw Hi Hv Hold Hp)
    as (r' & E & W & C & I & P & SP & Z).
  exists r', old. repeat split; auto; try apply W.
  unfold exact_zeros. rewrite Z, I. unfold update.
  pose proof (zero_count_update (reg_iter sz r) (N.to_nat i) old (N.max old v) Hold) as Hu.
  unfold exact_zeros in Hz.
  destruct (N.eqb_spec old 0) as [->|Hn]; simpl.
  - destruct (N.ltb_spec 0 v).
    + replace (N.max 0 v =? 0) with false in Hu by (symmetry; apply N.eqb_neq; lia). lia.
    + replace (N.max 0 v =? 0) with true in Hu by (symmetry; apply N.eqb_eq; lia). lia.
  - replace (N.max old v =? 0) with false in Hu by (symmetry; apply N.eqb_neq; lia). lia.
Qed.

(** ** A fresh register file *)
Lemma repeat_app' : forall (A : Type) (x : A) n m, repeat x (n + m) = repeat x n ++ repeat x m.
Proof. intros. apply repeat_app. Qed.

Lemma flat_map_zero : forall sz n, reg_size sz ->
  flat_map (word_registers sz) (repeat 0 n) = repeat 0 (n * cpw sz).
Proof.
  intros sz n Hs. induction n; simpl; auto. rewrite IHn, repeat_app'. f_equal.
  destruct Hs as [->| ->]; reflexivity.
Qed.

Lemma firstn_repeat : forall (A : Type) (x : A) n m, (n <= m)%nat ->
  firstn n (repeat x m) = repeat x n.
Proof. induction n; intros [|m] H; simpl; auto; try lia. f_equal. apply IHn. lia. Qed.

Lemma zero_count_repeat : forall n, zero_count (repeat 0 n) = N.of_nat n.
Proof.
  intros. unfold zero_count. f_equal. induction n; simpl; auto.
Qed.

Lemma with_count_spec : forall e sz count, reg_size sz ->
  count + count_per_word sz < 2 ^ usize_bits e ->
  exists r, with_count e sz count = Ret r /\ wf_regs sz r /\ r_count r = count /\
    exact_zeros sz r /\ reg_iter sz r = repeat 0 (N.to_nat count) /\
    Forall (fun w => padding sz w = 0) (r_buf r) /\ Forall (eq 0) (spare sz r).
Proof.
  intros e sz count Hs Hb. destruct (reg_size_facts sz Hs) as (H1 & _).
  unfold with_count, ceil. rewrite uadd_ok by auto. simpl bind.
  rewrite usub_ok by lia. simpl bind.
  set (n := (count + count_per_word sz - 1) / count_per_word sz).
  eexists. split; [reflexivity|]. 
  assert (W : wf_regs sz {| r_buf := repeat 0 (N.to_nat n); r_count := count; r_zeros := count |}).
  { split; simpl.
    - rewrite repeat_length. lia.
    - apply Forall_forall. intros x Hx. apply repeat_spec in Hx. subst. reflexivity. }
  pose proof (wf_total sz _ Hs W) as Ht. simpl in Ht. rewrite repeat_length in Ht.
  assert (I : reg_iter sz {| r_buf := repeat 0 (N.to_nat n); r_count := count; r_zeros := count |}
              = repeat 0 (N.to_nat count)).
  { unfold reg_iter; simpl. rewrite flat_map_zero by auto. now apply firstn_repeat. }
  split; [exact W|]. split; [reflexivity|]. split; [|split; [exact I|split]].
  - unfold exact_zeros. rewrite I, zero_count_repeat. simpl. lia.
  - simpl. apply Forall_forall. intros x Hx. apply repeat_spec in Hx. subst.
    destruct Hs as [->| ->]; reflexivity.
  - unfold spare; simpl. rewrite flat_map_zero by auto. apply Forall_forall. intros x Hx.
    assert (Hx' : In x (repeat 0 (N.to_nat n * cpw sz))).
    { rewrite <- (firstn_skipn (N.to_nat count)). apply in_or_app. now right. }
    apply repeat_spec in Hx'. auto.
Qed.

(** Register contents are below [2^sz]. *)
Lemma reg_iter_lt : forall sz r, reg_size sz -> Forall (fun v => v < 2 ^ sz) (reg_iter sz r).
Proof.
  intros sz r Hs. apply Forall_forall. intros v Hv. unfold reg_iter in Hv.
  assert (Hv' : In v (flat_map (word_registers sz) (r_buf r))).
  { rewrite <- (firstn_skipn (N.to_nat (r_count r))). apply in_or_app. now left. }
  apply in_flat_map in Hv'. destruct Hv' as (w & _ & Hw).
  unfold word_registers in Hw. apply in_map_iff in Hw. destruct Hw as (i & <- & _).
  now apply fld_lt.
Qed.

(** A register file is determined by its values, given equal padding. *)
Lemma fld_ext : forall sz w w', reg_size sz -> w < 2 ^ 32 -> w' < 2 ^ 32 ->
  (forall i, i < count_per_word sz -> fld sz w i = fld sz w' i) ->
  padding sz w = padding sz w' -> w = w'.
Proof.
  intros sz w w' Hs Hw Hw' Hf Hp. destruct (reg_size_facts sz Hs) as (H1 & E & Hsz & _).
  apply N.bits_inj. intro m. destruct (N.lt_ge_cases m 30) as [Hm|Hm].
  - assert (Hsn : sz <> 0) by lia.
    pose proof (N.div_mod m sz Hsn). pose proof (N.mod_lt m sz Hsn).
    assert (Hi : m / sz < count_per_word sz) by (apply N.div_lt_upper_bound; lia).
    specialize (Hf (m / sz) Hi).
    assert (Hb : N.testbit (fld sz w (m / sz)) (m mod sz)
                 = N.testbit (fld sz w' (m / sz)) (m mod sz)) by congruence.
    rewrite !fld_bits in Hb by auto.
    replace (m mod sz + m / sz * sz) with m in Hb by lia.
    replace (m mod sz <? sz) with true in Hb by (symmetry; apply N.ltb_lt; lia).
    now rewrite !andb_true_r in Hb.
  - unfold padding in Hp. rewrite E in Hp. rewrite <- !N.shiftr_div_pow2 in Hp.
    assert (Hb : N.testbit (N.shiftr w 30) (m - 30) = N.testbit (N.shiftr w' 30) (m - 30))
      by congruence.
    rewrite !N.shiftr_spec' in Hb. now replace (m - 30 + 30) with m in Hb by lia.
Qed.
