(** * Converting codes whose ranks do not fit a register *)
From Coq Require Import NArith ZArith Arith List Bool Lia Permutation Sorted.
From Verif Require Import ModelRust ModelF64 ModelEnv ModelRegisters ModelEncoding ModelCommon ModelPlus ModelSerde
  Spec SpecBuild SpecSketch SpecBytes
  BitFacts RegFacts EncFacts CodeFacts MergeFacts RawFacts PlusInv CountFacts ClaimRefute DecodeFacts DecodeState.
Import ListNotations.
Local Open Scope N_scope.

(** ** Decoding *)
Lemma decode_exact : forall e p c, 32 <= usize_bits e -> 4 <= p <= 18 -> c < 2 ^ 32 ->
  exists z, decode_hash e p c = Ret (z, reg_of p c) /\ reg_of p c < 2 ^ p /\ 1 <= z /\ z < 128 /\
  (z = stored_rank p c \/ z < 64 /\ stored_rank p c = 1).
Proof.
  intros e p c Hu Hp Hc. unfold decode_hash, code_index, PRIME_PRECISION, reg_of, stored_rank. rewrite land1.
  assert (Hcast : forall x, x < 2 ^ p -> cast (usize_bits e) x = x).
  { intros x Hx. unfold cast. apply N.mod_small. eapply N.lt_le_trans; [exact Hx|]. apply pow2_le. lia. }
  rewrite <- N.bit0_odd, N.bit0_eqb.
  destruct (N.eqb_spec (c mod 2) 1) as [E|E].
  - rewrite extract_ok by (auto; lia). rewrite bind_ret. rewrite usub_ok by lia. rewrite bind_ret.
    change (7 - 1) with 6. change (2 ^ 1) with 2. change (2 ^ 6) with 64.
    assert (Hz : (c / 2) mod 64 < 64) by (apply N.mod_lt; discriminate).
    rewrite uadd_ok by (change (2 ^ 32) with 4294967296; nlia). rewrite bind_ret.
    rewrite usub_ok by lia. rewrite bind_ret. rewrite extract_ok by (auto; lia). rewrite !bind_ret.
    assert (Hi : c / 2 ^ (32 - p) < 2 ^ p).
    { replace p with (32 - (32 - p)) at 2 by lia. apply div_lt_pow2; [lia|exact Hc]. }
    replace (32 - (32 - p)) with p by lia. rewrite (N.mod_small _ _ Hi).
    rewrite Hcast by auto. eexists. split; [reflexivity|]. split; [auto|].
    set (y := (c / 2) mod 64) in *. clearbody y. split; [lia|]. split; [lia|]. now left.
  - rewrite (uadd_ok _ 8) by (change (2 ^ 8) with 256; lia). rewrite bind_ret.
    rewrite usub_ok by lia. rewrite bind_ret. rewrite ushl_ok by lia. rewrite bind_ret.
    rewrite uadd_ok by (unfold leading_zeros; change (2 ^ 32) with 4294967296; lia). rewrite bind_ret.
    rewrite usub_ok by lia. rewrite bind_ret.
    rewrite (uadd_ok _ 8) by (change (2 ^ 8) with 256; lia). rewrite bind_ret.
    rewrite extract_ok by (auto; lia). rewrite !bind_ret.
    replace (25 + 1 - (25 - p + 1)) with p by lia. replace (25 - p + 1) with (26 - p) by lia.
    assert (Hi : (c / 2 ^ (26 - p)) mod 2 ^ p < 2 ^ p) by apply N.mod_lt, pow2_nz.
    rewrite Hcast by auto. eexists. split; [reflexivity|]. split; [auto|].
    unfold leading_zeros. split; [lia|]. split; [lia|]. right. lia.
Qed.

(** ** Writing a value of seven bits into a word *)
Lemma shifted_7 : forall i v m, i < 5 ->
  N.testbit (cast 32 (N.shiftl v (i * 6))) m = (i * 6 <=? m) && (m <? 32) && N.testbit v (m - i * 6).
Proof.
  intros i v m Hi. unfold cast. destruct (N.ltb_spec m 32) as [Hm|Hm].
  - rewrite N.mod_pow2_bits_low by auto. rewrite andb_true_r. destruct (N.leb_spec (i * 6) m).
    + now rewrite N.shiftl_spec_high'.
    + now rewrite N.shiftl_spec_low.
  - rewrite N.mod_pow2_bits_high by auto. now rewrite andb_false_r.
Qed.

(** [w'] is [w] with field [i] replaced by the low six bits of [v]; the higher bits are or-ed in. *)
Definition written (w i v w' : N) : Prop :=
  forall m, N.testbit w' m =
    if i * 6 <=? m then
      if m <? i * 6 + 6 then N.testbit v (m - i * 6)
      else N.testbit w m || (m <? 32) && N.testbit v (m - i * 6)
    else N.testbit w m.

Lemma written_or : forall w i v, i < 5 -> fld 6 w i = 0 ->
  written w i v (N.lor w (cast 32 (N.shiftl v (i * 6)))).
Proof.
  intros w i v Hi H0 m. rewrite N.lor_spec, shifted_7 by auto.
  destruct (N.leb_spec (i * 6) m) as [H1|]; simpl; [|apply orb_false_r].
  destruct (N.ltb_spec m (i * 6 + 6)) as [H2|]; [|reflexivity].
  assert (Hb : N.testbit (fld 6 w i) (m - i * 6) = false) by (rewrite H0; apply N.bits_0).
  rewrite fld_bits in Hb by now right.
  replace (m - i * 6 + i * 6) with m in Hb by lia.
  replace (m - i * 6 <? 6) with true in Hb by (symmetry; apply N.ltb_lt; lia).
  rewrite andb_true_r in Hb. rewrite Hb. replace (m <? 32) with true by (symmetry; apply N.ltb_lt; lia). reflexivity.
Qed.

Lemma written_mask : forall w i v, i < 5 -> w < 2 ^ 32 ->
  written w i v (N.lor (N.land w (unot 32 (cast 32 (N.shiftl (mask 6) (i * 6))))) (cast 32 (N.shiftl v (i * 6)))).
Proof.
  intros w i v Hi Hw m. rewrite N.lor_spec, N.land_spec, shifted_7 by auto. unfold unot.
  destruct (N.lt_ge_cases m 32) as [H32|H32].
  - rewrite N.lnot_spec_low by auto. rewrite shifted_7 by auto. rewrite mask_bits by now right.
    replace (m <? 32) with true by (symmetry; now apply N.ltb_lt). rewrite andb_true_r.
    destruct (N.leb_spec (i * 6) m) as [H1|]; simpl; [|now rewrite orb_false_r, andb_true_r].
    destruct (N.ltb_spec m (i * 6 + 6)) as [H2|H2].
    + replace (m - i * 6 <? 6) with true by (symmetry; apply N.ltb_lt; lia). simpl. now rewrite andb_false_r.
    + replace (m - i * 6 <? 6) with false by (symmetry; apply N.ltb_ge; lia). simpl. now rewrite andb_true_r.
  - rewrite (testbit_small w 32) by auto.
    replace (m <? 32) with false by (symmetry; now apply N.ltb_ge). rewrite !andb_false_r.
    destruct (i * 6 <=? m); [|reflexivity]. replace (m <? i * 6 + 6) with false by (symmetry; apply N.ltb_ge; lia). now rewrite ?andb_false_r.
Qed.

Lemma written_lt : forall w i v w', i < 5 -> w < 2 ^ 32 -> written w i v w' -> w' < 2 ^ 32.
Proof.
  intros w i v w' Hi Hw R. destruct (N.eq_dec w' 0) as [->|Hn]; [reflexivity|].
  apply N.log2_lt_pow2; [lia|].
  destruct (N.lt_ge_cases (N.log2 w') 32) as [|Hge]; auto. exfalso.
  pose proof (N.bit_log2 w' Hn) as Hb. rewrite R in Hb.
  replace (i * 6 <=? N.log2 w') with true in Hb by (symmetry; apply N.leb_le; lia).
  replace (N.log2 w' <? i * 6 + 6) with false in Hb by (symmetry; apply N.ltb_ge; lia).
  replace (N.log2 w' <? 32) with false in Hb by (symmetry; now apply N.ltb_ge).
  rewrite (testbit_small w 32 Hw _ Hge) in Hb. discriminate.
Qed.

Lemma written_same : forall w i v w', i < 5 -> written w i v w' -> fld 6 w' i = v mod 64.
Proof.
  intros w i v w' Hi R. apply N.bits_inj. intro m. rewrite fld_bits by now right. rewrite R.
  change 64 with (2 ^ 6). destruct (N.ltb_spec m 6) as [H|H].
  - rewrite andb_true_r, N.mod_pow2_bits_low by auto.
    replace (i * 6 <=? m + i * 6) with true by (symmetry; apply N.leb_le; lia).
    replace (m + i * 6 <? i * 6 + 6) with true by (symmetry; apply N.ltb_lt; lia). f_equal. lia.
  - rewrite andb_false_r, N.mod_pow2_bits_high by auto. reflexivity.
Qed.

Lemma written_next : forall w i v w', i + 1 < 5 -> v < 128 -> written w i v w' ->
  fld 6 w' (i + 1) = N.lor (fld 6 w (i + 1)) (v / 64).
Proof.
  intros w i v w' Hi Hv R. apply N.bits_inj. intro m. rewrite N.lor_spec, !fld_bits by now right. rewrite R.
  change 64 with (2 ^ 6). rewrite N.div_pow2_bits.
  replace (i * 6 <=? m + (i + 1) * 6) with true by (symmetry; apply N.leb_le; lia).
  replace (m + (i + 1) * 6 <? i * 6 + 6) with false by (symmetry; apply N.ltb_ge; lia).
  replace (m + (i + 1) * 6 - i * 6) with (m + 6) by lia.
  destruct (N.ltb_spec m 6) as [H|H].
  - rewrite !andb_true_r. replace (m + (i + 1) * 6 <? 32) with true by (symmetry; apply N.ltb_lt; lia). reflexivity.
  - rewrite !andb_false_r. symmetry. apply (testbit_small v 7); [exact Hv|lia].
Qed.

Lemma written_other : forall w i v w' j, j < 5 -> v < 128 -> j <> i -> j <> i + 1 -> written w i v w' ->
  fld 6 w' j = fld 6 w j.
Proof.
  intros w i v w' j Hj Hv H1 H2 R. apply N.bits_inj. intro m. rewrite !fld_bits by now right.
  destruct (N.ltb_spec m 6) as [H|H]; [|now rewrite !andb_false_r]. f_equal. rewrite R.
  destruct (N.leb_spec (i * 6) (m + j * 6)) as [L|L]; [|reflexivity].
  replace (m + j * 6 <? i * 6 + 6) with false by (symmetry; apply N.ltb_ge; lia).
  rewrite (testbit_small v 7 Hv (m + j * 6 - i * 6)) by lia. now rewrite andb_false_r, orb_false_r.
Qed.

(** ** Register files *)
Definition field (r : registers) (i : N) : N := fld 6 (nth (N.to_nat (i / 5)) (r_buf r) 0) (i mod 5).

(** [set_greater] of a value of up to seven bits. *)
Lemma set_greater_7 : forall e r i v, overflow_checks e = true -> wf_regs 6 r -> i < r_count r -> v < 128 ->
  (field r i = 0 /\ 0 < v /\ r_zeros r = 0 /\ set_greater e 6 r i v = Panic) \/
  exists r', set_greater e 6 r i v = Ret r' /\ wf_regs 6 r' /\ r_count r' = r_count r /\
    (if (field r i =? 0) && (0 <? v) then r_zeros r' + 1 = r_zeros r else r_zeros r' = r_zeros r) /\
    (v <= field r i /\ r' = r \/
     field r i < v /\ forall j, field r' j = 
       if j =? i then v mod 64 else if (j =? i + 1) && negb (j mod 5 =? 0) then N.lor (field r j) (v / 64) else field r j).
Proof.
  intros e r i v Ck W Hi Hv. unfold set_greater. change (count_per_word 6) with 5.
  destruct (wf_word 6 r i ltac:(now right) W Hi) as (w & En & Hw). change (count_per_word 6) with 5 in En.
  rewrite (index_ok _ _ _ _ En), bind_ret. cbv zeta.
  assert (Ef : field r i = N.land (N.shiftr w (i mod 5 * 6)) (mask 6)).
  { unfold field. now rewrite (nth_error_nth _ _ 0 En). }
  rewrite <- Ef.
  assert (Hm : i mod 5 < 5) by (apply N.mod_lt; discriminate).
  assert (Lq : (N.to_nat (i / 5) < length (r_buf r))%nat) by (apply nth_error_Some; congruence).
  assert (STEP : forall w' z, written w (i mod 5) v w' ->
    wf_regs 6 {| r_buf := update (r_buf r) (i / 5) w'; r_count := r_count r; r_zeros := z |} /\
    forall j, field {| r_buf := update (r_buf r) (i / 5) w'; r_count := r_count r; r_zeros := z |} j =
       if j =? i then v mod 64 else if (j =? i + 1) && negb (j mod 5 =? 0) then N.lor (field r j) (v / 64) else field r j).
  { intros w' z R. split.
    - destruct W as [W1 W2]. split; cbn [r_buf r_count]; [now rewrite update_length|].
      apply Forall_update; [exact W2|]. now apply written_lt with w (i mod 5) v.
    - intros j. unfold field. cbn [r_buf]. unfold update.
      pose proof (N.div_mod j 5 ltac:(discriminate)) as Dj. pose proof (N.div_mod i 5 ltac:(discriminate)) as Di.
      pose proof (N.mod_lt j 5 ltac:(discriminate)) as Mj.
      destruct (N.eq_dec (j / 5) (i / 5)) as [Eq|Ne].
      + rewrite Eq in *. erewrite (nth_error_nth (update_nat _ _ _)) by (apply update_nat_same; exact Lq).
        rewrite (nth_error_nth _ _ 0 En).
        destruct (N.eqb_spec j i) as [->|Nj]; [now apply written_same with w|].
        destruct (N.eqb_spec j (i + 1)) as [E1|N1].
        * assert (X : j mod 5 = i mod 5 + 1) by (set (a := i mod 5) in *; set (b := j mod 5) in *; set (q := i / 5) in *; clearbody a b q; lia).
          rewrite X in *. replace (i mod 5 + 1 =? 0) with false by (symmetry; apply N.eqb_neq; rewrite N.add_1_r; apply N.neq_succ_0).
          cbn [andb negb]. now apply written_next.
        * simpl. apply written_other with (i mod 5) v; auto;
            set (a := i mod 5) in *; set (b := j mod 5) in *; set (q := i / 5) in *; clearbody a b q; lia.
      + replace (nth (N.to_nat (j / 5)) (update_nat (r_buf r) (N.to_nat (i / 5)) w') 0) with (nth (N.to_nat (j / 5)) (r_buf r) 0).
        2:{ destruct (nth_error (r_buf r) (N.to_nat (j / 5))) as [x|] eqn:Ej.
            - rewrite (nth_error_nth _ _ 0 Ej). symmetry. apply nth_error_nth. rewrite update_nat_other; [exact Ej|lia].
            - apply nth_error_None in Ej. rewrite (nth_overflow (r_buf r)) by exact Ej.
              rewrite nth_overflow; [reflexivity|]. now rewrite update_nat_length. }
        destruct (N.eqb_spec j i) as [->|Nj]; [congruence|].
        destruct (N.eqb_spec j (i + 1)) as [E1|N1]; [|reflexivity].
        assert (X : j mod 5 = 0).
        { clear - Dj Di Mj Hm Ne E1. set (a := i mod 5) in *; set (b := j mod 5) in *; set (q := i / 5) in *; set (q' := j / 5) in *; clearbody a b q q'. nia. }
        rewrite X. reflexivity. }
  destruct (N.ltb_spec (field r i) v) as [L|L].
  - destruct (N.eqb_spec (field r i) 0) as [Z|Z].
    + unfold usub. destruct (N.leb_spec 1 (r_zeros r)) as [L1|L1].
      * right. rewrite bind_ret. eexists. split; [reflexivity|].
        destruct (STEP _ (r_zeros r - 1) (written_or w (i mod 5) v Hm ltac:(unfold fld; congruence))) as [W' F'].
        split; [exact W'|]. split; [reflexivity|]. split; [|right; split; [exact L|exact F']].
        replace (0 <? v) with true by (symmetry; apply N.ltb_lt; lia). cbn [andb r_zeros]. lia.
      * left. rewrite Ck. repeat split; auto; lia.
    + right. eexists. split; [reflexivity|].
      destruct (STEP _ (r_zeros r) (written_mask w (i mod 5) v Hm Hw)) as [W' F'].
      split; [exact W'|]. split; [reflexivity|]. split; [reflexivity|]. right. split; [exact L|exact F'].
  - right. exists r. split; [reflexivity|]. split; [exact W|]. split; [reflexivity|]. split; [|left; auto].
    destruct (N.eqb_spec (field r i) 0) as [Z|Z]; [|reflexivity].
    replace (0 <? v) with false by (symmetry; apply N.ltb_ge; lia). reflexivity.
Qed.

Lemma field_lt : forall r i, field r i < 64.
Proof. intros. unfold field. apply (fld_lt 6). now right. Qed.

Lemma absorbs_exact : forall e p K before r, 32 <= usize_bits e -> 4 <= p <= 18 -> overflow_checks e = true ->
  Forall (fun x => x < 2 ^ 32) K -> wf_regs 6 r -> r_count r = 2 ^ p ->
  (forall i, i < 2 ^ p -> (field r i =? 0) = zero_after p i before) ->
  (r_zeros r < found_zero p before K /\ for_each K (absorb_code e p) r = Panic) \/
  (found_zero p before K <= r_zeros r /\ exists r', for_each K (absorb_code e p) r = Ret r').
Proof.
  intros e p K. induction K as [|c K IH]; intros before r Hu Hp Ck F W C Z; cbn [for_each found_zero].
  { right. split; [lia|eauto]. }
  inv F. unfold absorb_code at 1 3. change SIZE_PLUS with 6.
  destruct (decode_exact e p c Hu Hp H1) as (z & E & Hi & Z1 & Z2 & ZR). rewrite E, bind_ret.
  assert (Z0 : (0 <? z) = true) by (apply N.ltb_lt; lia).
  destruct (set_greater_7 e r (reg_of p c) z Ck W ltac:(now rewrite C) Z2) as [(A & _ & B & ->)|(r' & -> & W' & C' & D & N)].
  { left. split; [|reflexivity]. rewrite <- (Z _ Hi), A, B. change (0 =? 0) with true. cbv iota.
    apply N.lt_le_trans with 1; [reflexivity|apply N.le_add_r]. }
  rewrite bind_ret, <- (Z _ Hi). rewrite Z0, andb_true_r in D.
  assert (Inv : forall i, i < 2 ^ p -> (field r' i =? 0) = zero_after p i (c :: before)).
  { intros i Li. cbn [zero_after]. rewrite (N.eqb_sym (reg_of p c) i), (N.eqb_sym (reg_of p c + 1) i).
    pose proof (field_lt r (reg_of p c)) as FL.
    destruct N as [[N ->]|[N N2]].
    - destruct (N.eqb_spec i (reg_of p c)) as [->|Ni].
      + replace (stored_rank p c =? 64) with false by (symmetry; apply N.eqb_neq; destruct ZR; lia).
        apply N.eqb_neq. lia.
      + replace (64 <=? stored_rank p c) with false by (symmetry; apply N.leb_gt; destruct ZR; lia). simpl. auto.
    - rewrite N2. destruct (N.eqb_spec i (reg_of p c)) as [->|Ni].
      + assert (z mod 64 = if z <? 64 then z else z - 64).
        { destruct (N.ltb_spec z 64) as [L|L]; [now apply N.mod_small|].
          symmetry. apply (N.mod_unique z 64 1); lia. }
        rewrite H. destruct (N.ltb_spec z 64) as [L|L].
        * replace (stored_rank p c =? 64) with false by (symmetry; apply N.eqb_neq; destruct ZR; lia). apply N.eqb_neq. lia.
        * assert (stored_rank p c = z) as -> by (destruct ZR; lia).
          destruct (N.eqb_spec z 64) as [->|Nz]; [reflexivity|]. apply N.eqb_neq. lia.
      + destruct (N.eqb_spec i (reg_of p c + 1)) as [E1|E1]; [|rewrite andb_false_r; simpl; auto].
        rewrite andb_true_r. simpl. destruct (i mod 5 =? 0); simpl; [rewrite andb_false_r; auto|]. rewrite andb_true_r.
        assert (z / 64 = if z <? 64 then 0 else 1).
        { destruct (N.ltb_spec z 64) as [L|L]; [now apply N.div_small|]. symmetry. apply (N.div_unique z 64 1 (z - 64)); lia. }
        rewrite H. destruct (N.ltb_spec z 64) as [L|L].
        * replace (64 <=? stored_rank p c) with false by (symmetry; apply N.leb_gt; destruct ZR; lia). rewrite N.lor_0_r. auto.
        * replace (64 <=? stored_rank p c) with true by (symmetry; apply N.leb_le; destruct ZR; lia).
          apply N.eqb_neq. intros Q. apply N.lor_eq_0_iff in Q. lia. }
  destruct (IH (c :: before) r' Hu Hp Ck H2 W' ltac:(congruence) Inv) as [[A B]|[A B]]; [left|right]; (split; [|exact B]);
    destruct (field r (reg_of p c) =? 0); lia.
Qed.

Lemma repeat_nth_0 : forall n i, nth i (repeat 0 n) 0 = 0.
Proof. induction n; intros [|i]; simpl; auto. Qed.

(** ** Counting *)
Lemma count_untidy : forall (V : Type) e ord (s : plus V) ns K, build_std e -> is_order ord ->
  overflow_checks e = true ->
  4 <= hp_precision s <= 18 -> hp_counts0 s = 2 ^ hp_precision s -> 2 * hp_precision s < usize_bits e ->
  hp_registers s = None -> NoDup (hp_tmpset s) ->
  Forall (fun x => x < 2 ^ 32) (hp_tmpset s) -> Forall byte (d_buf (hp_sparse s)) ->
  d_buf (hp_sparse s) = concat ns -> Forall is_number ns ->
  Forall (fun n => (length n <= 5)%nat) ns -> total (map read32 ns) < 2 ^ 32 ->
  flushes_to (hp_tmpset s) (sums 0 (map read32 ns)) K -> hp_counts2 s < gap_len 0 K ->
  (hp_count e ord s = Panic /\ 2 ^ hp_precision s < found_zero (hp_precision s) [] K) \/
  ((exists s' c, hp_count e ord s = Ret (s', c)) /\ found_zero (hp_precision s) [] K <= 2 ^ hp_precision s).
Proof.
  intros V e ord s ns K Hb Ho Ck Hp E0 Hw Er ND FT B E F L5 TT [NK PK] G.
  destruct (merge_codes_good e ord (hp_tmpset s) (hp_sparse s) ns Ho ND FT B E F L5 TT)
    as (d' & K' & E' & R & P).
  assert (K' = K).
  { destruct R as (A & _). destruct (ascending_nondecreasing K' 0 A) as [NK' _].
    apply nondecreasing_unique; auto. rewrite PK, P. reflexivity. }
  subst K'.
  assert (Hu : 32 <= usize_bits e) by (destruct Hb as [[H _] _]; lia).
  pose proof (u32_le e Hu) as U. pose proof (p18_lt _ (proj2 Hp)) as P18.
  assert (S : is_sparse s = true) by (unfold is_sparse; now rewrite Er).
  assert (M : (2 ^ hp_precision s < found_zero (hp_precision s) [] K /\ merge_sparse e ord s = Panic) \/
    (found_zero (hp_precision s) [] K <= 2 ^ hp_precision s /\
     exists s', merge_sparse e ord s = Ret s' /\ exists r, hp_registers s' = Some r /\
            hp_precision s' = hp_precision s /\ hp_counts0 s' = hp_counts0 s)).
  { rewrite merge_sparse_codes, E', bind_ret. cbv zeta.
    cbn [hp_counts2 set_tmpset set_sparse hp_sparse].
    rewrite (dif_repr_len d' K R), (proj2 (N.ltb_lt _ _) G).
    unfold sparse_to_normal. cbn [hp_counts0 set_tmpset set_sparse hp_sparse hp_precision].
    change SIZE_PLUS with 6.
    assert (Q : hp_counts0 s + count_per_word 6 < 2 ^ usize_bits e) by (rewrite E0; change (count_per_word 6) with 5; lia).
    destruct (with_count_spec e 6 (hp_counts0 s)) as (r0 & W0 & W & C & Z & _); [now right|exact Q|].
    rewrite W0, bind_ret, (dif_for_ok _ e d' K _ _ R).
    assert (Z0 : r_zeros r0 = 2 ^ hp_precision s /\ forall i, field r0 i = 0).
    { unfold with_count, ceil in W0. rewrite uadd_ok in W0 by exact Q. rewrite bind_ret, usub_ok in W0 by (change (count_per_word 6) with 5; lia).
      rewrite !bind_ret in W0. injection W0 as <-. split; [exact E0|]. intros i. unfold field. cbn [r_buf]. rewrite repeat_nth_0.
      unfold fld. now rewrite N.shiftr_0_l. }
    destruct (absorbs_exact e (hp_precision s) K [] r0 Hu Hp Ck) as [[A X]|[A [r X]]]; auto.
    - apply R.
    - congruence.
    - intros i _. now rewrite (proj2 Z0).
    - left. rewrite X. split; [|reflexivity]. now rewrite <- (proj1 Z0).
    - right. split; [now rewrite <- (proj1 Z0)|]. rewrite X, bind_ret. eexists. split; [reflexivity|]. exists r. repeat split. }
  destruct M as [[A M]|[A (s' & M & r & Es' & Ep & Ec)]].
  { left. split; [|exact A]. unfold hp_count. now rewrite S, M. }
  right. split; [|exact A].
  assert (S' : is_sparse s' = false) by (unfold is_sparse; now rewrite Es').
  rewrite (count_after V e ord s s' S M S').
  destruct (plus_safe V e ord s' r Hb) as (c & Ecc); auto.
  - now rewrite Ep.
  - right. rewrite Ec, E0, <- N.pow_add_r. apply pow2_lt. lia.
  - eauto.
Qed.

Lemma de_untidy : forall (V : Type) e ord de_b v (s : plus V) ns K, build_std e -> is_order ord ->
  overflow_checks e = true -> de_plus e de_b v = Some s ->
  4 <= hp_precision s <= 18 -> hp_counts0 s = 2 ^ hp_precision s -> 2 * hp_precision s < usize_bits e ->
  hp_registers s = None ->
  d_buf (hp_sparse s) = concat ns -> Forall is_number ns ->
  Forall (fun n => (length n <= 5)%nat) ns -> total (map read32 ns) < 2 ^ 32 ->
  flushes_to (hp_tmpset s) (sums 0 (map read32 ns)) K -> hp_counts2 s < gap_len 0 K ->
  (hp_count e ord s = Panic /\ 2 ^ hp_precision s < found_zero (hp_precision s) [] K) \/
  ((exists s' c, hp_count e ord s = Ret (s', c)) /\ found_zero (hp_precision s) [] K <= 2 ^ hp_precision s).
Proof. intros * E O Ck D. destruct (de_plus_range _ _ _ _ _ D) as (A & B & C). intros. eapply count_untidy; eauto. Qed.
