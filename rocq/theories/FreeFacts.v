(** * Stored sketches without overflow checks, whatever their bytes *)
From Coq Require Import NArith ZArith Arith List Bool Lia Permutation Sorted.
From Verif Require Import ModelRust ModelF64 ModelEnv ModelRegisters ModelEncoding ModelCommon ModelPF ModelPlus ModelSerde
  Spec SpecBuild SpecSketch SpecBytes SpecStored SpecFree
  BitFacts RegFacts EncFacts CodeFacts MergeFacts RawFacts PlusInv CountFacts ClaimRefute DecodeFacts DecodeState UntidyFacts
  StoredFacts StoredCodes StoredOps StoredRelease Witness.
Import ListNotations.
Local Open Scope N_scope.

(** ** Reading *)
Lemma unchecked_lt : forall n i, unchecked i n < 2 ^ 32.
Proof.
  induction n as [|b n IH]; intros i; cbn [unchecked]; [reflexivity|]. apply lor_lt; [apply N.mod_lt, pow2_nz|apply IH].
Qed.

Lemma unchecked_short : forall n, is_number n -> Forall byte n -> (length n <= 5)%nat -> unchecked 0 n = read32 n.
Proof.
  intros n N1 B L. destruct (decode_number Witness.small_env [] n [] N1 B ltac:(now left)) as (x & E & _ & V).
  rewrite decode_unchecked in E by auto. injection E as E. rewrite E. now apply V.
Qed.

Lemma stream_free : forall e d ns pre last, overflow_checks e = false -> d_buf d = pre ++ concat ns ->
  Forall is_number ns -> Forall byte (concat ns) -> last < 2 ^ 32 ->
  stream e {| di_index := N.of_nat (length pre); di_last := last; di_inner := d |}
    (map (fun x => x mod 2 ^ 32) (sums last (map (unchecked 0) ns))) true.
Proof.
  intros e d ns. induction ns as [|n ns IH]; intros pre last Ck E F B Hl.
  - cbn [map sums]. eapply stream_end. unfold dif_next. cbn [di_inner di_index]. rewrite E.
    simpl concat. rewrite app_nil_r, len_length, N.leb_refl. reflexivity.
  - inv F. simpl concat in *. apply Forall_app in B. destruct B as [Bn B].
    pose proof (number_nonempty n H1) as Hpos. cbn [map sums].
    assert (Hx := unchecked_lt n 0). set (x := unchecked 0 n) in *.
    assert (U : uadd (overflow_checks e) 32 last x = Ret ((last + x) mod 2 ^ 32)).
    { rewrite Ck. unfold uadd. destruct (N.ltb_spec (last + x) (2 ^ 32)); [now rewrite N.mod_small|reflexivity]. }
    eapply stream_cons.
    + unfold dif_next. cbn [di_inner di_index di_last]. rewrite E.
      rewrite len_length, (proj2 (N.leb_gt _ _)) by (rewrite !app_length; lia).
      rewrite (decode_unchecked e pre n (concat ns) Ck H1 Bn), bind_ret. fold x. rewrite U, bind_ret. reflexivity.
    + apply N.mod_lt, pow2_nz.
    + rewrite <- sums_mod. replace (N.of_nat (length pre) + N.of_nat (length n)) with (N.of_nat (length (pre ++ n))) by (rewrite app_length; lia).
      apply IH; auto; [now rewrite <- app_assoc|]. apply N.mod_lt, pow2_nz.
Qed.

Lemma free_stream : forall e d L, overflow_checks e = false -> Forall byte (d_buf d) -> reads_free (d_buf d) L ->
  stream e (dif_into_iter d) L true.
Proof.
  intros e d L Ck B (ns & E & F & ->). apply (stream_free e d ns [] 0 Ck E F); [now rewrite <- E|reflexivity].
Qed.

Lemma free_length : forall v L, reads_free v L -> (length L <= length v)%nat.
Proof.
  intros v L (ns & -> & F & ->). rewrite map_length.
  assert (G : forall l b, length (sums b l) = length l) by (induction l; intros b; cbn [sums length]; auto).
  rewrite G, map_length. now apply numbers_count.
Qed.

Lemma free_lt : forall v L, reads_free v L -> Forall (fun x => x < 2 ^ 32) L.
Proof.
  intros v L (ns & _ & _ & ->). apply Forall_forall. intros x Hx. apply in_map_iff in Hx. destruct Hx as (y & <- & _).
  apply N.mod_lt, pow2_nz.
Qed.

Lemma free_unique : forall v L L', reads_free v L -> reads_free v L' -> L = L'.
Proof.
  intros v L L' (ns & E & F & ->) (ns' & E' & F' & ->). assert (ns = ns') by (apply numbers_unique; congruence). now subst.
Qed.

Lemma free_or_open : forall v, ends_open v \/ ~ ends_open v /\ exists L, reads_free v L.
Proof.
  intros v. destruct (split_numbers v) as (ns & w & E & F & G). destruct w as [|b w].
  - right. rewrite app_nil_r in E. split; [|exists (map (fun x => x mod 2 ^ 32) (sums 0 (map (unchecked 0) ns))), ns; auto].
    rewrite E, <- (app_nil_r (concat ns)). rewrite ends_open_iff by auto. congruence.
  - left. rewrite E. apply ends_open_iff; auto. discriminate.
Qed.

Lemma free_closed : forall v L, reads_free v L -> ~ ends_open v.
Proof.
  intros v L (ns & -> & F & _). rewrite <- (app_nil_r (concat ns)), ends_open_iff by auto. congruence.
Qed.

Lemma free_for : forall (S : Type) e d L (body : S -> N -> M S) s, overflow_checks e = false -> Forall byte (d_buf d) ->
  reads_free (d_buf d) L -> dif_for e d body s = for_each L body s.
Proof.
  intros S e d L body s Ck B R. unfold dif_for. pose proof (free_length _ _ R).
  rewrite (stream_for _ e _ _ _ body (free_stream e d L Ck B R)) by lia. destruct (for_each _ body s); reflexivity.
Qed.

Lemma open_for : forall (S : Type) e d (body : S -> N -> M S) (s : S), Forall byte (d_buf d) ->
  ends_open (d_buf d) -> (forall s c, body s c <> OutOfFuel) -> dif_for e d body s = Panic.
Proof.
  intros S e d body s B O NF. unfold dif_for. destruct (stream_bytes e d B) as (L & ok & SL & LL & K & _).
  assert (ok = false) by (apply K; now left). subst ok.
  rewrite (stream_for _ e _ _ _ body SL) by lia.
  assert (G : forall L s, for_each L body s <> OutOfFuel).
  { induction L0 as [|c L0 IH]; intros s0; cbn [for_each]; [discriminate|]. specialize (NF s0 c). destruct (body s0 c); cbn [bind]; try congruence; auto. }
  specialize (G L s). destruct (for_each L body s); cbn [bind]; congruence.
Qed.

(** ** Writing *)
Fixpoint steps (last : N) (K : list N) : list N :=
  match K with
  | [] => []
  | x :: K' => (x + 2 ^ 32 - last) mod 2 ^ 32 :: steps x K'
  end.

Definition holds_free (d : difintvec) (K : list N) : Prop :=
  Forall (fun x => x < 2 ^ 32) K /\ d_buf d = concat (map venc (steps 0 K)) /\
  d_count d = N.of_nat (length K) /\ d_last d = last_of K.

Lemma steps_lt : forall K b, Forall (fun x => x < 2 ^ 32) (steps b K).
Proof. induction K as [|x K IH]; intros b; cbn [steps]; constructor; auto. apply N.mod_lt, pow2_nz. Qed.

Lemma steps_app : forall K K' b, steps b (K ++ K') = steps b K ++ steps (last K b) K'.
Proof.
  induction K as [|x K IH]; intros K' b; cbn [app steps]; [reflexivity|]. rewrite IH. f_equal. f_equal. now rewrite last_cons.
Qed.

Lemma venc_short : forall n, (length (venc n) <= 5)%nat.
Proof.
  intros n. unfold venc. generalize 5%nat. intros f. revert n. induction f as [|f IH]; intros n; cbn [venc_f]; [simpl; lia|].
  destruct (n <? 128); simpl; [lia|]. specialize (IH (n / 128)). lia.
Qed.

Lemma venc_read : forall n, n < 2 ^ 32 -> unchecked 0 (venc n) = n.
Proof.
  intros n Hn. destruct (venc_number n Hn) as [A B].
  pose proof (decode_unchecked Witness.small_env [] (venc n) [] eq_refl A B) as E.
  rewrite unchecked_short by (auto; apply venc_short). unfold read32. rewrite <- (N.mod_small n (2 ^ 32)) at 2 by exact Hn. f_equal.
  clear - Hn. unfold venc.
  assert (G : forall f n, (0 < f)%nat -> n < 2 ^ (7 * N.of_nat f) -> base128 (venc_f f n) = n).
  { induction f as [|f IH]; intros m H0 Hm; [lia|]. cbn [venc_f]. destruct (N.ltb_spec m 128) as [Hs|Hs].
    - cbn [base128]. rewrite N.mod_small by exact Hs. lia.
    - destruct f as [|f]; [exfalso; simpl in Hm; lia|]. cbn [base128]. rewrite IH; [|lia|].
      + pose proof (N.div_mod m 128 ltac:(discriminate)) as D. pose proof (N.mod_lt m 128 ltac:(discriminate)).
        replace ((m mod 128 + 128) mod 128) with (m mod 128); [lia|].
        apply (N.mod_unique _ _ 1); lia.
      + apply N.div_lt_upper_bound; [lia|]. change 128 with (2 ^ 7). rewrite <- N.pow_add_r.
        replace (7 + 7 * N.of_nat (S f)) with (7 * N.of_nat (S (S f))) by lia. exact Hm. }
  apply G; [lia|]. apply N.lt_le_trans with (2 ^ 32); auto. apply pow2_le. lia.
Qed.

Lemma holds_new : holds_free dif_new [].
Proof. repeat split; constructor. Qed.

Lemma holds_push : forall e d K x, overflow_checks e = false -> holds_free d K -> x < 2 ^ 32 ->
  exists d', dif_push e d x = Ret d' /\ holds_free d' (K ++ [x]).
Proof.
  intros e d K x Ck (F & Bf & C & La) Hx. unfold dif_push. rewrite Ck.
  assert (Hl : d_last d < 2 ^ 32).
  { rewrite La. unfold last_of. destruct K as [|y K]; [reflexivity|].
    assert (In (last (y :: K) 0) (y :: K)) as Hin.
    { clear. revert y. induction K as [|z K IH]; intros y; [now left|]. right. apply IH. }
    rewrite Forall_forall in F. exact (F _ Hin). }
  assert (U : usub false 32 x (d_last d) = Ret ((x + 2 ^ 32 - d_last d) mod 2 ^ 32)).
  { unfold usub. destruct (N.leb_spec (d_last d) x) as [L|L].
    - f_equal. apply (N.mod_unique _ _ 1); lia.
    - f_equal. symmetry. apply N.mod_small. lia. }
  rewrite U, bind_ret, varint_push_ok by (apply N.mod_lt, pow2_nz). rewrite bind_ret. eexists. split; [reflexivity|].
  unfold holds_free. cbn [d_buf d_count d_last]. split; [apply Forall_app; auto|]. split; [|split].
  - rewrite steps_app, map_app, concat_app, Bf. cbn [steps map concat]. rewrite app_nil_r.
    replace (last K 0) with (d_last d) by (exact La). reflexivity.
  - rewrite C, app_length. simpl. lia.
  - unfold last_of. now rewrite last_last.
Qed.

Lemma holds_bytes : forall d K, holds_free d K -> Forall byte (d_buf d).
Proof.
  intros d K (_ & -> & _). pose proof (steps_lt K 0) as F. induction F as [|x l Hx F IH]; cbn [map concat]; [constructor|].
  apply Forall_app. split; [|exact IH]. apply (venc_number x Hx).
Qed.

Lemma holds_reads : forall d K, holds_free d K -> reads_free (d_buf d) K.
Proof.
  intros d K (F & -> & _). exists (map venc (steps 0 K)). split; [reflexivity|]. split.
  - apply Forall_forall. intros n Hn. apply in_map_iff in Hn. destruct Hn as (x & <- & Hx).
    apply venc_number. pose proof (steps_lt K 0) as Q. rewrite Forall_forall in Q. auto.
  - assert (G : forall K b, b < 2 ^ 32 -> Forall (fun x => x < 2 ^ 32) K ->
      K = map (fun x => x mod 2 ^ 32) (sums b (map (unchecked 0) (map venc (steps b K))))).
    { clear. induction K as [|x K IH]; intros b Hb F; cbn [steps map sums]; [reflexivity|]. inv F.
      rewrite venc_read by (apply N.mod_lt, pow2_nz).
      assert (Q : (b + (x + 2 ^ 32 - b) mod 2 ^ 32) mod 2 ^ 32 = x).
      { rewrite N.add_mod_idemp_r by apply pow2_nz. replace (b + (x + 2 ^ 32 - b)) with (x + 1 * 2 ^ 32) by lia.
        rewrite N.mod_add by apply pow2_nz. now apply N.mod_small. }
      rewrite Q. f_equal. rewrite <- sums_mod, Q. now apply IH. }
    apply G; [reflexivity|exact F].
Qed.

Lemma holds_len : forall d K, holds_free d K -> dif_len d = step_len 0 K.
Proof.
  intros d K (_ & E & _). unfold dif_len. rewrite len_length, E. generalize 0. clear. induction K as [|x K IH]; intros b; cbn [steps map concat step_len].
  - reflexivity.
  - rewrite app_length, Nat2N.inj_add, venc_length by (apply N.mod_lt, pow2_nz). now rewrite IH.
Qed.

(** ** Flushing *)
Lemma merge_free : forall fuel e A B L bo bit out, overflow_checks e = false -> (length A + length B < fuel)%nat ->
  Forall (fun x => x < 2 ^ 32) A -> ahead e bo bit B true -> holds_free out L ->
  exists out' K, merge_loop fuel e (fst (set_next A)) (snd (set_next A)) bo bit out = Ret out' /\
    holds_free out' (L ++ K) /\ merged A B K.
Proof.
  induction fuel as [|fuel IH]; intros e A B L bo bit out Ck Hf FA HB Ho; [lia|].
  assert (NEXT : forall A' B' x, (length A' + length B' < fuel)%nat -> Forall (fun x => x < 2 ^ 32) A' ->
    x < 2 ^ 32 -> stream e bit B' true ->
    exists out' K, (let* out' := dif_push e out x in
       let* (bo', bit') := dif_next e bit in
       merge_loop fuel e (fst (set_next A')) (snd (set_next A')) bo' bit' out') = Ret out' /\
      holds_free out' (L ++ x :: K) /\ merged A' B' K).
  { intros A' B' x Hl FA' Lx HB'. destruct (holds_push e out L x Ck Ho Lx) as (out1 & -> & Ho1). rewrite bind_ret.
    destruct (ahead_next e bit B' true HB') as [(_ & _ & K)|(o & it' & E & HA)]; [discriminate|]. rewrite E, bind_ret.
    destruct (IH e A' B' (L ++ [x]) o it' out1 Ck Hl FA' HA Ho1) as (out' & K & E' & R & P). exists out', K. rewrite E'.
    split; [reflexivity|]. now rewrite <- app_assoc in R. }
  assert (STEP : forall A' B' x, (length A' + length B' < fuel)%nat -> Forall (fun x => x < 2 ^ 32) A' ->
    x < 2 ^ 32 -> ahead e bo bit B' true ->
    exists out' K, (let* out' := dif_push e out x in
       merge_loop fuel e (fst (set_next A')) (snd (set_next A')) bo bit out') = Ret out' /\
      holds_free out' (L ++ x :: K) /\ merged A' B' K).
  { intros A' B' x Hl FA' Lx HB'. destruct (holds_push e out L x Ck Ho Lx) as (out1 & -> & Ho1). rewrite bind_ret.
    destruct (IH e A' B' (L ++ [x]) bo bit out1 Ck Hl FA' HB' Ho1) as (out' & K & E' & R & P). exists out', K. rewrite E'.
    split; [reflexivity|]. now rewrite <- app_assoc in R. }
  assert (ML : forall K B, merged [] B K -> K = B) by (intros K B0 Q; inversion Q; reflexivity).
  assert (MR : forall K A, merged A [] K -> K = A) by (intros K A0 Q; inversion Q; reflexivity).
  destruct bo as [b|].
  - destruct HB as (Lb & B' & -> & SB). simpl in Hf.
    destruct A as [|a A]; cbn [merge_loop set_next fst snd].
    + destruct (NEXT [] B' b) as (out' & K & E & R & P); auto; [simpl; lia|]. exists out', (b :: K). split; [exact E|].
      split; [exact R|]. apply ML in P. subst K. constructor.
    + inv FA. simpl in Hf. rewrite (surjective_pairing (set_next A)).
      destruct (N.eqb_spec a b) as [->|Hne].
      * destruct (NEXT A B' b) as (out' & K & E & R & P); auto; [lia|]. exists out', (b :: K). split; [exact E|].
        split; [exact R|]. now constructor.
      * destruct (N.ltb_spec b a) as [Q|Q].
        -- destruct (NEXT (a :: A) B' b) as (out' & K & E & R & P); auto; [simpl; lia|]. exists out', (b :: K). split; [exact E|].
           split; [exact R|]. now constructor.
        -- destruct (STEP A (b :: B') a) as (out' & K & E & R & P); auto; [simpl; lia|split; auto; eauto|].
           exists out', (a :: K). split; [exact E|]. split; [exact R|]. constructor; [lia|exact P].
  - destruct HB as [-> _]. simpl in Hf. destruct A as [|a A]; cbn [merge_loop set_next fst snd].
    + exists out, []. rewrite app_nil_r. split; [reflexivity|]. split; [exact Ho|constructor].
    + inv FA. simpl in Hf. rewrite (surjective_pairing (set_next A)).
      destruct (STEP A [] a) as (out' & K & E & R & P); auto; [simpl; lia|split; auto|]. exists out', (a :: K). split; [exact E|].
      split; [exact R|]. apply MR in P. subst K. constructor.
Qed.

Lemma merged_unique : forall A B K K', merged A B K -> merged A B K' -> K = K'.
Proof.
  intros A B K K' H. revert K'. induction H; intros K' Q; inversion Q; subst; auto; try lia; f_equal; auto.
Qed.

Lemma merges_unique : forall T L K K', merges_to T L K -> merges_to T L K' -> K = K'.
Proof.
  intros T L K K' (A & P & S & Q) (A' & P' & S' & Q').
  assert (A = A').
  { assert (G : forall A A', StronglySorted N.lt A -> StronglySorted N.lt A' -> Permutation A A' -> A = A').
    { clear. induction A as [|a A IH]; intros [|a' A'] S S' P.
      - reflexivity.
      - apply Permutation_length in P. discriminate.
      - apply Permutation_length in P. discriminate.
      - inv S. inv S'. rewrite Forall_forall in *.
        assert (a = a').
        { assert (I : In a (a' :: A')) by (eapply Permutation_in; [exact P|now left]).
          assert (I' : In a' (a :: A)) by (eapply Permutation_in; [symmetry; exact P|now left]).
          destruct I as [I|I]; [congruence|]. destruct I' as [I'|I']; [congruence|]. specialize (H2 _ I'). specialize (H4 _ I). lia. }
        subst a'. f_equal. apply IH; auto. eapply Permutation_cons_inv; eauto. }
    apply G; auto. rewrite P, P'. reflexivity. }
  subst A'. eapply merged_unique; eauto.
Qed.

Lemma merged_in : forall A B K, merged A B K -> forall c, In c K <-> In c A \/ In c B.
Proof. intros A B K H. induction H; intros c; simpl in *; rewrite ?IHmerged; simpl; tauto. Qed.

Lemma merges_in : forall T L K, merges_to T L K -> forall c, In c K <-> In c T \/ In c L.
Proof.
  intros T L K (A & P & _ & Q) c. rewrite (merged_in _ _ _ Q). split; (intros [H|H]; [left|now right]); (eapply Permutation_in; [|exact H]); [exact P|now symmetry].
Qed.

Lemma flush_free_codes : forall e ord T d L, overflow_checks e = false -> is_order ord -> NoDup T -> Forall (fun x => x < 2 ^ 32) T ->
  Forall byte (d_buf d) -> reads_free (d_buf d) L ->
  exists d' K, merge_codes e ord T d = Ret d' /\ holds_free d' K /\ merges_to T L K.
Proof.
  intros e ord T d L Ck Ho ND FT B R. unfold merge_codes.
  rewrite (surjective_pairing (set_next (sort (ord T)))).
  pose proof (free_stream e d L Ck B R) as SL. pose proof (free_length _ _ R) as LL.
  assert (P : Permutation (sort (ord T)) T) by (eapply Permutation_trans; [apply sort_perm|apply Ho]).
  destruct (ahead_next e _ L true SL) as [(_ & _ & Q)|(o & it' & E' & HA)]; [discriminate|].
  rewrite E', bind_ret.
  destruct (merge_free (S (length (sort (ord T)) + length (d_buf d))) e (sort (ord T)) L [] o it' dif_new)
    as (out' & K & EM & RM & PM); auto.
  - lia.
  - rewrite Forall_forall in *. intros x Hx. apply FT. eapply Permutation_in; eauto.
  - apply holds_new.
  - exists out', K. split; [exact EM|]. split; [exact RM|]. exists (sort (ord T)). split; [exact P|]. split; [|exact PM].
    apply sort_strong. apply (Permutation_NoDup (l := T)); auto. symmetry. apply Ho.
Qed.

Lemma with_count_free : forall e m, overflow_checks e = false -> 32 <= usize_bits e ->
  exists r, with_count e SIZE_PLUS m = Ret r /\ slots 6 (r_buf r) = slots_free (usize_bits e) m /\ r_count r = m /\ words_ok r.
Proof.
  intros e m Ck Hu. unfold with_count, ceil. change (count_per_word SIZE_PLUS) with 5. rewrite Ck.
  pose proof (u32_le e Hu) as W. set (w := usize_bits e) in *.
  assert (A : uadd false w m 5 = Ret ((m + 5) mod 2 ^ w)).
  { unfold uadd. destruct (N.ltb_spec (m + 5) (2 ^ w)); [now rewrite N.mod_small|reflexivity]. }
  rewrite A, bind_ret.
  assert (B : usub false w ((m + 5) mod 2 ^ w) 1 = Ret ((m + 4) mod 2 ^ w)).
  { assert (Z : 2 ^ w <> 0) by lia. pose proof (N.div_mod (m + 4) _ Z) as D. pose proof (N.mod_lt (m + 4) _ Z) as R.
    set (q := (m + 4) / 2 ^ w) in *. set (r := (m + 4) mod 2 ^ w) in *. clearbody q r.
    destruct (N.eq_dec (r + 1) (2 ^ w)) as [Q|Q].
    - assert (M : (m + 5) mod 2 ^ w = 0) by (symmetry; apply (N.mod_unique _ _ (q + 1)); [lia|nia]).
      rewrite M. unfold usub. change (1 <=? 0) with false. cbv iota. f_equal. lia.
    - assert (M : (m + 5) mod 2 ^ w = r + 1) by (symmetry; apply (N.mod_unique _ _ q); [lia|nia]).
      rewrite M, usub_ok by lia. f_equal. lia. }
  rewrite B, !bind_ret. eexists. split; [reflexivity|]. cbn [r_buf r_count]. split; [|split; [reflexivity|]].
  - unfold slots, slots_free. now rewrite repeat_length, N2Nat.id.
  - unfold words_ok. cbn [r_buf]. apply Forall_forall. intros x Hx. apply repeat_spec in Hx. subst x. reflexivity.
Qed.

Lemma absorb_fuel : forall e p r c, absorb_code e p r c <> OutOfFuel.
Proof.
  intros e p r c. pose proof (never_fuel e p [c] r) as H. cbn [for_each] in H. intros Q. apply H. now rewrite Q.
Qed.

Lemma convert_any : forall (V : Type) e (s : plus V) K, 32 <= usize_bits e -> overflow_checks e = false ->
  hp_precision s < 256 -> Forall byte (d_buf (hp_sparse s)) -> reads_free (d_buf (hp_sparse s)) K ->
  let n := slots_free (usize_bits e) (hp_counts0 s) in
  let bad := codes_out (hp_precision s) n K in
  (sparse_to_normal e s = Panic /\ bad) \/
  (~ bad /\ exists s' r, sparse_to_normal e s = Ret s' /\ hp_registers s' = Some r /\ r_count r = hp_counts0 s /\
     hp_precision s' = hp_precision s /\ hp_counts0 s' = hp_counts0 s /\ slots 6 (r_buf r) = n).
Proof.
  intros V e s K Hu Ck Hp B R n bad. unfold bad, sparse_to_normal.
  destruct (with_count_free e (hp_counts0 s) Ck Hu) as (r0 & -> & SL & CT & _). rewrite bind_ret, (free_for _ e _ K _ _ Ck B R).
  destruct (write_free e (hp_precision s) K r0 Hu Ck Hp (free_lt _ _ R)) as [[-> Q]|(Q & r' & -> & L' & C')]; rewrite SL in Q; fold n in Q.
  - left. auto.
  - right. split; [exact Q|]. rewrite bind_ret. eexists. exists r'. split; [reflexivity|]. repeat split; auto; [congruence|].
    unfold n. rewrite <- SL. unfold slots. now rewrite L'.
Qed.

Lemma flush_any : forall (V : Type) e ord (s : plus V), 32 <= usize_bits e -> is_order ord ->
  overflow_checks e = false -> in_range s ->
  let v := d_buf (hp_sparse s) in let n := slots_free (usize_bits e) (hp_counts0 s) in
  let bad := flush_breaks (usize_bits e) (hp_precision s) (hp_counts0 s) (hp_counts2 s) (hp_tmpset s) v in
  (merge_sparse e ord s = Panic /\ bad) \/
  (~ bad /\ exists s' L K, merge_sparse e ord s = Ret s' /\ reads_free v L /\ merges_to (hp_tmpset s) L K /\
     hp_precision s' = hp_precision s /\ hp_counts0 s' = hp_counts0 s /\ hp_counts1 s' = hp_counts1 s /\
     (step_len 0 K <= hp_counts2 s /\ hp_registers s' = hp_registers s /\ holds_free (hp_sparse s') K \/
      hp_counts2 s < step_len 0 K /\ exists r, hp_registers s' = Some r /\ r_count r = hp_counts0 s /\ slots 6 (r_buf r) = n)).
Proof.
  intros V e ord s Hu Ho Ck (Hp & ND & FT & B) v n bad. unfold bad, flush_breaks. rewrite merge_sparse_codes. fold v in B |- *.
  destruct (free_or_open v) as [U|(NU & L & R)].
  { left. split; [|now left]. rewrite merge_codes_bad; auto. now left. }
  destruct (flush_free_codes e ord _ _ L Ck Ho ND FT B R) as (d' & K & -> & HF & MT). rewrite bind_ret. cbv zeta.
  assert (UQ : forall P : Prop, (exists L' K', reads_free v L' /\ merges_to (hp_tmpset s) L' K' /\ hp_counts2 s < step_len 0 K' /\
      codes_out (hp_precision s) n K') -> (hp_counts2 s < step_len 0 K -> codes_out (hp_precision s) n K -> P) -> P).
  { intros P (L' & K' & R' & M' & G' & C') QP. assert (L' = L) by (eapply free_unique; eauto). subst L'.
    assert (K' = K) by (eapply merges_unique; eauto). subst K'. auto. }
  cbn [hp_counts2 set_tmpset set_sparse hp_sparse]. rewrite (holds_len d' K HF).
  destruct (N.ltb_spec (hp_counts2 s) (step_len 0 K)) as [G|G].
  - destruct (convert_any V e (set_tmpset (set_sparse s d') []) K Hu Ck Hp (holds_bytes _ _ HF) (holds_reads _ _ HF)) as [[E Q]|(Q & s' & r & E & A1 & A2 & A3 & A4 & A5)].
    + left. split; [exact E|]. right. exists L, K. auto.
    + right. split; [intros [Z|Z]; [contradiction|]; apply (UQ False Z); auto|]. exists s', L, K. rewrite E.
      assert (X : hp_counts1 s' = hp_counts1 s).
      { unfold sparse_to_normal in E. destruct (with_count _ _ _); [|discriminate..]. rewrite bind_ret in E.
        destruct (dif_for _ _ _ _); [|discriminate..]. rewrite bind_ret in E. injection E as <-. reflexivity. }
      split; [reflexivity|]. split; [exact R|]. split; [exact MT|]. split; [exact A3|]. split; [exact A4|]. split; [exact X|].
      right. split; [exact G|]. exists r. auto.
  - right. split; [intros [Z|Z]; [contradiction|]; apply (UQ False Z); lia|]. eexists. exists L, K. split; [reflexivity|].
    split; [exact R|]. split; [exact MT|]. do 3 (split; [reflexivity|]). left. auto.
Qed.
