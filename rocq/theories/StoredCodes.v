(** * Codes read back from storage *)
From Coq Require Import NArith ZArith Arith List Bool Lia Permutation Sorted.
From Verif Require Import ModelRust ModelF64 ModelEnv ModelRegisters ModelEncoding ModelCommon ModelPF ModelPlus ModelSerde
  Spec SpecBuild SpecSketch SpecBytes SpecStored
  BitFacts RegFacts EncFacts CodeFacts MergeFacts RawFacts PlusInv CountFacts ClaimRefute DecodeFacts DecodeState UntidyFacts
  StoredFacts.
Import ListNotations.
Local Open Scope N_scope.

(** ** Reading *)
Lemma long_number : forall n, is_number n -> (5 < length n)%nat -> exists l w, n = l ++ w /\ length l = 5%nat /\
  Forall (fun b => 128 <= b) l.
Proof.
  intros n (c & t & -> & F & Ht) L. rewrite app_length in L. simpl in L.
  exists (firstn 5 c), (skipn 5 c ++ [t]). rewrite app_assoc, firstn_skipn. split; [reflexivity|].
  split; [rewrite firstn_length; lia|]. rewrite <- (firstn_skipn 5 c) in F. now apply Forall_app in F.
Qed.

Lemma readable : forall v, unreadable true v \/ exists L, reads_as v L.
Proof.
  intros v. destruct (split_numbers v) as (ns & w & E & F & G).
  destruct w as [|b w] using rev_ind.
  2:{ left. left. exists (concat ns ++ w), b. split; [rewrite E; now rewrite app_assoc|].
      apply Forall_app in G. destruct G as [_ G]. now inversion G. }
  clear G. rewrite app_nil_r in E.
  assert (S : Forall (fun n => (length n <= 5)%nat) ns \/ exists n, In n ns /\ (5 < length n)%nat).
  { clear E F. induction ns as [|n ns IH]; [left; constructor|].
    destruct (le_gt_dec (length n) 5) as [L|L]; [|right; exists n; split; [now left|lia]].
    destruct IH as [IH|(x & A & B)]; [left; now constructor|right; exists x; split; [now right|exact B]]. }
  destruct S as [S|(n & I & L)].
  - destruct (N.lt_ge_cases (total (map read32 ns)) (2 ^ 32)) as [T|T].
    + right. eexists. exists ns. repeat split; auto.
    + left. right. split; [reflexivity|]. right. exists ns. auto.
  - left. right. split; [reflexivity|]. left. rewrite Forall_forall in F.
    destruct (long_number n (F n I) L) as (l & w & -> & A & B).
    apply in_split in I. destruct I as (n1 & n2 & ->). exists (concat n1), l, (w ++ concat n2).
    split; [|auto]. rewrite E, concat_app. cbn [concat]. now rewrite <- !app_assoc.
Qed.

Lemma stream_for : forall (S : Type) e it L ok (body : S -> N -> M S), stream e it L ok ->
  forall fuel s, (length L < fuel)%nat ->
  dif_for_loop fuel e it body s =
  let* s' := for_each L body s in if ok then Ret s' else Panic.
Proof.
  intros S e it L ok body H. induction H as [it it' E|it E|it it' x L ok E Lx H IH];
    intros [|fuel] s Hf; simpl in Hf; try lia; cbn [dif_for_loop for_each]; rewrite E; cbn [bind]; auto.
  destruct (body s x) as [s1| |]; cbn [bind]; auto. apply IH. lia.
Qed.

Lemma for_stored : forall (S : Type) e d L (body : S -> N -> M S) s, Forall byte (d_buf d) ->
  reads_as (d_buf d) L -> dif_for e d body s = for_each L body s.
Proof.
  intros S e d L body s B (ns & E & F & L5 & TT & ->). unfold dif_for.
  destruct (stream_bytes e d B) as (L & ok & SL & LL & _ & V).
  destruct (V ns E F L5 (or_intror TT)) as [EL ->]. rewrite sums_small in EL by exact TT. subst L.
  rewrite (stream_for _ e _ _ _ body SL) by lia. destruct (for_each _ body s); reflexivity.
Qed.

Lemma holds_lt : forall v L, reads_as v L -> Forall (fun x => x < 2 ^ 32) L.
Proof.
  intros v L (ns & _ & _ & _ & TT & ->).
  assert (G : forall l b, b + total l < 2 ^ 32 -> Forall (fun x => x < 2 ^ 32) (sums b l)).
  { induction l as [|x l IH]; intros b H; cbn [sums]; constructor; rewrite total_cons in H; [lia|]. apply IH. lia. }
  now apply G.
Qed.

Lemma never_fuel : forall e p K r, for_each K (absorb_code e p) r <> OutOfFuel.
Proof.
  assert (NB : forall (A B : Type) (m : M A) (k : A -> M B), m <> OutOfFuel -> (forall a, k a <> OutOfFuel) -> bind m k <> OutOfFuel).
  { intros A B [a| |] k H1 H2; cbn [bind]; auto; congruence. }
  intros e p K. induction K as [|c K IH]; intros r; cbn [for_each]; [discriminate|].
  apply NB; [|intros; apply IH]. unfold absorb_code, decode_hash, code_index, extract, uadd, usub, ushl, ushr, set_greater, index.
  repeat match goal with
  | |- bind _ _ <> _ => apply NB; [|intros]
  | |- (if ?b then _ else _) <> _ => destruct b
  | |- (let (_, _) := ?x in _) <> _ => destruct x
  | |- match ?x with _ => _ end <> _ => destruct x
  | |- _ => discriminate
  | |- _ => progress (unfold uadd, usub, ushl, ushr, set_greater, index; cbv zeta)
  end.
Qed.

(** ** Writing codes into registers, with checks *)
Lemma write_codes : forall e p K r start, 32 <= usize_bits e -> overflow_checks e = true -> p < 256 ->
  Forall (fun x => x < 2 ^ 32) K -> words_ok r ->
  (forall i, (reg_at 6 (r_buf r) i =? 0) = start i \/ slots 6 (r_buf r) <= i) ->
  let bad := codes_fail start p (slots 6 (r_buf r)) (r_zeros r) K in
  (for_each K (absorb_code e p) r = Panic /\ bad) \/
  (~ bad /\ exists r', for_each K (absorb_code e p) r = Ret r' /\ words_ok r' /\
     length (r_buf r') = length (r_buf r) /\ r_count r' = r_count r /\
     r_zeros r' + zeros_taken start p [] K = r_zeros r /\
     (forall i, (reg_at 6 (r_buf r') i =? 0) = zero_now start p i (rev K) \/ slots 6 (r_buf r) <= i)).
Proof.
  intros e p K r start Hu Ck Hp F W Z bad. unfold bad, codes_fail.
  assert (D : p = 0 \/ 25 < p \/ 1 <= p <= 25) by lia.
  assert (D' : p = 0 \/ 25 < p \/ 1 <= p <= 25) by lia.
  destruct K as [|c K].
  { right. split; [intros [[Q _]|[_ [(c & [] & _)|Q]]]; [now apply Q|simpl in Q; lia]|].
    exists r. cbn [for_each zeros_taken rev zero_now]. repeat split; auto. lia. }
  destruct (N.le_gt_cases p 25) as [L|L]; [destruct (N.eq_dec p 0) as [P0|P0]|].
  - left. split; [|left; split; [discriminate|lia]]. apply absorbs_stuck; auto. discriminate.
  - destruct (absorbs_checked e p start (c :: K) [] r Hu Ck ltac:(lia) F W Z) as [[E B]|(B & r' & E & W' & L' & C' & Z' & I')].
    + left. split; [exact E|]. right. split; [lia|exact B].
    + right. split; [intros [[_ Q]|[_ Q]]; [lia|now apply B]|]. exists r'. rewrite app_nil_r in I'. repeat split; auto.
  - left. split; [|left; split; [discriminate|lia]]. apply absorbs_stuck; auto. discriminate.
Qed.

(** Fresh registers. *)
Lemma fresh_regs : forall e m, overflow_checks e = true ->
  (2 ^ usize_bits e <= m + 5 /\ with_count e 6 m = Panic) \/
  (m + 5 < 2 ^ usize_bits e /\ exists r, with_count e 6 m = Ret r /\ words_ok r /\ slots 6 (r_buf r) = slots_for m /\
     r_count r = m /\ r_zeros r = m /\ forall i, reg_at 6 (r_buf r) i = 0).
Proof.
  intros e m Ck. unfold with_count, ceil. change (count_per_word 6) with 5.
  destruct (N.le_gt_cases (2 ^ usize_bits e) (m + 5)) as [L|L].
  - left. split; [exact L|]. unfold uadd. replace (m + 5 <? 2 ^ usize_bits e) with false by (symmetry; now apply N.ltb_ge).
    now rewrite Ck.
  - right. split; [exact L|]. rewrite uadd_ok by exact L. rewrite bind_ret, usub_ok by lia. rewrite !bind_ret.
    eexists. split; [reflexivity|]. cbn [r_buf r_count r_zeros].
    split; [apply Forall_forall; intros x Hx; apply repeat_spec in Hx; subst x; reflexivity|].
    split; [unfold slots, slots_for; rewrite repeat_length, N2Nat.id; change (32 / 6) with 5; do 2 f_equal; lia|].
    repeat split. intros i. unfold reg_at. rewrite repeat_nth_0. rewrite N.div_0_l by apply pow2_nz. reflexivity.
Qed.

(** The conversion. *)
Lemma convert_stored : forall (V : Type) e (s : plus V) K, 32 <= usize_bits e -> overflow_checks e = true ->
  hp_precision s < 256 -> dif_repr (hp_sparse s) K ->
  let p := hp_precision s in let m := hp_counts0 s in
  let bad := conversion_fails (usize_bits e) p m K in
  (sparse_to_normal e s = Panic /\ bad) \/
  (~ bad /\ exists s' r, sparse_to_normal e s = Ret s' /\ hp_registers s' = Some r /\
     hp_precision s' = p /\ hp_counts0 s' = m /\ hp_builder s' = hp_builder s /\ words_ok r /\ r_count r = m /\
     slots 6 (r_buf r) = slots_for m /\ r_zeros r + zeros_taken all_zero p [] K = m /\
     (forall i, (reg_at 6 (r_buf r) i =? 0) = zero_now all_zero p i (rev K) \/ slots_for m <= i)).
Proof.
  intros V e s K Hu Ck Hp R p m bad. unfold bad, conversion_fails, sparse_to_normal. change SIZE_PLUS with 6. fold p m.
  destruct (fresh_regs e m Ck) as [[A ->]|(A & r0 & -> & W & SL & C & Z & F0)]; [left; split; [reflexivity|now left]|].
  rewrite bind_ret, (dif_for_ok _ e _ K _ _ R).
  destruct (write_codes e p K r0 all_zero Hu Ck Hp) as [[-> B]|(B & r' & -> & W' & L' & C' & Z' & I')]; auto.
  - apply R.
  - intros i. left. now rewrite F0.
  - left. split; [reflexivity|]. right. rewrite SL, Z in B. exact B.
  - right. rewrite SL, Z in *. split; [intros [Q|Q]; [lia|contradiction]|].
    rewrite bind_ret. eexists. exists r'. split; [reflexivity|]. repeat split; auto.
    + congruence.
    + rewrite <- SL. unfold slots. now rewrite L'.
Qed.

(** Flushing. *)
Lemma flush_codes : forall e ord T d L, is_order ord -> NoDup T -> Forall (fun x => x < 2 ^ 32) T ->
  Forall byte (d_buf d) -> reads_as (d_buf d) L ->
  exists d' K, merge_codes e ord T d = Ret d' /\ dif_repr d' K /\ flushes_to T L K.
Proof.
  intros e ord T d L Ho ND FT B (ns & E & F & L5 & TT & ->).
  destruct (merge_codes_good e ord T d ns Ho ND FT B E F L5 TT) as (d' & K & E' & R & P).
  exists d', K. split; [exact E'|]. split; [exact R|]. split; [|exact P].
  destruct R as (A & _). exact (proj1 (ascending_nondecreasing K 0 A)).
Qed.

Lemma flushes_unique : forall T L K K', flushes_to T L K -> flushes_to T L K' -> K = K'.
Proof. intros T L K K' [A B] [C D]. apply nondecreasing_unique; auto. rewrite B, D. reflexivity. Qed.

Lemma holds_readable : forall e d L, overflow_checks e = true -> Forall byte (d_buf d) ->
  reads_as (d_buf d) L -> ~ unreadable true (d_buf d).
Proof.
  intros e d L Ck B (ns & E & F & L5 & TT & _). destruct (stream_bytes e d B) as (L' & ok & _ & _ & K & V).
  destruct (V ns E F L5 (or_intror TT)) as [_ ->]. rewrite Ck in K. intros Q. apply K in Q. discriminate.
Qed.

(** A sketch without registers whose fields are in range. *)
Definition in_range {V : Type} (s : plus V) : Prop :=
  hp_precision s < 256 /\ NoDup (hp_tmpset s) /\ Forall (fun x => x < 2 ^ 32) (hp_tmpset s) /\
  Forall byte (d_buf (hp_sparse s)).

Lemma holds_unique : forall v L L', Forall byte v -> reads_as v L -> reads_as v L' -> L = L'.
Proof.
  intros v L L' B H H'. set (d := {| d_count := 0; d_last := 0; d_buf := v |}).
  pose (e := ModelTests.test_env).
  pose proof (for_stored _ e d L (fun (s : list N) c => Ret (s ++ [c])) [] B H) as A.
  pose proof (for_stored _ e d L' (fun (s : list N) c => Ret (s ++ [c])) [] B H') as A'.
  assert (G : forall L s, for_each L (fun (s : list N) c => Ret (s ++ [c])) s = Ret (s ++ L)).
  { induction L0 as [|x L0 IH]; intros s; cbn [for_each]; [now rewrite app_nil_r|]. rewrite bind_ret, IH, <- app_assoc. reflexivity. }
  rewrite G in A, A'. rewrite A in A'. now injection A'.
Qed.

Lemma merge_sparse_stored : forall (V : Type) e ord (s : plus V), 32 <= usize_bits e -> is_order ord ->
  overflow_checks e = true -> in_range s ->
  let p := hp_precision s in let m := hp_counts0 s in
  let bad := flush_fails (usize_bits e) p m (hp_counts2 s) (hp_tmpset s) (d_buf (hp_sparse s)) in
  (merge_sparse e ord s = Panic /\ bad) \/
  (~ bad /\ exists s' L K, merge_sparse e ord s = Ret s' /\ reads_as (d_buf (hp_sparse s)) L /\
     flushes_to (hp_tmpset s) L K /\ hp_builder s' = hp_builder s /\ hp_precision s' = p /\ hp_counts0 s' = m /\
     hp_counts1 s' = hp_counts1 s /\ hp_counts2 s' = hp_counts2 s /\ hp_tmpset s' = [] /\
     (gap_len 0 K <= hp_counts2 s /\ hp_registers s' = hp_registers s /\ dif_repr (hp_sparse s') K \/
      hp_counts2 s < gap_len 0 K /\ exists r, hp_registers s' = Some r /\ words_ok r /\ r_count r = m /\
        slots 6 (r_buf r) = slots_for m /\ r_zeros r + zeros_taken all_zero p [] K = m /\
        (forall i, (reg_at 6 (r_buf r) i =? 0) = zero_now all_zero p i (rev K) \/ slots_for m <= i))).
Proof.
  intros V e ord s Hu Ho Ck (Hp & ND & FT & B) p m bad. unfold bad, flush_fails. rewrite merge_sparse_codes.
  destruct (readable (d_buf (hp_sparse s))) as [U|[L H]].
  { left. split; [|now left]. rewrite merge_codes_bad; auto. now rewrite Ck. }
  destruct (flush_codes e ord _ _ L Ho ND FT B H) as (d' & K & -> & R & FL). rewrite bind_ret. cbv zeta.
  cbn [hp_counts2 set_tmpset set_sparse hp_sparse]. rewrite (dif_repr_len d' K R).
  destruct (N.ltb_spec (hp_counts2 s) (gap_len 0 K)) as [G|G].
  - destruct (convert_stored V e (set_tmpset (set_sparse s d') []) K Hu Ck Hp R) as [[E Q]|(Q & s' & r & E & A1 & A2 & A3 & A4 & A5 & A6 & A7 & A8 & A9)].
    + left. split; [exact E|]. right. exists L, K. auto.
    + right. split.
      { intros [Q'|(L' & K' & H' & FL' & G' & C')]; [now apply (holds_readable e (hp_sparse s) L Ck B H)|].
        assert (L' = L) by (eapply holds_unique; eauto). subst L'.
        assert (K' = K) by (eapply flushes_unique; eauto). subst K'. contradiction. }
      exists s', L, K. rewrite E. split; [reflexivity|].
      assert (X : hp_counts1 s' = hp_counts1 s /\ hp_counts2 s' = hp_counts2 s /\ hp_tmpset s' = []).
      { unfold sparse_to_normal in E. destruct (with_count _ _ _); [|discriminate..]. rewrite bind_ret in E.
        destruct (dif_for _ _ _ _); [|discriminate..]. rewrite bind_ret in E. injection E as <-. repeat split. }
      destruct X as (X1 & X2 & X3). repeat split; auto; try apply FL. right. split; [exact G|]. exists r. repeat split; auto.
  - right. split.
    { intros [Q'|(L' & K' & H' & FL' & G' & C')]; [now apply (holds_readable e (hp_sparse s) L Ck B H)|].
      assert (L' = L) by (eapply holds_unique; eauto). subst L'.
      assert (K' = K) by (eapply flushes_unique; eauto). subst K'. lia. }
    eexists. exists L, K. split; [reflexivity|]. split; [exact H|]. split; [exact FL|]. do 6 (split; [reflexivity|]). left. repeat split; auto; try apply R; auto.
Qed.
