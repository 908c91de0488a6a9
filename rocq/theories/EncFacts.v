(** * Varint and difference encoding round trips *)
From Coq Require Import NArith ZArith List Bool Lia Sorted.
From Verif Require Import ModelRust ModelEnv ModelEncoding Spec BitFacts.
Import ListNotations.
Local Open Scope N_scope.

(** ** Bytes of a varint *)
Fixpoint venc_f (fuel : nat) (n : N) : list N :=
  match fuel with
  | O => []
  | S f => if n <? 128 then [n] else (n mod 128 + 128) :: venc_f f (n / 128)
  end.
Definition venc (n : N) : list N := venc_f 5 n.

Lemma venc_f_more : forall f f' n, (f <= f')%nat -> (0 < f)%nat -> n < 2 ^ (7 * N.of_nat f) ->
  venc_f f' n = venc_f f n.
Proof.
  induction f as [|f IH]; intros [|f'] n Hf H0 Hn; try lia. cbn [venc_f].
  destruct (N.ltb_spec n 128) as [|Hge]; [reflexivity|]. f_equal.
  destruct f as [|f].
  - exfalso. simpl in Hn. lia.
  - apply IH; try lia. apply N.div_lt_upper_bound; [lia|].
    change 128 with (2 ^ 7). rewrite <- N.pow_add_r.
    replace (7 + 7 * N.of_nat (S f)) with (7 * N.of_nat (S (S f))) by lia. exact Hn.
Qed.

Lemma var_int_mask : forall n, n < 2 ^ 32 -> (N.land n VAR_INT_MASK =? 0) = (n <? 128).
Proof.
  intros n Hn.
  assert (E : N.land n VAR_INT_MASK = n / 128 * 128).
  { apply N.bits_inj. intro m. rewrite N.land_spec.
    change 128 with (2 ^ 7). rewrite <- N.shiftr_div_pow2.
    unfold VAR_INT_MASK, unot.
    destruct (N.lt_ge_cases m 32) as [H32|H32].
    - rewrite N.lnot_spec_low by auto.
      change SEVEN_LSB_MASK with (N.ones 7).
      destruct (N.lt_ge_cases m 7) as [H7|H7].
      + rewrite N.ones_spec_low by auto. rewrite N.mul_pow2_bits_low by auto.
        apply andb_false_r.
      + rewrite N.ones_spec_high by auto. rewrite N.mul_pow2_bits_high by auto.
        rewrite N.shiftr_spec'. replace (m - 7 + 7) with m by lia. apply andb_true_r.
    - rewrite (testbit_small n 32) by auto. rewrite andb_false_l.
      rewrite N.mul_pow2_bits_high by lia. rewrite N.shiftr_spec'.
      symmetry. apply testbit_small with 32; auto. lia. }
  rewrite E. pose proof (N.div_mod n 128 ltac:(discriminate)).
  pose proof (N.mod_lt n 128 ltac:(discriminate)).
  destruct (N.ltb_spec n 128) as [H1|H1].
  - rewrite N.div_small by auto. reflexivity.
  - apply N.eqb_neq. assert (1 <= n / 128) by (apply N.div_le_lower_bound; lia). lia.
Qed.

Lemma seven_lsb : forall n, N.land n SEVEN_LSB_MASK = n mod 128.
Proof. intros. change SEVEN_LSB_MASK with (2 ^ 7 - 1). apply land_mask. Qed.

Lemma varint_push_loop_ok : forall fuel v n, (0 < fuel)%nat -> n < 2 ^ 32 ->
  n < 2 ^ (7 * N.of_nat fuel) ->
  varint_push_loop fuel v n = Ret (v ++ venc_f fuel n).
Proof.
  induction fuel as [|f IH]; intros v n H0 Hn Hf; [lia|].
  cbn [varint_push_loop]. rewrite var_int_mask by auto. cbn [venc_f].
  pose proof (N.mod_lt n 128 ltac:(discriminate)) as Hm.
  destruct (N.ltb_spec n 128) as [Hs|Hge]; simpl negb; cbv iota.
  - rewrite seven_lsb. rewrite (N.mod_small n 128) by auto.
    unfold cast. rewrite N.mod_small; auto. change (2 ^ 8) with 256. lia.
  - rewrite seven_lsb. rewrite N.shiftr_div_pow2. change (2 ^ 7) with 128.
    destruct f as [|f]; [exfalso; simpl in Hf; lia|].
    rewrite IH; try lia.
    + rewrite <- app_assoc. do 2 f_equal. simpl app. f_equal.
      unfold cast. rewrite N.mod_small by (change (2 ^ 8) with 256; lia).
      change MSB_MASK with (1 * 2 ^ 7). rewrite N.lor_comm.
      rewrite lor_mul_add by (change (2 ^ 7) with 128; lia). change (2 ^ 7) with 128. lia.
    + apply N.div_lt_upper_bound; lia.
    + apply N.div_lt_upper_bound; [lia|]. change 128 with (2 ^ 7). rewrite <- N.pow_add_r.
      replace (7 + 7 * N.of_nat (S f)) with (7 * N.of_nat (S (S f))) by lia. exact Hf.
Qed.

Lemma size_nat_pow : forall n, n < 2 ^ N.of_nat (N.size_nat n).
Proof.
  intros [|p]; [reflexivity|]. simpl N.size_nat.
  pose proof (N.size_gt (N.pos p)) as H. simpl in H.
  replace (N.of_nat (Pos.size_nat p)) with (N.pos (Pos.size p)); auto.
  clear H. induction p; simpl Pos.size_nat; simpl Pos.size; try reflexivity; lia.
Qed.

Lemma varint_push_ok : forall v n, n < 2 ^ 32 -> varint_push v n = Ret (v ++ venc n).
Proof.
  intros v n Hn. unfold varint_push.
  assert (Hf : n < 2 ^ (7 * N.of_nat (S (N.size_nat n)))).
  { apply N.lt_le_trans with (2 ^ N.of_nat (N.size_nat n)); [apply size_nat_pow|].
    apply pow2_le. lia. }
  rewrite varint_push_loop_ok; auto; [|lia]. do 2 f_equal. unfold venc.
  destruct (Nat.le_ge_cases (S (N.size_nat n)) 5).
  - symmetry. apply venc_f_more; auto. lia.
  - apply venc_f_more; auto; [lia|].
    apply N.lt_le_trans with (2 ^ 32); auto. apply pow2_le. lia.
Qed.

(** ** Decoding *)
Lemma msb_test : forall b, b < 256 -> (N.land b MSB_MASK =? 0) = (b <? 128).
Proof.
  intros b Hb.
  assert (E : N.land b MSB_MASK = b / 128 * 128).
  { apply N.bits_inj. intro m. rewrite N.land_spec.
    change MSB_MASK with (2 ^ 7). change 128 with (2 ^ 7).
    rewrite <- N.shiftr_div_pow2. rewrite N.pow2_bits_eqb.
    destruct (N.eqb_spec 7 m) as [<-|Hn].
    - rewrite N.mul_pow2_bits_high by lia. rewrite N.shiftr_spec'. apply andb_true_r.
    - rewrite andb_false_r. destruct (N.lt_ge_cases m 7).
      + now rewrite N.mul_pow2_bits_low.
      + rewrite N.mul_pow2_bits_high by auto. rewrite N.shiftr_spec'.
        symmetry. apply testbit_small with 8; auto. lia. }
  rewrite E. pose proof (N.div_mod b 128 ltac:(discriminate)).
  pose proof (N.mod_lt b 128 ltac:(discriminate)).
  destruct (N.ltb_spec b 128) as [H1|H1].
  - rewrite N.div_small by auto. reflexivity.
  - apply N.eqb_neq. assert (1 <= b / 128) by (apply N.div_le_lower_bound; lia). lia.
Qed.

Lemma nth_error_middle : forall (A : Type) (pre : list A) x post k,
  k = N.of_nat (length pre) -> nth_error (pre ++ x :: post) (N.to_nat k) = Some x.
Proof.
  intros. subst. rewrite Nnat.Nat2N.id. rewrite nth_error_app2 by auto.
  now rewrite Nat.sub_diag.
Qed.

Lemma varint_decode_loop_ok : forall f e fuel pre done post idx i val m,
  (f <= fuel)%nat -> (0 < f)%nat -> m < 2 ^ (7 * N.of_nat f) ->
  idx = N.of_nat (length pre) -> i = N.of_nat (length done) ->
  val < 2 ^ (7 * i) -> m * 2 ^ (7 * i) + val < 2 ^ 32 -> (m <> 0 \/ i = 0) ->
  varint_decode_loop fuel e (pre ++ done ++ venc_f f m ++ post) idx i val
  = Ret (m * 2 ^ (7 * i) + val, idx + i + N.of_nat (length (venc_f f m))).
Proof.
  induction f as [|f IH]; intros e fuel pre done post idx i val m Hfu H0 Hm Hidx Hi Hv Ht Hz;
    [lia|].
  destruct fuel as [|fuel]; [lia|].
  assert (Hi7 : i * 7 < 32).
  { destruct Hz as [Hz| ->]; [|lia].
    destruct (N.lt_ge_cases (i * 7) 32) as [|Hge]; auto. exfalso.
    assert (2 ^ 32 <= 2 ^ (7 * i)) by (apply pow2_le; lia). nia. }
  cbn [venc_f]. cbn [varint_decode_loop].
  destruct (N.ltb_spec m 128) as [Hs|Hge].
  - replace (pre ++ done ++ [m] ++ post) with ((pre ++ done) ++ m :: post)
      by (now rewrite <- app_assoc).
    rewrite (index_ok _ _ _ m) by (apply nth_error_middle; rewrite app_length; lia).
    simpl bind. rewrite msb_test by lia.
    replace (m <? 128) with true by (symmetry; apply N.ltb_lt; lia). simpl negb. cbv iota.
    rewrite ushl_ok by auto. simpl bind. rewrite (N.mul_comm i 7).
    rewrite (N.mod_small (m * 2 ^ (7 * i))) by lia.
    rewrite N.lor_comm. rewrite lor_mul_add by auto. simpl length. repeat f_equal.
  - pose proof (N.div_mod m 128 ltac:(discriminate)) as Hdm.
    pose proof (N.mod_lt m 128 ltac:(discriminate)) as Hml.
    set (b := m mod 128 + 128).
    replace (pre ++ done ++ (b :: venc_f f (m / 128)) ++ post)
      with ((pre ++ done) ++ b :: venc_f f (m / 128) ++ post) by (now rewrite <- app_assoc).
    rewrite (index_ok _ _ _ b) by (apply nth_error_middle; rewrite app_length; lia).
    simpl bind. rewrite msb_test by (unfold b; lia).
    destruct (N.ltb_spec b 128) as [Hb|_]; [exfalso; unfold b in Hb; clear - Hb; generalize dependent (m mod 128); intros; lia|].
    simpl negb. cbv iota. rewrite ushl_ok by auto. simpl bind.
    rewrite seven_lsb. 
    replace (b mod 128) with (m mod 128).
    2:{ unfold b. rewrite <- (N.mul_1_l 128) at 3. rewrite N.mod_add by discriminate.
        now rewrite N.mod_mod. }
    rewrite (N.mul_comm i 7).
    assert (Hp : 2 ^ (7 * (i + 1)) = 128 * 2 ^ (7 * i)).
    { replace (7 * (i + 1)) with (7 + 7 * i) by lia. rewrite N.pow_add_r. reflexivity. }
    pose proof (pow2_pos (7 * i)) as Hpp.
    assert (Hmul : m * 2 ^ (7 * i) = m / 128 * 2 ^ (7 * (i + 1)) + m mod 128 * 2 ^ (7 * i)).
    { rewrite Hp. rewrite Hdm at 1. ring. }
    rewrite (N.mod_small (m mod 128 * 2 ^ (7 * i))) by nia.
    rewrite (N.lor_comm val). rewrite lor_mul_add by auto.
    replace ((pre ++ done) ++ b :: venc_f f (m / 128) ++ post)
      with (pre ++ (done ++ [b]) ++ venc_f f (m / 128) ++ post)
      by (now rewrite <- !app_assoc).
    destruct f as [|f]; [exfalso; simpl in Hm; lia|].
    rewrite IH; try lia.
    + simpl length. f_equal. f_equal; [rewrite Hmul; lia|lia].
    + apply N.div_lt_upper_bound; [lia|]. change 128 with (2 ^ 7). rewrite <- N.pow_add_r.
      replace (7 + 7 * N.of_nat (S f)) with (7 * N.of_nat (S (S f))) by lia. exact Hm.
    + rewrite app_length. simpl. lia.
    + rewrite Hp. nia.
Qed.

Lemma venc_f_length_pos : forall f n, (0 < f)%nat -> (1 <= length (venc_f f n))%nat.
Proof. intros [|f] n H; [lia|]. simpl. destruct (n <? 128); simpl; lia. Qed.
Lemma venc_length_pos : forall n, (1 <= length (venc n))%nat.
Proof. intros. apply venc_f_length_pos. lia. Qed.

Lemma venc_f_min : forall f n, (0 < f)%nat -> n < 2 ^ (7 * N.of_nat f) ->
  exists g, (0 < g <= f)%nat /\ venc_f f n = venc_f g n /\ n < 2 ^ (7 * N.of_nat g) /\
            length (venc_f g n) = g.
Proof.
  induction f as [|f IH]; intros n H0 Hn; [lia|]. cbn [venc_f].
  destruct (N.ltb_spec n 128) as [Hs|Hge].
  - exists 1%nat. repeat split; try lia.
    + simpl. replace (n <? 128) with true by (symmetry; apply N.ltb_lt; lia). reflexivity.
    + simpl. replace (n <? 128) with true by (symmetry; apply N.ltb_lt; lia). reflexivity.
  - destruct f as [|f]; [exfalso; simpl in Hn; lia|].
    destruct (IH (n / 128)) as (g & Hg & E & L & Len); [lia| |].
    + apply N.div_lt_upper_bound; [lia|]. change 128 with (2 ^ 7). rewrite <- N.pow_add_r.
      replace (7 + 7 * N.of_nat (S f)) with (7 * N.of_nat (S (S f))) by lia. exact Hn.
    + exists (S g). repeat split; try lia.
      * simpl venc_f at 2. replace (n <? 128) with false by (symmetry; apply N.ltb_ge; lia).
        f_equal. exact E.
      * replace (7 * N.of_nat (S g)) with (7 + 7 * N.of_nat g) by lia. rewrite N.pow_add_r.
        pose proof (N.div_mod n 128 ltac:(discriminate)).
        pose proof (N.mod_lt n 128 ltac:(discriminate)). change (2 ^ 7) with 128. nia.
      * cbn [venc_f]. replace (n <? 128) with false by (symmetry; apply N.ltb_ge; lia).
        simpl. now rewrite Len.
Qed.

Lemma varint_decode_ok : forall e pre post n idx, n < 2 ^ 32 -> idx = N.of_nat (length pre) ->
  varint_decode e (pre ++ venc n ++ post) idx = Ret (n, idx + N.of_nat (length (venc n))).
Proof.
  intros e pre post n idx Hn Hidx. unfold varint_decode, venc.
  assert (H35 : n < 2 ^ (7 * N.of_nat 5))
    by (apply N.lt_le_trans with (2 ^ 32); auto; apply pow2_le; lia).
  destruct (venc_f_min 5 n) as (g & Hg & E & L & Len); [lia|auto|]. rewrite E.
  pose proof (varint_decode_loop_ok g e (S (length (pre ++ venc_f g n ++ post))) pre [] post idx 0 0 n)
    as H. change ([] ++ venc_f g n ++ post) with (venc_f g n ++ post) in H.
  rewrite H; auto; try lia.
  - f_equal. f_equal; [|lia]. rewrite N.mul_0_r, N.pow_0_r. lia.
  - rewrite !app_length, Len. lia.
Qed.

(** Length of a varint. *)
Lemma venc_length : forall n, n < 2 ^ 32 -> N.of_nat (length (venc n)) = varint_len n.
Proof.
  assert (G : forall f n, (0 < f)%nat -> n < 2 ^ (7 * N.of_nat f) ->
              N.of_nat (length (venc_f f n)) = varint_len n).
  { induction f as [|f IH]; intros n H0 Hn; [lia|]. cbn [venc_f]. unfold varint_len.
    destruct (N.ltb_spec n 128) as [Hs|Hge].
    - destruct (N.eqb_spec n 0); [reflexivity|].
      assert (N.log2 n < 7) by (apply N.log2_lt_pow2; [lia|exact Hs]).
      rewrite N.div_small by auto. reflexivity.
    - destruct (N.eqb_spec n 0); [lia|].
      destruct f as [|f]; [exfalso; simpl in Hn; lia|].
      assert (Hd : 1 <= n / 128) by (apply N.div_le_lower_bound; lia).
      simpl length. rewrite Nnat.Nat2N.inj_succ. simpl length in IH. rewrite IH; [|lia|].
      + unfold varint_len. destruct (N.eqb_spec (n / 128) 0); [lia|].
        pose proof (N.div_mod n 128 ltac:(discriminate)) as Hdm.
        pose proof (N.mod_lt n 128 ltac:(discriminate)) as Hml.
        rewrite Hdm at 2. rewrite N.mul_comm. change 128 with (2 ^ 7) at 3.
        rewrite log2_mul_add by (auto; change (2 ^ 7) with 128; lia).
        replace (N.log2 (n / 128) + 7) with (1 * 7 + N.log2 (n / 128)) by lia.
        rewrite N.div_add_l by discriminate. lia.
      + apply N.div_lt_upper_bound; [lia|]. change 128 with (2 ^ 7). rewrite <- N.pow_add_r.
        replace (7 + 7 * N.of_nat (S f)) with (7 * N.of_nat (S (S f))) by lia. exact Hn. }
  intros n Hn. apply G; [lia|]. apply N.lt_le_trans with (2 ^ 32); auto. apply pow2_le. lia.
Qed.

Lemma varint_len_pos : forall n, 1 <= varint_len n.
Proof. intros. unfold varint_len. destruct (n =? 0); nlia. Qed.

Lemma varint_len_mono : forall a b, a <= b -> varint_len a <= varint_len b.
Proof.
  intros a b H. unfold varint_len. destruct (N.eqb_spec a 0).
  - destruct (b =? 0); nlia.
  - destruct (N.eqb_spec b 0); [lia|].
    assert (N.log2 a / 7 <= N.log2 b / 7).
    { apply N.div_le_mono; [discriminate|]. now apply N.log2_le_mono. }
    nlia.
Qed.

Lemma varint_len_add : forall a b, varint_len (a + b) <= varint_len a + varint_len b.
Proof.
  assert (G : forall a b, a <= b -> varint_len (a + b) <= varint_len b + 1).
  { intros a b H. unfold varint_len. destruct (N.eqb_spec (a + b) 0); [lia|].
    destruct (N.eqb_spec b 0); [lia|].
    assert (N.log2 (a + b) <= N.log2 b + 1).
    { apply N.le_trans with (N.log2 (2 * b)).
      - apply N.log2_le_mono. lia.
      - rewrite N.log2_double by lia. nlia. }
    assert (N.log2 (a + b) / 7 <= (N.log2 b + 1 * 7) / 7).
    { apply N.div_le_mono; [discriminate|]. nlia. }
    rewrite N.div_add in H1 by discriminate. nlia. }
  intros a b. pose proof (varint_len_pos a). pose proof (varint_len_pos b).
  destruct (N.le_ge_cases a b).
  - specialize (G a b H1). lia.
  - rewrite N.add_comm. specialize (G b a H1). lia.
Qed.

(** The encoded size grows with the set of codes. *)
Lemma gap_len_mono : forall L2 L1 last,
  StronglySorted N.lt L1 -> StronglySorted N.lt L2 -> Forall (N.le last) L2 ->
  incl L1 L2 -> gap_len last L1 <= gap_len last L2.
Proof.
  induction L2 as [|y L2 IH]; intros [|x L1] last S1 S2 F2 I; try (simpl; lia).
  - exfalso. apply (I x). now left.
  - inv S1. inv S2. inv F2. simpl.
    assert (Hin : In x (y :: L2)) by (apply I; now left).
    rewrite Forall_forall in H2, H4, H6.
    destruct Hin as [->|Hin].
    + assert (gap_len x L1 <= gap_len x L2); [|lia].
      apply IH; auto.
      * apply Forall_forall. intros z Hz. apply N.lt_le_incl. auto.
      * intros z Hz. destruct (I z) as [E|]; [now right| |assumption].
        exfalso. specialize (H2 z Hz). lia.
    + assert (Hyx : y < x) by auto.
      assert (gap_len y (x :: L1) <= gap_len y L2).
      { apply IH; auto.
        - constructor; auto. apply Forall_forall. auto.
        - apply Forall_forall. intros z Hz. apply N.lt_le_incl. auto.
        - intros z Hz. destruct (I z Hz) as [E|]; [|assumption].
          exfalso. destruct Hz as [E'|Hz]; [lia|]. specialize (H2 z Hz). lia. }
      simpl in H.
      pose proof (varint_len_add (y - last) (x - y)) as Ha.
      replace (y - last + (x - y)) with (x - last) in Ha by lia. lia.
Qed.

Lemma gap_len_length : forall L last, N.of_nat (length L) <= gap_len last L.
Proof.
  induction L as [|x L IH]; intros last; simpl; [lia|].
  specialize (IH x). pose proof (varint_len_pos (x - last)). lia.
Qed.

(** ** Difference vectors *)
Fixpoint dif_bytes (last : N) (L : list N) : list N :=
  match L with
  | [] => []
  | x :: L' => venc (x - last) ++ dif_bytes x L'
  end.

Definition last_of (L : list N) : N := last L 0.

(** [L] is non-decreasing and starts at or after [b]. *)
Fixpoint ascending (b : N) (L : list N) : Prop :=
  match L with
  | [] => True
  | x :: L' => b <= x /\ ascending x L'
  end.

(** [d] holds the list [L]. *)
Definition dif_repr (d : difintvec) (L : list N) : Prop :=
  ascending 0 L /\ Forall (fun x => x < 2 ^ 32) L /\
  d_buf d = dif_bytes 0 L /\ d_count d = N.of_nat (length L) /\ d_last d = last_of L.

Lemma dif_repr_new : dif_repr dif_new [].
Proof. repeat split; constructor. Qed.

Lemma last_cons : forall (L : list N) (x d : N), last (x :: L) d = last L x.
Proof.
  induction L as [|y L IH]; intros; [reflexivity|].
  change (last (x :: y :: L) d) with (last (y :: L) d). rewrite !IH. reflexivity.
Qed.

Lemma dif_bytes_app : forall L1 L2 b,
  dif_bytes b (L1 ++ L2) = dif_bytes b L1 ++ dif_bytes (last L1 b) L2.
Proof.
  induction L1 as [|x L1 IH]; intros L2 b; [reflexivity|].
  rewrite last_cons. simpl. rewrite IH. now rewrite app_assoc.
Qed.

Lemma ascending_snoc : forall L b x, ascending b L -> last L b <= x -> ascending b (L ++ [x]).
Proof.
  induction L as [|y L IH]; intros b x A H.
  - simpl in *. auto.
  - rewrite last_cons in H. simpl in *. destruct A. split; auto.
Qed.

Lemma dif_bytes_length : forall L b, Forall (fun x => x < 2 ^ 32) L ->
  N.of_nat (length (dif_bytes b L)) = gap_len b L.
Proof.
  induction L as [|x L IH]; intros b F; [reflexivity|]. inv F. simpl.
  rewrite app_length, Nnat.Nat2N.inj_add, IH by auto. rewrite venc_length by lia. reflexivity.
Qed.

Lemma dif_repr_len : forall d L, dif_repr d L -> dif_len d = gap_len 0 L.
Proof.
  intros d L (A & F & B & C & E). unfold dif_len, len. rewrite B. now apply dif_bytes_length.
Qed.

Lemma dif_push_ok : forall e d L x, dif_repr d L -> last_of L <= x -> x < 2 ^ 32 ->
  exists d', dif_push e d x = Ret d' /\ dif_repr d' (L ++ [x]).
Proof.
  intros e d L x (A & F & B & C & E) Hx Hlt. unfold dif_push.
  rewrite E. rewrite usub_ok by auto. simpl bind.
  rewrite varint_push_ok by lia. simpl bind.
  eexists. split; [reflexivity|]. repeat split; simpl.
  - now apply ascending_snoc.
  - apply Forall_app. split; auto.
  - rewrite dif_bytes_app. simpl. rewrite app_nil_r. now rewrite B.
  - rewrite C, app_length. simpl. lia.
  - unfold last_of. now rewrite last_last.
Qed.

Lemma dif_push_panics : forall e d x, overflow_checks e = true -> x < d_last d ->
  dif_push e d x = Panic.
Proof.
  intros e d x Hc Hx. unfold dif_push, usub. rewrite Hc.
  replace (d_last d <=? x) with false by (symmetry; apply N.leb_gt; lia). reflexivity.
Qed.

(** Iterator over [d] with [rest] still to come. *)
Definition iter_repr (it : difiter) (d : difintvec) (rest : list N) : Prop :=
  di_inner it = d /\ ascending (di_last it) rest /\ Forall (fun x => x < 2 ^ 32) rest /\
  exists pre, d_buf d = pre ++ dif_bytes (di_last it) rest /\ di_index it = N.of_nat (length pre).

Lemma iter_start : forall d L, dif_repr d L -> iter_repr (dif_into_iter d) d L.
Proof.
  intros d L (A & F & B & C & E). repeat split; auto. exists []. auto.
Qed.

Lemma dif_next_nil : forall e it d, iter_repr it d [] -> dif_next e it = Ret (None, it).
Proof.
  intros e it d (I & A & F & pre & B & X). unfold dif_next. rewrite I, B, X. simpl.
  rewrite app_nil_r. unfold len. now rewrite N.leb_refl.
Qed.

Lemma dif_next_cons : forall e it d x rest, iter_repr it d (x :: rest) ->
  exists it', dif_next e it = Ret (Some x, it') /\ iter_repr it' d rest.
Proof.
  intros e it d x rest (I & A & F & pre & B & X). unfold dif_next. rewrite I, B, X.
  simpl dif_bytes. destruct A as [Ax A]. inv F.
  pose proof (venc_length_pos (x - di_last it)) as Hp.
  unfold len. rewrite !app_length.
  match goal with |- context[if ?b then _ else _] => replace b with false end.
  2:{ symmetry. apply N.leb_gt. lia. }
  rewrite varint_decode_ok by (auto; lia). simpl bind.
  rewrite uadd_ok by lia. simpl bind.
  replace (di_last it + (x - di_last it)) with x by lia.
  eexists. split; [reflexivity|].
  repeat split; simpl; auto.
  exists (pre ++ venc (x - di_last it)). split.
  - rewrite B. simpl. now rewrite app_assoc.
  - rewrite app_length. lia.
Qed.

(** Iterating visits exactly the list. *)
Lemma dif_for_loop_ok : forall (S : Type) e d (body : S -> N -> M S) rest fuel it s,
  iter_repr it d rest -> (length rest < fuel)%nat ->
  dif_for_loop fuel e it body s = for_each rest body s.
Proof.
  intros S e d body rest. induction rest as [|x rest IH]; intros [|fuel] it s R Hf;
    simpl in Hf; try lia; cbn [dif_for_loop].
  - rewrite (dif_next_nil e it d R). reflexivity.
  - destruct (dif_next_cons e it d x rest R) as (it' & E & R'). rewrite E. simpl bind.
    simpl for_each. destruct (body s x); simpl; auto. apply IH; auto. lia.
Qed.

Lemma dif_bytes_count : forall L b, (length L <= length (dif_bytes b L))%nat.
Proof.
  induction L as [|x L IH]; intros b; simpl; auto. rewrite app_length.
  pose proof (venc_length_pos (x - b)). specialize (IH x). lia.
Qed.

Lemma dif_for_ok : forall (S : Type) e d L (body : S -> N -> M S) s, dif_repr d L ->
  dif_for e d body s = for_each L body s.
Proof.
  intros. unfold dif_for. apply dif_for_loop_ok with (d := d).
  - now apply iter_start.
  - destruct H as (_ & _ & B & _). rewrite B. pose proof (dif_bytes_count L 0). lia.
Qed.

(** ** Plain varint vectors *)
Definition varint_bytes (l : list N) : list N := flat_map venc l.

Lemma varint_pushes : forall l v, Forall (fun x => x < 2 ^ 32) l ->
  for_each l varint_push v = Ret (v ++ varint_bytes l).
Proof.
  induction l as [|x l IH]; intros v F; simpl.
  - now rewrite app_nil_r.
  - inv F. rewrite varint_push_ok by auto. simpl. rewrite IH by auto. now rewrite <- app_assoc.
Qed.

Lemma varint_collect_loop_ok : forall e l fuel pre idx, Forall (fun x => x < 2 ^ 32) l ->
  (length l < fuel)%nat -> idx = N.of_nat (length pre) ->
  varint_collect_loop fuel e (pre ++ varint_bytes l) idx = Ret l.
Proof.
  intros e l. induction l as [|x l IH]; intros [|fuel] pre idx F Hf Hi; simpl in Hf; try lia;
    cbn [varint_collect_loop]; unfold varint_next.
  - simpl. rewrite app_nil_r. unfold len. rewrite Hi, N.leb_refl. reflexivity.
  - inv F. simpl varint_bytes.
    pose proof (venc_length_pos x) as Hp. unfold len. rewrite !app_length.
    match goal with |- context[if ?b then _ else _] => replace b with false end.
    2:{ symmetry. apply N.leb_gt. lia. }
    rewrite varint_decode_ok by auto. simpl bind.
    rewrite app_assoc. rewrite IH; auto; try lia. rewrite app_length. lia.
Qed.

Lemma varint_bytes_count : forall l, (length l <= length (varint_bytes l))%nat.
Proof.
  induction l as [|x l IH]; simpl; auto. rewrite app_length.
  pose proof (venc_length_pos x). lia.
Qed.

Lemma varint_collect_ok : forall e l, Forall (fun x => x < 2 ^ 32) l ->
  varint_collect e (varint_bytes l) = Ret l.
Proof.
  intros. unfold varint_collect. apply (varint_collect_loop_ok e l _ []); auto.
  pose proof (varint_bytes_count l). lia.
Qed.

Lemma varint_bytes_length : forall l, Forall (fun x => x < 2 ^ 32) l ->
  N.of_nat (length (varint_bytes l)) = fold_right (fun x s => varint_len x + s) 0 l.
Proof.
  induction l as [|x l IH]; intros F; [reflexivity|]. inv F. simpl.
  rewrite app_length, Nnat.Nat2N.inj_add, IH by auto. now rewrite venc_length.
Qed.
