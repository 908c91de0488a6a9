(** * Decoding arbitrary byte strings *)
From Coq Require Import NArith Arith List Bool Lia Permutation Sorted.
From Verif Require Import ModelRust ModelEnv ModelEncoding Spec SpecBytes BitFacts EncFacts.
Import ListNotations.
Local Open Scope N_scope.

Definition byte (b : N) : Prop := b < 256.

(** Every string is a sequence of numbers followed by continuation bytes. *)
Lemma split_numbers : forall v, exists ns w, v = concat ns ++ w /\ Forall is_number ns /\
  Forall (fun b => 128 <= b) w.
Proof.
  induction v as [|b v (ns & w & E & F & G)].
  - exists [], []. repeat split; constructor.
  - destruct (N.lt_ge_cases b 128) as [L|L].
    + exists ([b] :: ns), w. split; [simpl; congruence|]. split; [|auto].
      constructor; auto. exists [], b. repeat split; auto.
    + destruct ns as [|n ns].
      * exists [], (b :: w). simpl in E. split; [simpl; congruence|]. split; auto.
      * inv F. destruct H1 as (c & t & -> & Fc & Ht).
        exists ((b :: c ++ [t]) :: ns), w. split; [simpl; now rewrite <- !app_assoc|].
        split; [|auto]. constructor; auto. exists (b :: c), t. repeat split; auto.
Qed.

Lemma number_nonempty : forall n, is_number n -> (1 <= length n)%nat.
Proof. intros n (c & t & -> & _). rewrite app_length. simpl. lia. Qed.

Lemma ends_open_iff : forall ns w, Forall is_number ns -> Forall (fun b => 128 <= b) w ->
  ends_open (concat ns ++ w) <-> w <> [].
Proof.
  intros ns w F G. split.
  - intros (u & b & E & Hb) ->. rewrite app_nil_r in E.
    destruct (exists_last (l := ns)) as (ns' & n & En).
    { intros ->. destruct u; discriminate E. }
    subst ns. rewrite concat_app in E. simpl in E. rewrite app_nil_r in E.
    apply Forall_app in F. destruct F as [_ F]. inv F. destruct H1 as (c & t & -> & _ & Ht).
    rewrite app_assoc in E. apply app_inj_tail in E. destruct E as [_ <-]. lia.
  - intros Hw. destruct (exists_last Hw) as (u & b & ->).
    exists (concat ns ++ u), b. split; [now rewrite app_assoc|].
    apply Forall_app in G. destruct G as [_ G]. now inv G.
Qed.

Lemma app_split : forall (A : Type) (a b c d : list A), a ++ b = c ++ d ->
  (exists m, c = a ++ m /\ b = m ++ d) \/ (exists m, a = c ++ m /\ d = m ++ b).
Proof.
  induction a as [|x a IH]; intros b c d E.
  - left. exists c. auto.
  - destruct c as [|y c].
    + right. exists (x :: a). auto.
    + simpl in E. inv E. destruct (IH _ _ _ H1) as [(m & -> & ->)|(m & -> & ->)].
      * left. exists m. auto. * right. exists m. auto.
Qed.

(** A run of five inside a sequence of numbers lies inside one of them. *)
Lemma long_run_iff : forall ns, Forall is_number ns ->
  long_run (concat ns) <-> Exists (fun n => (5 < length n)%nat) ns.
Proof.
  intros ns F. split.
  - induction F as [|n ns Hn F IH]; intros (u & l & w & E & L & R).
    + destruct u; [|discriminate E]. destruct l; [discriminate L|discriminate E].
    + destruct Hn as (c & t & -> & Fc & Ht). simpl in E.
      destruct (Nat.lt_ge_cases 5 (length (c ++ [t]))) as [K|K]; [now left|]. right. apply IH.
      destruct (app_split _ _ _ _ _ E) as [(m & -> & E')|(m & E' & E'')].
      * exists m, l, w. auto.
      * (* the run starts within this number *)
        destruct m as [|x m].
        { simpl in E''. exists [], l, w. auto. }
        destruct (app_split _ _ _ _ _ E'') as [(k & E1 & E2)|(k & E1 & E2)].
        -- (* the number's last byte lies in the run, or the run stops before *)
           exfalso. assert (length (c ++ [t]) = length u + (length l + length k))%nat.
           { rewrite E', E1, !app_length. reflexivity. }
           destruct (exists_last (l := l ++ k)) as (q & z & Eq).
           { destruct l; [discriminate L|discriminate]. }
           rewrite E1, Eq, app_assoc in E'. apply app_inj_tail in E'. destruct E' as [E' <-].
           assert (k = [] \/ k <> []) as [->|Hk] by (destruct k; [now left|right; discriminate]).
           ++ rewrite app_nil_r in Eq. subst l. apply Forall_app in R. destruct R as [_ R]. inv R. lia.
           ++ rewrite app_length in H, K. simpl in H, K. assert (1 <= length k)%nat by (destruct k; [congruence|simpl; lia]). lia.
        -- exfalso. destruct (exists_last (l := x :: m)) as (q & z & Eq); [discriminate|].
           rewrite Eq in *. rewrite app_assoc in E'. apply app_inj_tail in E'. destruct E' as [_ <-].
           rewrite E1 in R. apply Forall_app in R. destruct R as [R _].
           apply Forall_app in R. destruct R as [_ R]. inv R. lia.
  - intros H. apply Exists_exists in H. destruct H as (n & Hin & L).
    apply in_split in Hin. destruct Hin as (l1 & l2 & ->).
    apply Forall_app in F. destruct F as [_ F]. inv F. destruct H1 as (c & t & -> & Fc & Ht).
    rewrite app_length in L. simpl in L.
    exists (concat l1), (firstn 5 c), (skipn 5 c ++ [t] ++ concat l2). split; [|split].
    + rewrite concat_app. simpl. f_equal. rewrite <- (firstn_skipn 5 c) at 1.
      rewrite <- !app_assoc. reflexivity.
    + rewrite firstn_length. lia.
    + rewrite <- (firstn_skipn 5 c) in Fc. apply Forall_app in Fc. apply Fc.
Qed.

(** ** One number *)
Lemma ushl_total : forall w a k, w <> 0 -> exists x, ushl false w a k = Ret x /\ x < 2 ^ w.
Proof.
  intros w a k Hw. unfold ushl. destruct (k <? w); eexists; (split; [reflexivity|]);
    apply N.mod_lt, pow2_nz.
Qed.

Lemma lor_lt : forall a b n, a < 2 ^ n -> b < 2 ^ n -> N.lor a b < 2 ^ n.
Proof.
  intros a b n Ha Hb. destruct (N.eq_dec (N.lor a b) 0) as [->|Hz]; [apply pow2_pos|].
  apply N.log2_lt_pow2; [lia|]. rewrite N.log2_lor.
  apply N.max_lub_lt.
  - destruct (N.eq_dec a 0) as [->|]; [|apply N.log2_lt_pow2; lia].
    simpl. destruct (N.eq_dec n 0) as [->|]; [|lia]. change (2 ^ 0) with 1 in *.
    assert (b = 0) by lia. subst. now exfalso.
  - destruct (N.eq_dec b 0) as [->|]; [|apply N.log2_lt_pow2; lia].
    simpl. destruct (N.eq_dec n 0) as [->|]; [|lia]. change (2 ^ 0) with 1 in *.
    assert (a = 0) by lia. subst. now exfalso.
Qed.

Lemma base128_last : forall t, t < 128 -> base128 [t] = t.
Proof. intros t H. unfold base128. rewrite N.mul_0_r, N.add_0_r. now apply N.mod_small. Qed.

Lemma or_add : forall val t k, k <= 32 -> val < 2 ^ k ->
  N.lor val ((t * 2 ^ k) mod 2 ^ 32) = (val + t * 2 ^ k) mod 2 ^ 32.
Proof.
  intros val t k Hk Hv. rewrite (mul_pow2_mod t) by lia. rewrite N.lor_comm, lor_mul_add by auto.
  rewrite <- (mul_pow2_mod t) by lia. rewrite (N.add_comm val).
  rewrite <- (N.add_mod_idemp_l (t * 2 ^ k)) by apply pow2_nz. symmetry. apply N.mod_small.
  rewrite mul_pow2_mod by lia.
  assert (t mod 2 ^ (32 - k) < 2 ^ (32 - k)) by (apply N.mod_lt, pow2_nz).
  rewrite (pow2_split 32 k) by lia. nia.
Qed.

Lemma decode_loop_number : forall n e fuel pre done post idx i val,
  is_number n -> Forall byte n -> (length n <= fuel)%nat -> val < 2 ^ 32 ->
  idx = N.of_nat (length pre) -> i = N.of_nat (length done) ->
  overflow_checks e = false \/ i + N.of_nat (length n) <= 5 ->
  exists x, varint_decode_loop fuel e (pre ++ done ++ n ++ post) idx i val
            = Ret (x, idx + i + N.of_nat (length n)) /\ x < 2 ^ 32 /\
    (i + N.of_nat (length n) <= 5 -> val < 2 ^ (7 * i) ->
     x = (val + base128 n * 2 ^ (7 * i)) mod 2 ^ 32).
Proof.
  induction n as [|b n IH]; intros e fuel pre done post idx i val Hn Hb Hf Hv Hx Hi Hc.
  { destruct Hn as ([|? ?] & t & E & _); discriminate E. }
  destruct fuel as [|fuel]; [simpl in Hf; lia|]. inv Hb. cbn [varint_decode_loop].
  replace (pre ++ done ++ (b :: n) ++ post) with ((pre ++ done) ++ b :: n ++ post)
    by (now rewrite <- app_assoc).
  rewrite (index_ok _ _ _ b) by (apply nth_error_middle; rewrite app_length; lia).
  rewrite bind_ret, msb_test by auto. destruct Hn as ([|c0 c] & t & E & Fc & Ht).
  - (* last byte *)
    simpl in E. inv E. rewrite (proj2 (N.ltb_lt t 128) Ht). cbn [negb].
    destruct Hc as [Hc|Hc].
    + rewrite Hc. destruct (ushl_total 32 t (N.of_nat (length done) * 7)) as (y & Ey & Ly); [discriminate|].
      rewrite Ey, bind_ret. eexists. split; [reflexivity|]. split; [now apply lor_lt|].
      intros Hl Hval. assert (Hk : N.of_nat (length done) * 7 < 32) by (simpl length in Hl; lia).
      rewrite ushl_ok in Ey by auto. inv Ey.
      rewrite base128_last by auto. rewrite (N.mul_comm _ 7) in *. apply or_add; auto. lia.
    + assert (Hk : N.of_nat (length done) * 7 < 32) by (simpl length in Hc; lia).
      rewrite ushl_ok by auto. rewrite bind_ret.
      eexists. split; [reflexivity|]. split; [apply lor_lt; [auto|apply N.mod_lt, pow2_nz]|].
      intros _ Hval. rewrite base128_last by auto. rewrite (N.mul_comm _ 7) in *. apply or_add; auto. lia.
  - (* continuation byte *)
    simpl in E. inv E. inv Fc. rewrite (proj2 (N.ltb_ge c0 128)) by assumption. cbn [negb].
    assert (Hn' : is_number (c ++ [t])) by (exists c, t; auto).
    assert (Hl1 : (1 <= length (c ++ [t]))%nat) by now apply number_nonempty.
    rewrite seven_lsb. set (n := c ++ [t]) in *. clearbody n.
    set (i := N.of_nat (length done)) in *.
    assert (Ei : i + 1 = N.of_nat (length (done ++ [c0]))) by (rewrite app_length; simpl; unfold i; lia).
    replace ((pre ++ done) ++ c0 :: n ++ post) with (pre ++ (done ++ [c0]) ++ n ++ post)
      by (now rewrite <- !app_assoc).
    assert (G : exists y, ushl (overflow_checks e) 32 (c0 mod 128) (i * 7) = Ret y /\ y < 2 ^ 32 /\
                 (i * 7 < 32 -> y = c0 mod 128 * 2 ^ (7 * i) mod 2 ^ 32)).
    { destruct Hc as [Hc|Hc].
      - rewrite Hc. destruct (ushl_total 32 (c0 mod 128) (i * 7)) as (y & Ey & Ly); [discriminate|].
        exists y. repeat split; auto. intros Hk. rewrite ushl_ok in Ey by auto. inv Ey.
        now rewrite (N.mul_comm i 7).
      - simpl length in Hc. rewrite ushl_ok by lia. eexists. split; [reflexivity|].
        rewrite (N.mul_comm i 7). split; [apply N.mod_lt, pow2_nz|auto]. }
    destruct G as (y & -> & Ly & Hy). rewrite bind_ret.
    destruct (IH e fuel pre (done ++ [c0]) post (N.of_nat (length pre)) (i + 1) (N.lor val y))
      as (x & Ex & Lx & Vx); auto.
    { simpl in Hf. lia. } { now apply lor_lt. } { destruct Hc as [Hc|Hc]; [now left|right]. simpl length in Hc. lia. }
    exists x. split; [|split; auto].
    + rewrite Ex. do 2 f_equal. simpl length. lia.
    + intros Hl Hval. simpl length in Hl.
      assert (Hi3 : i <= 3) by lia.
      assert (Hm : c0 mod 128 < 128) by (apply N.mod_lt; discriminate).
      assert (Hp : 2 ^ (7 * (i + 1)) = 128 * 2 ^ (7 * i)).
      { replace (7 * (i + 1)) with (7 + 7 * i) by lia. rewrite N.pow_add_r. reflexivity. }
      assert (Hle : 2 ^ (7 * (i + 1)) <= 2 ^ 32) by (apply pow2_le; lia).
      pose proof (pow2_pos (7 * i)) as Hpp.
      rewrite Hy in * by lia. rewrite (N.mod_small (c0 mod 128 * _)) in * by nia.
      rewrite N.lor_comm, lor_mul_add in Vx by auto.
      rewrite Vx; [|lia|nia]. cbn [base128]. rewrite Hp. f_equal.
      set (m := c0 mod 128) in *. clearbody m. ring.
Qed.

Lemma decode_loop_long : forall n e fuel pre done post idx i val,
  is_number n -> Forall byte n -> (length n <= fuel)%nat -> overflow_checks e = true ->
  idx = N.of_nat (length pre) -> i = N.of_nat (length done) -> 5 < i + N.of_nat (length n) ->
  varint_decode_loop fuel e (pre ++ done ++ n ++ post) idx i val = Panic.
Proof.
  induction n as [|b n IH]; intros e fuel pre done post idx i val Hn Hb Hf Hc Hx Hi Hl.
  { destruct Hn as ([|? ?] & t & E & _); discriminate E. }
  destruct fuel as [|fuel]; [simpl in Hf; lia|]. inv Hb. cbn [varint_decode_loop].
  replace (pre ++ done ++ (b :: n) ++ post) with ((pre ++ done) ++ b :: n ++ post)
    by (now rewrite <- app_assoc).
  rewrite (index_ok _ _ _ b) by (apply nth_error_middle; rewrite app_length; lia).
  rewrite bind_ret. set (i := N.of_nat (length done)) in *. rewrite Hc.
  destruct (N.lt_ge_cases (i * 7) 32) as [K|K].
  2:{ destruct (negb _); unfold ushl; now rewrite (proj2 (N.ltb_ge _ _) K). }
  rewrite msb_test by auto. destruct Hn as ([|c0 c] & t & E & Fc & Ht).
  { simpl in E. inv E. simpl length in Hl. lia. }
  simpl in E. inv E. inv Fc. rewrite (proj2 (N.ltb_ge c0 128)) by assumption. cbn [negb].
  rewrite ushl_ok by auto. rewrite bind_ret.
  replace ((pre ++ done) ++ c0 :: (c ++ [t]) ++ post) with (pre ++ (done ++ [c0]) ++ (c ++ [t]) ++ post)
    by (now rewrite <- !app_assoc).
  apply IH; auto.
  - exists c, t. auto.
  - simpl in Hf. lia.
  - rewrite (app_length done). simpl. unfold i. lia.
  - simpl length in Hl. lia.
Qed.

Lemma decode_loop_open : forall w e fuel pre done idx i val,
  Forall (fun b => 128 <= b) w -> Forall byte w -> (length w < fuel)%nat ->
  idx = N.of_nat (length pre) -> i = N.of_nat (length done) ->
  varint_decode_loop fuel e (pre ++ done ++ w) idx i val = Panic.
Proof.
  induction w as [|b w IH]; intros e fuel pre done idx i val Hw Hb Hf Hx Hi;
    (destruct fuel as [|fuel]; [simpl in Hf; lia|]); cbn [varint_decode_loop].
  - unfold index. replace (nth_error _ _) with (@None N); [reflexivity|].
    symmetry. apply nth_error_None. rewrite !app_length. simpl. lia.
  - inv Hw. inv Hb.
    replace (pre ++ done ++ b :: w) with ((pre ++ done) ++ b :: w) by (now rewrite <- app_assoc).
    rewrite (index_ok _ _ _ b) by (apply nth_error_middle; rewrite app_length; lia).
    rewrite bind_ret, msb_test, (proj2 (N.ltb_ge b 128)) by auto. cbn [negb].
    destruct (ushl _ _ _ _) as [y| |] eqn:Ey; [|reflexivity|].
    + rewrite bind_ret.
      replace ((pre ++ done) ++ b :: w) with (pre ++ (done ++ [b]) ++ w) by (now rewrite <- !app_assoc).
      apply IH; auto; [simpl in Hf; lia|]. rewrite (app_length done). simpl. lia.
    + unfold ushl in Ey. destruct (_ <? _); [discriminate|]. destruct (overflow_checks e); discriminate.
Qed.

Definition readable (e : env) (n : list N) : Prop := overflow_checks e = false \/ (length n <= 5)%nat.

Lemma decode_number : forall e pre n post, is_number n -> Forall byte n -> readable e n ->
  exists x, varint_decode e (pre ++ n ++ post) (N.of_nat (length pre))
            = Ret (x, N.of_nat (length (pre ++ n))) /\ x < 2 ^ 32 /\
    ((length n <= 5)%nat -> x = read32 n).
Proof.
  intros e pre n post Hn Hb Hc. unfold varint_decode.
  destruct (decode_loop_number n e (S (length (pre ++ n ++ post))) pre [] post
              (N.of_nat (length pre)) 0 0) as (x & E & L & V); auto.
  - rewrite !app_length. lia.
  - destruct Hc as [Hc|Hc]; [now left|right; lia].
  - exists x. simpl app in E. rewrite E. split; [|split; auto].
    + do 2 f_equal. rewrite app_length. lia.
    + intros K. rewrite V; [|lia|reflexivity]. unfold read32. f_equal. simpl (2 ^ (7 * 0)). lia.
Qed.

Lemma decode_long : forall e pre n post, is_number n -> Forall byte n -> ~ readable e n ->
  varint_decode e (pre ++ n ++ post) (N.of_nat (length pre)) = Panic.
Proof.
  intros e pre n post Hn Hb Hc. unfold varint_decode.
  apply (decode_loop_long n e _ pre [] post); auto.
  - rewrite !app_length. lia.
  - destruct (overflow_checks e) eqn:K; [reflexivity|]. destruct Hc. now left.
  - destruct (Nat.lt_ge_cases 5 (length n)) as [K|K]; [lia|]. destruct Hc. now right.
Qed.

Lemma decode_open : forall e pre w, Forall (fun b => 128 <= b) w -> Forall byte w ->
  varint_decode e (pre ++ w) (N.of_nat (length pre)) = Panic.
Proof.
  intros e pre w Hw Hb. unfold varint_decode.
  apply (decode_loop_open w e _ pre []); auto. rewrite app_length. lia.
Qed.

Lemma readable_dec : forall e n, {readable e n} + {~ readable e n}.
Proof.
  intros e n. unfold readable. destruct (overflow_checks e); [|left; now left].
  destruct (le_dec (length n) 5); [left; now right|right; intros [H|H]; [discriminate|auto]].
Qed.

(** ** Plain iteration *)
Definition reads (n : list N) (x : N) : Prop := x < 2 ^ 32 /\ ((length n <= 5)%nat -> x = read32 n).

Lemma collect_numbers : forall e w ns fuel pre, Forall is_number ns -> Forall byte (concat ns) ->
  Forall (fun b => 128 <= b) w -> Forall byte w -> (length ns < fuel)%nat ->
  (varint_collect_loop fuel e (pre ++ concat ns ++ w) (N.of_nat (length pre)) = Panic /\
   (w <> [] \/ Exists (fun n => ~ readable e n) ns)) \/
  (w = [] /\ Forall (readable e) ns /\
   exists xs, varint_collect_loop fuel e (pre ++ concat ns ++ w) (N.of_nat (length pre)) = Ret xs /\
     Forall2 reads ns xs).
Proof.
  intros e w ns. induction ns as [|n ns IH]; intros fuel pre F B G Bw Hf;
    (destruct fuel as [|fuel]; [simpl in Hf; lia|]); cbn [varint_collect_loop]; unfold varint_next.
  - simpl concat. rewrite app_nil_l. destruct w as [|b w].
    + right. rewrite app_nil_r, len_length, N.leb_refl, bind_ret. split; [auto|split; [constructor|]].
      exists []. split; [reflexivity|constructor].
    + left. rewrite len_length. rewrite (proj2 (N.leb_gt _ _)) by (rewrite app_length; simpl; lia).
      rewrite (decode_open e pre (b :: w)) by auto. split; [reflexivity|left; discriminate].
  - inv F. simpl concat in *. apply Forall_app in B. destruct B as [Bn B].
    pose proof (number_nonempty n H1).
    rewrite len_length. rewrite (proj2 (N.leb_gt _ _)) by (rewrite !app_length; lia).
    rewrite <- (app_assoc n).
    destruct (readable_dec e n) as [R|R].
    + destruct (decode_number e pre n (concat ns ++ w) H1 Bn R) as (x & E & L & V).
      rewrite E, bind_ret.
      replace (pre ++ n ++ concat ns ++ w) with ((pre ++ n) ++ concat ns ++ w) by now rewrite <- app_assoc.
      destruct (IH fuel (pre ++ n) H2 B G Bw ltac:(simpl in Hf; lia)) as [[Q1 Q2]|(Q1 & Q2 & xs & Q3 & Q4)].
      * left. rewrite bind_ret, Q1. split; [reflexivity|]. destruct Q2; auto.
      * right. split; auto. split; [now constructor|]. exists (x :: xs).
        rewrite bind_ret, Q3. split; [reflexivity|]. constructor; [split|]; auto.
    + left. rewrite (decode_long e pre n) by auto. split; [reflexivity|right; now left].
Qed.

Lemma numbers_count : forall ns, Forall is_number ns -> (length ns <= length (concat ns))%nat.
Proof.
  intros ns F. induction F as [|n ns Hn F IH]; simpl; auto. rewrite app_length.
  pose proof (number_nonempty n Hn). lia.
Qed.

Lemma not_readable : forall e ns, Exists (fun n => ~ readable e n) ns <->
  overflow_checks e = true /\ Exists (fun n => (5 < length n)%nat) ns.
Proof.
  intros e ns. rewrite !Exists_exists. unfold readable. split.
  - intros (n & Hn & R). assert (overflow_checks e = true) by (destruct (overflow_checks e); auto; destruct R; now left).
    split; auto. exists n. split; auto. destruct (Nat.lt_ge_cases 5 (length n)); auto. destruct R. now right.
  - intros (Hc & n & Hn & L). exists n. split; auto. intros [K|K]; [congruence|lia].
Qed.

Lemma collect_bytes : forall e v, Forall byte v ->
  (varint_collect e v = Panic <->
   ends_open v \/ overflow_checks e = true /\ long_run v) /\
  (varint_collect e v = Panic \/ exists xs, varint_collect e v = Ret xs) /\
  (forall ns, v = concat ns -> Forall is_number ns -> Forall (fun n => (length n <= 5)%nat) ns ->
   varint_collect e v = Ret (map read32 ns)).
Proof.
  intros e v B. destruct (split_numbers v) as (ns & w & E & F & G). rewrite E in B.
  apply Forall_app in B. destruct B as [Bn Bw].
  pose proof (collect_numbers e w ns (S (length v)) [] F Bn G Bw) as C. simpl app in C. simpl length in C.
  rewrite <- E in C. change (N.of_nat 0) with 0 in C. fold (varint_collect e v) in C.
  destruct C as [[C1 C2]|(C1 & C2 & xs & C3 & C4)].
  { rewrite E, app_length. pose proof (numbers_count ns F). lia. }
  - split; [|split].
    + split; [intros _|auto]. destruct C2 as [C2|C2].
      * left. rewrite E. now apply ends_open_iff.
      * destruct w as [|b w]; [|left; rewrite E; apply ends_open_iff; auto; discriminate].
        right. apply not_readable in C2. destruct C2 as [Hc C2]. split; auto.
        rewrite E, app_nil_r. now apply long_run_iff.
    + now left.
    + intros ns' E' F' L'. exfalso. destruct C2 as [C2|C2].
      * apply (ends_open_iff ns w F G) in C2. rewrite <- E, E', <- (app_nil_r (concat ns')) in C2.
        apply ends_open_iff in C2; auto.
      * assert (ends_open v \/ long_run v) as [K|K].
        { destruct w as [|b w]; [|left; rewrite E; apply ends_open_iff; auto; discriminate].
          right. apply not_readable in C2. rewrite E, app_nil_r. now apply long_run_iff. }
        -- rewrite E', <- (app_nil_r (concat ns')) in K. apply ends_open_iff in K; auto.
        -- rewrite E' in K. apply long_run_iff in K; auto. apply Exists_exists in K.
           destruct K as (n & Hn & K). rewrite Forall_forall in L'. specialize (L' n Hn). lia.
  - subst w. rewrite app_nil_r in E. split; [|split].
    + rewrite C3. split; [discriminate|]. intros [K|[Hc K]].
      * rewrite E, <- (app_nil_r (concat ns)) in K. apply ends_open_iff in K; auto. congruence.
      * rewrite E in K. apply long_run_iff in K; auto. apply Exists_exists in K.
        destruct K as (n & Hn & K). rewrite Forall_forall in C2.
        destruct (C2 n Hn) as [K'|K']; [congruence|lia].
    + right. eauto.
    + intros ns' E' F' L'.
      pose proof (collect_numbers e [] ns' (S (length v)) [] F') as C'. simpl app in C'. rewrite app_nil_r in C'.
      simpl length in C'. rewrite <- E' in C'. change (N.of_nat 0) with 0 in C'. fold (varint_collect e v) in C'.
      rewrite <- E in Bn.
      destruct C' as [[D1 _]|(_ & _ & xs' & D3 & D4)]; auto.
      { rewrite E'. pose proof (numbers_count ns' F'). lia. }
      { congruence. }
      rewrite D3. f_equal. clear - L' D4. induction D4 as [|n x ns xs [_ R] D IH]; [reflexivity|].
      inv L'. simpl. rewrite R, IH; auto.
Qed.

(** ** Unchecked reading of numbers of any length *)
Lemma ushl_unchecked : forall a k, ushl false 32 a k = Ret ((a * 2 ^ (k mod 32)) mod 2 ^ 32).
Proof.
  intros a k. unfold ushl. rewrite <- !N.shiftl_mul_pow2.
  destruct (N.ltb_spec k 32); [now rewrite (N.mod_small k)|reflexivity].
Qed.

Lemma decode_loop_unchecked : forall n e fuel pre done post idx i val,
  is_number n -> Forall byte n -> (length n <= fuel)%nat -> overflow_checks e = false ->
  idx = N.of_nat (length pre) -> i = N.of_nat (length done) ->
  varint_decode_loop fuel e (pre ++ done ++ n ++ post) idx i val
  = Ret (N.lor val (unchecked i n), idx + i + N.of_nat (length n)).
Proof.
  induction n as [|b n IH]; intros e fuel pre done post idx i val Hn Hb Hf Hc Hx Hi.
  { destruct Hn as ([|? ?] & t & E & _); discriminate E. }
  destruct fuel as [|fuel]; [simpl in Hf; lia|]. inv Hb. cbn [varint_decode_loop unchecked].
  replace (pre ++ done ++ (b :: n) ++ post) with ((pre ++ done) ++ b :: n ++ post)
    by (now rewrite <- app_assoc).
  rewrite (index_ok _ _ _ b) by (apply nth_error_middle; rewrite app_length; lia).
  rewrite bind_ret, msb_test, Hc by auto. destruct Hn as ([|c0 c] & t & E & Fc & Ht).
  - simpl in E. inv E. rewrite (proj2 (N.ltb_lt t 128) Ht). cbn [negb unchecked].
    rewrite ushl_unchecked, bind_ret, N.lor_0_r, (N.mul_comm _ 7), (N.mod_small t 128) by auto.
    do 2 f_equal.
  - simpl in E. inv E. inv Fc. rewrite (proj2 (N.ltb_ge c0 128)) by assumption. cbn [negb].
    rewrite seven_lsb, ushl_unchecked, bind_ret, (N.mul_comm _ 7).
    replace ((pre ++ done) ++ c0 :: (c ++ [t]) ++ post) with (pre ++ (done ++ [c0]) ++ (c ++ [t]) ++ post)
      by (now rewrite <- !app_assoc).
    rewrite IH; auto.
    + rewrite N.lor_assoc. do 2 f_equal. simpl length. lia.
    + exists c, t. auto.
    + simpl in Hf. lia.
    + rewrite (app_length done). simpl. lia.
Qed.

Lemma decode_unchecked : forall e pre n post, overflow_checks e = false -> is_number n -> Forall byte n ->
  varint_decode e (pre ++ n ++ post) (N.of_nat (length pre))
  = Ret (unchecked 0 n, N.of_nat (length pre) + N.of_nat (length n)).
Proof.
  intros e pre n post Hc Hn Hb. unfold varint_decode.
  pose proof (decode_loop_unchecked n e (S (length (pre ++ n ++ post))) pre [] post (N.of_nat (length pre)) 0 0 Hn Hb) as H.
  simpl app in H. rewrite H; auto.
  - rewrite N.lor_0_l, N.add_0_r. reflexivity.
  - rewrite !app_length. lia.
Qed.
