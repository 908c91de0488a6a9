(** * Machine arithmetic of the model *)
From Coq Require Import NArith ZArith List Bool Lia Permutation.
From Verif Require Import ModelRust ModelF64 ModelLog SpecRust.
Import ListNotations.

Lemma pow_NZ : forall w, Z.of_N (2 ^ w) = (2 ^ Z.of_N w)%Z.
Proof. intro. now rewrite N2Z.inj_pow. Qed.

Lemma div_mod_Z : forall c q, (0 < q)%N -> (0 <= Z.of_N (c mod q) < Z.of_N q)%Z /\
  (Z.of_N c - Z.of_N (c mod q) = Z.of_N (c / q) * Z.of_N q)%Z.
Proof.
  intros c q H. assert (B : (c mod q < q)%N) by (apply N.mod_upper_bound; lia). assert (D : c = (q * (c / q) + c mod q)%N) by (apply N.div_mod; lia).
  split; [clear D; set (r := (c mod q)%N) in *; clearbody r; lia|].
  apply (f_equal Z.of_N) in D. rewrite N2Z.inj_add, N2Z.inj_mul in D. rewrite D at 1. ring.
Qed.

Lemma uadd_outcome : forall ck w a b, outcome Z.of_N ck 0 w (Z.of_N a + Z.of_N b) (uadd ck w a b).
Proof.
  intros. unfold outcome, uadd. rewrite Z.add_0_l, <- pow_NZ, <- N2Z.inj_add. assert (P : (0 < 2 ^ w)%N) by (apply N.neq_0_lt_0, N.pow_nonzero; lia).
  set (q := (2 ^ w)%N) in *. clearbody q. set (c := (a + b)%N). clearbody c. destruct (N.ltb_spec c q); repeat split; intros; try lia.
  - eexists; split; [reflexivity|lia].
  - now subst.
  - subst. exists (c mod q)%N, (Z.of_N (c / q)). split; [reflexivity|]. now apply div_mod_Z.
Qed.

Lemma umul_outcome : forall ck w a b, outcome Z.of_N ck 0 w (Z.of_N a * Z.of_N b) (umul ck w a b).
Proof.
  intros. unfold outcome, umul. rewrite Z.add_0_l, <- pow_NZ, <- N2Z.inj_mul. assert (P : (0 < 2 ^ w)%N) by (apply N.neq_0_lt_0, N.pow_nonzero; lia).
  set (q := (2 ^ w)%N) in *. clearbody q. set (c := (a * b)%N). clearbody c. destruct (N.ltb_spec c q); repeat split; intros; try lia.
  - eexists; split; [reflexivity|lia].
  - now subst.
  - subst. exists (c mod q)%N, (Z.of_N (c / q)). split; [reflexivity|]. now apply div_mod_Z.
Qed.

Lemma usub_outcome : forall ck w a b, (a < 2 ^ w -> b < 2 ^ w -> outcome Z.of_N ck 0 w (Z.of_N a - Z.of_N b) (usub ck w a b))%N.
Proof.
  intros. unfold outcome, usub. rewrite Z.add_0_l, <- pow_NZ.
  set (q := (2 ^ w)%N) in *. clearbody q. destruct (N.leb_spec b a); repeat split; intros; try lia.
  - eexists; split; [reflexivity|lia].
  - now subst.
  - subst. exists (a + q - b)%N, (-1)%Z. split; [reflexivity|split; lia].
Qed.

Lemma i32_outcome : forall ck z, outcome (fun z => z) ck (- 2 ^ 31) 32 z (i32 ck z).
Proof.
  intros. unfold outcome, i32. change (- 2 ^ 31)%Z with (-2147483648)%Z. change (2 ^ Z.of_N 32)%Z with 4294967296%Z.
  change (2 ^ 31)%Z with 2147483648%Z. change (2 ^ 32)%Z with 4294967296%Z.
  destruct (Z.leb_spec (-2147483648) z); destruct (Z.ltb_spec z 2147483648); cbn [andb]; repeat split; intros; try lia;
    try (eexists; split; reflexivity); subst; auto.
  all: exists ((z + 2147483648) mod 4294967296 - 2147483648)%Z, ((z + 2147483648) / 4294967296)%Z;
    pose proof (Z.mod_pos_bound (z + 2147483648) 4294967296); pose proof (Z.div_mod (z + 2147483648) 4294967296); repeat split; lia.
Qed.

Lemma shl_shifted : forall ck w a k, exists r, shifted ck w k r (ushl ck w a k) /\
  forall j, same_bits w (r j) (fun i => (j <=? i)%N && N.testbit a (i - j)).
Proof.
  intros. exists (fun j => (N.shiftl a j mod 2 ^ w)%N). split.
  - unfold shifted, ushl. destruct (N.ltb_spec k w); repeat split; intros; try lia; subst; auto.
  - intros j i. destruct (N.ltb_spec i w).
    + rewrite N.mod_pow2_bits_low by easy. destruct (N.leb_spec j i); cbn [andb].
      * now rewrite N.shiftl_spec_high'.
      * now rewrite N.shiftl_spec_low.
    + now rewrite N.mod_pow2_bits_high.
Qed.

Lemma shr_shifted : forall ck w a k, (a < 2 ^ w)%N -> exists r, shifted ck w k r (ushr ck w a k) /\
  forall j, same_bits w (r j) (fun i => N.testbit a (i + j)).
Proof.
  intros ck w a k H. exists (fun j => N.shiftr a j). split.
  - unfold shifted, ushr. destruct (N.ltb_spec k w); repeat split; intros; try lia; subst; auto.
  - intros j i. rewrite N.shiftr_spec'. destruct (N.ltb_spec i w); [easy|].
    destruct (N.eq_dec a 0) as [->|]; [apply N.bits_0|]. apply N.bits_above_log2. assert (N.log2 a < w)%N by (apply N.log2_lt_pow2; lia). lia.
Qed.

Lemma leading : forall w x, (x < 2 ^ w)%N -> let n := leading_zeros w x in
  (n <= w)%N /\ (forall i, w - n <= i -> N.testbit x i = false)%N /\ (n < w -> N.testbit x (w - n - 1) = true)%N /\
  (n = w <-> x = 0%N).
Proof.
  intros w x H n. unfold n, leading_zeros. clear n. destruct (N.eq_dec x 0) as [->|Nz].
  { cbn. repeat split; intros; try lia. }
  rewrite N.size_log2 by easy. assert (N.log2 x < w)%N by (apply N.log2_lt_pow2; lia). split; [lia|]. split; [|split; [|lia]].
  - intros. apply N.bits_above_log2. lia.
  - intros. replace (w - (w - N.succ (N.log2 x)) - 1)%N with (N.log2 x) by lia. now apply N.bit_log2.
Qed.

Lemma cast_bits : forall w x, same_bits w (cast w x) (N.testbit x).
Proof.
  intros w x i. unfold cast. destruct (N.ltb_spec i w); [now rewrite N.mod_pow2_bits_low|now rewrite N.mod_pow2_bits_high].
Qed.

Lemma not_bits : forall w x, (x < 2 ^ w)%N -> same_bits w (unot w x) (fun i => negb (N.testbit x i)).
Proof.
  intros w x H i. unfold unot. destruct (N.ltb_spec i w); [now rewrite N.lnot_spec_low|]. rewrite N.lnot_spec_high by easy.
  destruct (N.eq_dec x 0) as [->|]; [apply N.bits_0|]. apply N.bits_above_log2. assert (N.log2 x < w)%N by (apply N.log2_lt_pow2; lia). lia.
Qed.

Lemma index_spec : forall (A : Type) (v : list A) i,
  (forall l x r, v = l ++ x :: r -> N.of_nat (length l) = i -> index v i = Ret x) /\
  (N.of_nat (length v) <= i -> index v i = Panic)%N.
Proof.
  intros. unfold index. split.
  - intros l x r -> <-. rewrite Nnat.Nat2N.id, nth_error_app2, PeanoNat.Nat.sub_diag by easy. reflexivity.
  - intros. rewrite (proj2 (nth_error_None v (N.to_nat i))); [easy|lia].
Qed.

Lemma update_spec : forall (A : Type) l (x y : A) r, update (l ++ x :: r) (N.of_nat (length l)) y = l ++ y :: r.
Proof.
  intros. unfold update. rewrite Nnat.Nat2N.id. induction l as [|a l IH]; [reflexivity|]. cbn. now rewrite IH.
Qed.

Lemma insert_sorted_perm : forall x l, Permutation (insert_sorted x l) (x :: l).
Proof.
  induction l as [|y l IH]; cbn; [easy|]. destruct (x <=? y)%N; [easy|].
  rewrite IH. apply perm_swap.
Qed.
Lemma insert_sorted_asc : forall x l, ascending l -> ascending (insert_sorted x l).
Proof.
  intros x l H. induction H as [|y l F H IH]; cbn.
  - constructor; constructor.
  - destruct (N.leb_spec x y).
    + constructor; [|now constructor]. constructor; [easy|]. eapply Forall_impl; [|exact F]. cbn. intros. lia.
    + constructor; [|easy]. rewrite (insert_sorted_perm x l). constructor; [lia|easy].
Qed.
Lemma sort_spec : forall l, Permutation (sort l) l /\ ascending (sort l).
Proof.
  induction l as [|x l [P A]]; cbn; [split; [easy|constructor]|]. split; [rewrite insert_sorted_perm; now constructor|].
  now apply insert_sorted_asc.
Qed.
Lemma sort_unique : forall l l', Permutation l l' -> sort l = sort l'.
Proof.
  intros l l' H. assert (U : forall a b, ascending a -> ascending b -> Permutation a b -> a = b).
  { intros a b Ha. revert b. induction Ha as [|x a F Ha IH]; intros b Hb P.
    - now apply Permutation_nil in P.
    - destruct Hb as [|y b G Hb]; [apply Permutation_sym, Permutation_nil in P; discriminate|].
      assert (x = y).
      { assert (I : In x (y :: b)) by (eapply Permutation_in; [exact P|now left]).
        assert (J : In y (x :: a)) by (eapply Permutation_in; [apply Permutation_sym; exact P|now left]).
        rewrite Forall_forall in F, G. destruct I as [I|I]; [easy|]. destruct J as [J|J]; [easy|].
        specialize (F _ J). specialize (G _ I). lia. }
      subst. f_equal. apply IH; [easy|]. now apply Permutation_cons_inv in P. }
  destruct (sort_spec l) as [P1 A1], (sort_spec l') as [P2 A2]. apply U; auto. now rewrite P1, P2.
Qed.

Lemma hset_spec : forall s c, NoDup s -> NoDup (hset_insert s c) /\ (forall x, In x (hset_insert s c) <-> x = c \/ In x s) /\
  hset_len (hset_insert s c) = (hset_len s + if in_dec N.eq_dec c s then 0 else 1)%N.
Proof.
  intros s c H. unfold hset_insert, hset_len, len. destruct (existsb (N.eqb c) s) eqn:E.
  - apply existsb_exists in E. destruct E as (y & I & E). apply N.eqb_eq in E. subst y. split; [easy|]. split.
    + intros. split; [now right|]. now intros [->|].
    + destruct (in_dec N.eq_dec c s); [lia|easy].
  - assert (NI : ~ In c s).
    { intro I. assert (existsb (N.eqb c) s = true) by (apply existsb_exists; exists c; split; [easy|apply N.eqb_refl]). congruence. }
    split; [now constructor|]. split.
    + intros. cbn. intuition.
    + destruct (in_dec N.eq_dec c s); [easy|]. cbn [length]. lia.
Qed.
