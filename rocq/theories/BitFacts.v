(** * Lemmas on words, the panic monad and lists *)
From Coq Require Import NArith ZArith List Bool Lia Permutation.
From Verif Require Import ModelRust Spec.
Import ListNotations.
Local Open Scope N_scope.

Ltac inv H := inversion H; subst; clear H.

(** [lia] with quotients and remainders as opaque natural numbers. *)
Ltac opaque_div :=
  repeat match goal with
  | |- context [?a / ?b] => let x := fresh "q" in set (x := a / b) in *; clearbody x
  | H : context [?a / ?b] |- _ => let x := fresh "q" in set (x := a / b) in *; clearbody x
  | |- context [?a mod ?b] => let x := fresh "m" in set (x := a mod b) in *; clearbody x
  | H : context [?a mod ?b] |- _ => let x := fresh "m" in set (x := a mod b) in *; clearbody x
  end.
Ltac nlia := opaque_div; lia.

(** ** Monad *)
Lemma bind_ret : forall (A B : Type) (a : A) (k : A -> M B), bind (Ret a) k = k a.
Proof. reflexivity. Qed.

Lemma bind_inv : forall (A B : Type) (m : M A) (k : A -> M B) (b : B),
  bind m k = Ret b -> exists a, m = Ret a /\ k a = Ret b.
Proof. intros A B [a| |] k b H; simpl in H; try discriminate. eauto. Qed.

Lemma uadd_ok : forall ck w a b, a + b < 2 ^ w -> uadd ck w a b = Ret (a + b).
Proof. intros. unfold uadd. apply N.ltb_lt in H. now rewrite H. Qed.
Lemma usub_ok : forall ck w a b, b <= a -> usub ck w a b = Ret (a - b).
Proof. intros. unfold usub. apply N.leb_le in H. now rewrite H. Qed.
Lemma umul_ok : forall ck w a b, a * b < 2 ^ w -> umul ck w a b = Ret (a * b).
Proof. intros. unfold umul. apply N.ltb_lt in H. now rewrite H. Qed.
Lemma ushl_ok : forall ck w a k, k < w -> ushl ck w a k = Ret ((a * 2 ^ k) mod 2 ^ w).
Proof. intros. unfold ushl. apply N.ltb_lt in H. now rewrite H, N.shiftl_mul_pow2. Qed.
Lemma ushr_ok : forall ck w a k, k < w -> ushr ck w a k = Ret (a / 2 ^ k).
Proof. intros. unfold ushr. apply N.ltb_lt in H. now rewrite H, N.shiftr_div_pow2. Qed.

Lemma for_each_app : forall (A S : Type) (l1 l2 : list A) (body : S -> A -> M S) s,
  for_each (l1 ++ l2) body s = let* s' := for_each l1 body s in for_each l2 body s'.
Proof.
  induction l1 as [|x l1 IH]; intros; simpl; [reflexivity|].
  destruct (body s x); simpl; auto.
Qed.

Lemma for_each_ret : forall (A S : Type) (f : S -> A -> S) (l : list A) (s : S),
  for_each l (fun s x => Ret (f s x)) s = Ret (fold_left f l s).
Proof. induction l; intros; simpl; auto. Qed.

(** Invariant rule for loops. *)
Lemma for_each_inv : forall (A S : Type) (P : list A -> S -> Prop) (body : S -> A -> M S)
    (l done : list A) (s : S),
  P done s ->
  (forall done x s, P done s -> In x l -> exists s', body s x = Ret s' /\ P (done ++ [x]) s') ->
  exists s', for_each l body s = Ret s' /\ P (done ++ l) s'.
Proof.
  intros A S P body l. induction l as [|x l IH]; intros done s H0 Hb; simpl.
  - exists s. rewrite app_nil_r. auto.
  - destruct (Hb done x s H0 (or_introl eq_refl)) as (s1 & E1 & P1).
    rewrite E1. simpl.
    destruct (IH (done ++ [x]) s1 P1) as (s2 & E2 & P2).
    + intros d y s' Hp Hi. apply (Hb d y s'); auto. now right.
    + exists s2. rewrite <- app_assoc in P2. auto.
Qed.

(** ** Powers, divisions *)
Lemma pow2_pos : forall n, 0 < 2 ^ n.
Proof. intros. apply N.neq_0_lt_0, N.pow_nonzero. discriminate. Qed.
Lemma pow2_nz : forall n, 2 ^ n <> 0.
Proof. intros. apply N.pow_nonzero. discriminate. Qed.
#[export] Hint Resolve pow2_pos pow2_nz : core.
Lemma pow2_le : forall a b, a <= b -> 2 ^ a <= 2 ^ b.
Proof. intros. apply N.pow_le_mono_r; [discriminate|assumption]. Qed.
Lemma pow2_lt : forall a b, a < b -> 2 ^ a < 2 ^ b.
Proof. intros. apply N.pow_lt_mono_r; [reflexivity|assumption]. Qed.
Lemma pow2_split : forall a b, b <= a -> 2 ^ a = 2 ^ (a - b) * 2 ^ b.
Proof. intros. rewrite <- N.pow_add_r. f_equal. lia. Qed.
Lemma pow2_S : forall a, 2 ^ (a + 1) = 2 * 2 ^ a.
Proof. intros. rewrite N.pow_add_r. rewrite N.pow_1_r. lia. Qed.

Lemma div_mod_eq : forall a b, b <> 0 -> a = b * (a / b) + a mod b.
Proof. intros. apply N.div_mod. assumption. Qed.

Lemma mul_pow2_mod : forall a p W, p <= W ->
  (a * 2 ^ p) mod 2 ^ W = (a mod 2 ^ (W - p)) * 2 ^ p.
Proof.
  intros. rewrite (pow2_split W p H). rewrite N.mul_mod_distr_r; auto.
Qed.

Lemma div_lt_pow2 : forall a p W, p <= W -> a < 2 ^ W -> a / 2 ^ p < 2 ^ (W - p).
Proof.
  intros. apply N.div_lt_upper_bound; auto. rewrite N.mul_comm, <- pow2_split; auto.
Qed.

Lemma mod_small' : forall a b, a < b -> a mod b = a.
Proof. intros. now apply N.mod_small. Qed.

(** ** Bitwise operations as arithmetic *)
Lemma testbit_small : forall a n, a < 2 ^ n -> forall m, n <= m -> N.testbit a m = false.
Proof.
  intros a n H m Hm. destruct (N.eq_dec a 0) as [->|Ha].
  - apply N.bits_0.
  - apply N.bits_above_log2. apply N.log2_lt_pow2; [lia|].
    apply N.lt_le_trans with (2 ^ n); auto. now apply pow2_le.
Qed.

Lemma land_mul_small : forall a b k, b < 2 ^ k -> N.land (a * 2 ^ k) b = 0.
Proof.
  intros. apply N.bits_inj. intro m. rewrite N.land_spec, N.bits_0.
  destruct (N.lt_ge_cases m k).
  - rewrite N.mul_pow2_bits_low; auto.
  - rewrite (testbit_small b k H m); auto. apply andb_false_r.
Qed.

Lemma lor_add : forall a b, N.land a b = 0 -> N.lor a b = a + b.
Proof. intros. rewrite N.add_nocarry_lxor by auto. symmetry. now apply N.lxor_lor. Qed.

Lemma lor_mul_add : forall a b k, b < 2 ^ k -> N.lor (a * 2 ^ k) b = a * 2 ^ k + b.
Proof. intros. apply lor_add. now apply land_mul_small. Qed.

Lemma land_mask : forall a n, N.land a (2 ^ n - 1) = a mod 2 ^ n.
Proof.
  intros. replace (2 ^ n - 1) with (N.ones n) by (rewrite N.ones_equiv; lia).
  apply N.land_ones.
Qed.

(** ** Leading zeros *)
Lemma log2_mul_add : forall r k b, r <> 0 -> b < 2 ^ k -> N.log2 (r * 2 ^ k + b) = N.log2 r + k.
Proof.
  intros. destruct (N.log2_spec r) as [L U]; [lia|].
  apply N.log2_unique; [lia|]. rewrite N.pow_add_r.
  replace (N.succ (N.log2 r + k)) with (N.succ (N.log2 r) + k) by lia.
  rewrite N.pow_add_r. split.
  - nia.
  - assert (r + 1 <= 2 ^ N.succ (N.log2 r)) by lia. nia.
Qed.

Lemma size_log2' : forall a, a <> 0 -> N.size a = N.log2 a + 1.
Proof. intros. rewrite N.size_log2; auto. lia. Qed.

Lemma leading_zeros_rank : forall W p h, 1 <= p -> p <= W -> h < 2 ^ W ->
  1 + leading_zeros W (N.lor ((h * 2 ^ p) mod 2 ^ W) (2 ^ (p - 1))) = rank W p h.
Proof.
  intros W p h Hp HW Hh. rewrite mul_pow2_mod by auto.
  unfold rank. set (rest := h mod 2 ^ (W - p)).
  assert (Hlt : rest < 2 ^ (W - p)) by (apply N.mod_lt; auto).
  assert (Hp1 : 2 ^ (p - 1) < 2 ^ p) by (apply pow2_lt; lia).
  rewrite lor_mul_add by auto.
  unfold leading_zeros. destruct (rest =? 0) eqn:E.
  - apply N.eqb_eq in E. rewrite E. rewrite N.mul_0_l, N.add_0_l.
    rewrite size_log2' by auto. rewrite N.log2_pow2 by lia. lia.
  - apply N.eqb_neq in E.
    rewrite size_log2' by (pose proof (pow2_pos p); nia).
    rewrite log2_mul_add by auto.
    assert (N.log2 rest < W - p) by (apply N.log2_lt_pow2; lia). lia.
Qed.

Lemma rank_bounds : forall W p h, p <= W -> 1 <= rank W p h <= W - p + 1.
Proof.
  intros. unfold rank. set (rest := h mod 2 ^ (W - p)).
  assert (Hlt : rest < 2 ^ (W - p)) by (apply N.mod_lt; auto).
  destruct (rest =? 0) eqn:E; [lia|]. apply N.eqb_neq in E.
  assert (N.log2 rest < W - p) by (apply N.log2_lt_pow2; lia). lia.
Qed.

Lemma bucket_lt : forall W p h, p <= W -> h < 2 ^ W -> bucket W p h < 2 ^ p.
Proof.
  intros. unfold bucket. replace p with (W - (W - p)) at 2 by lia.
  apply div_lt_pow2; auto. lia.
Qed.

(** ** Lists *)
Lemma len_length : forall (A : Type) (l : list A), len l = N.of_nat (length l).
Proof. reflexivity. Qed.

Lemma index_ok : forall (A : Type) (v : list A) i x,
  nth_error v (N.to_nat i) = Some x -> index v i = Ret x.
Proof. intros. unfold index. now rewrite H. Qed.

Lemma index_inv : forall (A : Type) (v : list A) i x,
  index v i = Ret x -> nth_error v (N.to_nat i) = Some x.
Proof. intros A v i x. unfold index. destruct (nth_error v (N.to_nat i)); congruence. Qed.

Lemma update_nat_length : forall (A : Type) (v : list A) i x,
  length (update_nat v i x) = length v.
Proof. induction v; intros [|i] x; simpl; auto. Qed.

Lemma update_nat_same : forall (A : Type) (v : list A) i x, (i < length v)%nat ->
  nth_error (update_nat v i x) i = Some x.
Proof.
  induction v; intros [|i] x H; simpl in *; try lia; auto. apply IHv. lia.
Qed.

Lemma update_nat_other : forall (A : Type) (v : list A) i j x, i <> j ->
  nth_error (update_nat v i x) j = nth_error v j.
Proof.
  induction v; intros [|i] [|j] x H; simpl in *; auto; try congruence.
Qed.

Lemma update_nat_app_r : forall (A : Type) (u v : list A) i x,
  update_nat (u ++ v) (length u + i) x = u ++ update_nat v i x.
Proof. induction u; intros; simpl; auto. now f_equal. Qed.

Lemma update_nat_app_l : forall (A : Type) (u v : list A) i x, (i < length u)%nat ->
  update_nat (u ++ v) i x = update_nat u i x ++ v.
Proof.
  induction u; intros v [|i] x H; simpl in *; auto; try lia. f_equal. apply IHu. lia.
Qed.

Lemma nth_error_ext : forall (A : Type) (u v : list A),
  (forall i, nth_error u i = nth_error v i) -> u = v.
Proof.
  induction u; intros [|b v] H; auto.
  - specialize (H O). discriminate.
  - specialize (H O). discriminate.
  - pose proof (H O) as H0. simpl in H0. inv H0. f_equal. apply IHu. intro i. apply (H (S i)).
Qed.

Lemma range_length : forall n, length (range n) = N.to_nat n.
Proof. intros. unfold range. now rewrite map_length, seq_length. Qed.
Lemma range_nth : forall n i, (i < N.to_nat n)%nat -> nth_error (range n) i = Some (N.of_nat i).
Proof.
  intros. unfold range. rewrite nth_error_map.
  rewrite (nth_error_nth' _ O) by (now rewrite seq_length). rewrite seq_nth by auto. reflexivity.
Qed.
Lemma range_in : forall n x, In x (range n) <-> x < n.
Proof.
  intros. unfold range. rewrite in_map_iff. split.
  - intros (k & <- & H). apply in_seq in H. lia.
  - intros H. exists (N.to_nat x). split; [lia|]. apply in_seq. lia.
Qed.
Lemma range_NoDup : forall n, NoDup (range n).
Proof.
  intros. unfold range. apply FinFun.Injective_map_NoDup; [|apply seq_NoDup].
  intros a b H. lia.
Qed.

Lemma NoDup_incl_len : forall (l l' : list N), NoDup l -> incl l l' -> (length l <= length l')%nat.
Proof. intros. now apply NoDup_incl_length. Qed.
