(** * Distribution of the registers over all hash assignments *)
From Coq Require Import NArith List Bool Lia Permutation.
From Verif Require Import ModelRust Spec SpecDist BitFacts CountFacts.
Import ListNotations.
Local Open Scope N_scope.

(** ** Sums *)
Lemma sum_app : forall a b, sum (a ++ b) = sum a + sum b.
Proof. induction a; intros b; [reflexivity|]. cbn [app]. cbn [sum fold_right]. unfold sum in *. rewrite IHa. lia. Qed.

Lemma sum_map_ext : forall (A : Type) (f g : A -> N) l, (forall x, In x l -> f x = g x) ->
  sum (map f l) = sum (map g l).
Proof. intros A f g l H. f_equal. now apply map_ext_in. Qed.

Lemma sum_map_add : forall (A : Type) (f g : A -> N) l,
  sum (map (fun x => f x + g x) l) = sum (map f l) + sum (map g l).
Proof. induction l; cbn; [reflexivity|]. unfold sum in *. rewrite IHl. lia. Qed.

Lemma sum_map_mul : forall (A : Type) (f : A -> N) c l,
  sum (map (fun x => c * f x) l) = c * sum (map f l).
Proof. induction l; cbn; [now rewrite N.mul_0_r|]. unfold sum in *. rewrite IHl. lia. Qed.

Lemma sum_map_const : forall (A : Type) (c : N) (l : list A),
  sum (map (fun _ => c) l) = N.of_nat (length l) * c.
Proof. induction l; [reflexivity|]. cbn [map length]. cbn [sum fold_right]. unfold sum in IHl. rewrite IHl. lia. Qed.

Lemma sum_swap : forall (A B : Type) (f : A -> B -> N) la lb,
  sum (map (fun a => sum (map (f a) lb)) la) = sum (map (fun b => sum (map (fun a => f a b) la)) lb).
Proof.
  induction la; intros lb.
  - cbn. rewrite sum_map_const. lia.
  - cbn [map]. cbn [sum fold_right].
    change (sum (map (f a) lb) + sum (map (fun a => sum (map (f a) lb)) la) =
            sum (map (fun b => f a b + sum (map (fun a => f a b) la)) lb)).
    rewrite IHla, sum_map_add. reflexivity.
Qed.

Lemma sum_indicator : forall (A : Type) (f : A -> bool) l,
  sum (map (fun x => N.b2n (f x)) l) = N.of_nat (length (filter f l)).
Proof.
  induction l; [reflexivity|]. cbn [map filter]. cbn [sum fold_right]. unfold sum in IHl. rewrite IHl.
  destruct (f a); cbn [length N.b2n]; lia.
Qed.

(** ** Counting *)
Lemma size_of_has : forall P n, has_size P n <-> size_of P n.
Proof.
  intros P n. split; intros (l & H); exists l; unfold enumerates in *; tauto.
Qed.

Lemma enum_length : forall (A : Type) (P : A -> Prop) l l', enumerates P l -> enumerates P l' ->
  length l = length l'.
Proof.
  intros A P l l' [N1 H1] [N2 H2]. apply Permutation_length, NoDup_Permutation; auto.
  intros x. now rewrite H1, H2.
Qed.

Lemma enum_perm : forall (A : Type) (P : A -> Prop) l l', enumerates P l -> enumerates P l' ->
  Permutation l l'.
Proof.
  intros A P l l' [N1 H1] [N2 H2]. apply NoDup_Permutation; auto. intros x. now rewrite H1, H2.
Qed.

Lemma size_of_unique : forall (A : Type) (P : A -> Prop) n n', size_of P n -> size_of P n' -> n = n'.
Proof.
  intros A P n n' (l & H & <-) (l' & H' & <-). now rewrite (enum_length A P l l').
Qed.

Lemma size_of_ext : forall (A : Type) (P Q : A -> Prop) n, (forall x, P x <-> Q x) ->
  size_of P n -> size_of Q n.
Proof.
  intros A P Q n E (l & [N1 H] & L). exists l. split; [|exact L]. split; [exact N1|].
  intros x. now rewrite H.
Qed.

(** Filtering an enumeration. *)
Lemma enum_filter : forall (A : Type) (P : A -> Prop) (f : A -> bool) l, enumerates P l ->
  enumerates (fun x => P x /\ f x = true) (filter f l).
Proof.
  intros A P f l [N1 H]. split; [now apply NoDup_filter|]. intros x. now rewrite filter_In, H.
Qed.

Lemma size_diff : forall (A : Type) (dec : forall x y : A, {x = y} + {x <> y}) (P Q : A -> Prop) n m,
  size_of P n -> size_of Q m ->
  (forall x, Q x -> P x) -> size_of (fun x => P x /\ ~ Q x) (n - m).
Proof.
  intros A dec P Q n m (lp & Ep & <-) (lq & Eq & <-) S.
  set (f := fun x => if in_dec dec x lq then true else false).
  exists (filter (fun x => negb (f x)) lp). split.
  - pose proof (enum_filter A P (fun x => negb (f x)) lp Ep) as [N1 H]. split; [exact N1|].
    intros x. rewrite H. unfold f. destruct Eq as [_ Hq].
    destruct (in_dec dec x lq) as [i|i]; cbn [negb]; rewrite Hq in i; split; intros [? ?];
      (split; [assumption|]); congruence || tauto.
  - assert (E : enumerates Q (filter f lp)).
    { pose proof (enum_filter A P f lp Ep) as [N1 H]. split; [exact N1|]. intros x. rewrite H.
      unfold f. destruct Eq as [_ Hq]. destruct (in_dec dec x lq) as [i|i]; rewrite Hq in i.
      - specialize (S x). tauto.
      - split; [intros [_ ?]; discriminate|tauto]. }
    rewrite (enum_length A Q lq _ Eq E).
    assert (length (filter f lp) + length (filter (fun x => negb (f x)) lp) = length lp)%nat.
    { clear. induction lp; [reflexivity|]. cbn [filter]. destruct (f a); cbn [negb length]; lia. }
    lia.
Qed.

(** Lists of [n] elements of a set. *)
Fixpoint lists_of (l : list N) (n : nat) : list (list N) :=
  match n with
  | O => [[]]
  | S n => flat_map (fun x => map (cons x) (lists_of l n)) l
  end.

Lemma lists_of_in : forall l n t, In t (lists_of l n) <-> length t = n /\ Forall (fun x => In x l) t.
Proof.
  induction n; intros t; cbn [lists_of].
  - cbn [In]. split.
    + intros [<-|[]]. auto.
    + intros [H _]. destruct t; [now left|discriminate].
  - rewrite in_flat_map. split.
    + intros (x & Hx & Ht). apply in_map_iff in Ht. destruct Ht as (t' & <- & Ht).
      apply IHn in Ht. destruct Ht. cbn [length]. split; [congruence|]. now constructor.
    + intros [H1 H2]. destruct t as [|x t]; [discriminate|]. inversion H2; subst. exists x.
      split; [assumption|]. apply in_map, IHn. cbn [length] in H1. split; [congruence|assumption].
Qed.

Lemma nodup_flat : forall (A : Type) (l : list A) (ls : list (list A)), NoDup l -> NoDup ls ->
  NoDup (flat_map (fun x => map (cons x) ls) l).
Proof.
  intros A l ls Hl Hs. induction Hl; cbn [flat_map]; [constructor|].
  assert (App : forall (B : Type) (a b : list B), NoDup a -> NoDup b ->
    (forall y, In y a -> ~ In y b) -> NoDup (a ++ b)).
  { clear. induction a; intros b Ha Hb D; [exact Hb|]. cbn [app]. inversion Ha; subst. constructor.
    - rewrite in_app_iff. intros [?|?]; [tauto|]. apply (D a); [now left|assumption].
    - apply IHa; auto. intros y Hy. apply D. now right. }
  apply App; [| exact IHHl|].
  - apply FinFun.Injective_map_NoDup; [|exact Hs]. intros a b E. now inversion E.
  - intros y Hy Hy'. apply in_map_iff in Hy. destruct Hy as (t & <- & _).
    apply in_flat_map in Hy'. destruct Hy' as (z & Hz & Hy'). apply in_map_iff in Hy'.
    destruct Hy' as (t' & E & _). inversion E; subst. tauto.
Qed.

Lemma lists_of_length : forall l n, length (lists_of l n) = Nat.pow (length l) n.
Proof.
  induction n; [reflexivity|]. cbn [lists_of Nat.pow]. rewrite <- IHn.
  generalize (lists_of l n). clear IHn. intros ls. induction l; [reflexivity|]. cbn [flat_map length Nat.mul].
  now rewrite app_length, map_length, IHl.
Qed.

Lemma lists_size : forall (P : N -> Prop) c n, size_of P c ->
  size_of (fun t => length t = n /\ Forall P t) (c ^ N.of_nat n).
Proof.
  intros P c n (l & [N1 H] & <-). exists (lists_of l n). split; [split|].
  - induction n; cbn [lists_of]; [repeat constructor; intros []|]. now apply nodup_flat.
  - intros t. rewrite lists_of_in. split; intros [? F]; (split; [assumption|]);
      (eapply Forall_impl; [|exact F]); intros x; apply H.
  - rewrite lists_of_length. clear. induction n; [reflexivity|]. cbn [Nat.pow].
    rewrite Nnat.Nat2N.inj_mul, IHn, Nnat.Nat2N.inj_succ, N.pow_succ_r'. reflexivity.
Qed.

(** ** Registers *)
Lemma rank_above : forall W p h k, p < W -> k <= W - p ->
  (k < rank W p h <-> h mod 2 ^ (W - p) < 2 ^ (W - p - k)).
Proof.
  intros W p h k Hp Hk. unfold rank. cbv zeta.
  destruct (N.eqb_spec (h mod 2 ^ (W - p)) 0) as [E|E].
  - rewrite E. assert (2 ^ (W - p - k) <> 0) by (apply N.pow_nonzero; discriminate).
    revert H. generalize (2 ^ (W - p - k)). lia.
  - assert (Hx : 0 < h mod 2 ^ (W - p)) by (apply N.neq_0_lt_0; exact E). clear E.
    assert (Hl : h mod 2 ^ (W - p) < 2 ^ (W - p)) by (apply N.mod_lt, N.pow_nonzero; discriminate).
    revert Hx Hl. generalize (h mod 2 ^ (W - p)). intros x Hx Hl.
    pose proof (proj1 (N.log2_lt_pow2 x (W - p) Hx) Hl) as L.
    rewrite (N.log2_lt_pow2 x (W - p - k) Hx). lia.
Qed.

(** Hashes that leave register [i] at most [k]. *)
Lemma low_size : forall W p i k, p < W -> i < 2 ^ p -> k <= W - p ->
  size_of (fun h => h < 2 ^ W /\ (bucket W p h = i -> rank W p h <= k)) (2 ^ W - 2 ^ (W - p - k)).
Proof.
  intros W p i k Hp Hi Hk.
  assert (A : size_of (fun h => h < 2 ^ W) (2 ^ W)).
  { apply size_of_has. eapply has_size_ext; [|apply (seq_size 0 (2 ^ W))]. intros x. cbv beta. lia. }
  assert (B : size_of (fun h => h < 2 ^ W /\ bucket W p h = i /\ k < rank W p h) (2 ^ (W - p - k))).
  { apply size_of_has. eapply has_size_ext; [|apply (bucket_interval W p i 0 (2 ^ (W - p - k)) Hp Hi)].
    - intros h. cbv beta. rewrite (rank_above W p h k Hp Hk). generalize (2 ^ (W - p - k)), (h mod 2 ^ (W - p)). intros.
      split; intros (X & Y & Z); (split; [auto|split; [auto|lia]]).
    - assert (2 ^ (W - p - k) <= 2 ^ (W - p)) by (apply N.pow_le_mono_r; lia). lia. }
  eapply size_of_ext; [|exact (size_diff N N.eq_dec _ _ _ _ A B (fun x H => proj1 H))].
  intros h. cbv beta. split; intros [X Y]; (split; [exact X|]).
  - intros E. destruct (N.le_gt_cases (rank W p h) k); [assumption|]. exfalso. apply Y. auto.
  - intros (_ & E & L). specialize (Y E). lia.
Qed.

Lemma register_le : forall W p hs i v k, p < W -> k <= W - p -> is_register W p hs i v ->
  (v <= k <-> Forall (fun h => bucket W p h = i -> rank W p h <= k) hs).
Proof.
  intros W p hs i v k Hp Hk [U A]. rewrite Forall_forall. split.
  - intros L h Hh E. specialize (U h Hh E). lia.
  - intros F. destruct A as [->|(h & Hh & E & <-)]; [lia|]. now apply F.
Qed.

Lemma file_nth : forall W p hs l i, is_register_file W p hs l -> i < 2 ^ p ->
  is_register W p hs i (nth (N.to_nat i) l 0).
Proof.
  intros W p hs l i [L F] Hi. apply F. apply nth_error_nth'. lia.
Qed.

Theorem register_distribution : forall W p n file i k,
  p < W -> register_files W p n file -> i < 2 ^ p -> k <= W - p ->
  size_of (fun hs => hash_list W n hs /\ nth (N.to_nat i) (file hs) 0 <= k)
          ((2 ^ W - 2 ^ (W - p - k)) ^ N.of_nat n).
Proof.
  intros W p n file i k Hp F Hi Hk.
  eapply size_of_ext; [|exact (lists_size _ _ n (low_size W p i k Hp Hi Hk))].
  intros hs. cbv beta. unfold hash_list. split.
  - intros [L H]. apply Forall_and_inv in H. destruct H as [H1 H2].
    split; [split; assumption|]. apply (register_le W p hs i); auto. apply file_nth; auto.
    apply F. split; assumption.
  - intros [[L H1] H2]. split; [exact L|]. apply Forall_and; [exact H1|].
    apply (register_le W p hs i _ k Hp Hk (file_nth W p hs _ i (F hs (conj L H1)) Hi)), H2.
Qed.

(** ** Expectations *)

Lemma nth_range : forall l m, N.of_nat (length l) = m ->
  l = map (fun i => nth (N.to_nat i) l 0) (range m).
Proof.
  intros l m <-. unfold range. rewrite map_map, Nnat.Nat2N.id.
  transitivity (map (fun i => nth i l 0) (seq 0 (length l))).
  - induction l; [reflexivity|]. cbn [length seq map]. f_equal.
    rewrite <- seq_shift, map_map. exact IHl.
  - apply map_ext. intros i. now rewrite Nnat.Nat2N.id.
Qed.

(** Over all lists of hashes, the number of registers that are at most [k]. *)
Lemma low_total : forall W p n file all k,
  p < W -> register_files W p n file -> enumerates (hash_list W n) all -> k <= W - p ->
  sum (map (fun hs => sum (map (fun v => N.b2n (v <=? k)) (file hs))) all)
  = 2 ^ p * (2 ^ W - 2 ^ (W - p - k)) ^ N.of_nat n.
Proof.
  intros W p n file all k Hp F E Hk.
  transitivity (sum (map (fun hs => sum (map (fun i => N.b2n (nth (N.to_nat i) (file hs) 0 <=? k))
                                             (range (2 ^ p)))) all)).
  { apply sum_map_ext. intros hs Hh. apply E in Hh. destruct (F hs Hh) as [L _].
    f_equal. rewrite <- (map_map (fun i => nth (N.to_nat i) (file hs) 0) (fun v => N.b2n (v <=? k))).
    f_equal. now apply nth_range. }
  rewrite sum_swap.
  transitivity (sum (map (fun _ : N => (2 ^ W - 2 ^ (W - p - k)) ^ N.of_nat n) (range (2 ^ p)))).
  { apply sum_map_ext. intros i Hi. apply range_in in Hi. rewrite sum_indicator.
    apply (size_of_unique _ (fun hs => hash_list W n hs /\ nth (N.to_nat i) (file hs) 0 <= k));
      [|now apply register_distribution].
    exists (filter (fun hs => nth (N.to_nat i) (file hs) 0 <=? k) all). split; [|reflexivity].
    pose proof (enum_filter _ _ (fun hs => nth (N.to_nat i) (file hs) 0 <=? k) all E) as [N1 H].
    split; [exact N1|]. intros hs. rewrite H, N.leb_le. reflexivity. }
  rewrite sum_map_const, range_length, Nnat.N2Nat.id. reflexivity.
Qed.

Lemma zero_count_sum : forall l, zero_count l = sum (map (fun v => N.b2n (v <=? 0)) l).
Proof.
  intros l. unfold zero_count. rewrite sum_indicator. f_equal. f_equal. apply filter_ext.
  intros v. destruct v; reflexivity.
Qed.

Theorem expected_zeros : forall W p n file all,
  p < W -> register_files W p n file -> enumerates (hash_list W n) all ->
  sum (map (fun hs => zero_count (file hs)) all) = 2 ^ p * (2 ^ W - 2 ^ (W - p)) ^ N.of_nat n.
Proof.
  intros W p n file all Hp F E.
  transitivity (sum (map (fun hs => sum (map (fun v => N.b2n (v <=? 0)) (file hs))) all)).
  { apply sum_map_ext. intros hs _. apply zero_count_sum. }
  rewrite (low_total W p n file all 0 Hp F E) by lia. now rewrite N.sub_0_r.
Qed.

(** [2^(K-v)] as a sum of indicators. *)
Lemma pow_indicators : forall K v, v <= K ->
  2 ^ (K - v) = 1 + sum (map (fun k => 2 ^ (K - 1 - k) * N.b2n (v <=? k)) (range K)).
Proof.
  intros K v Hv. remember (N.to_nat (K - v)) as d eqn:D. revert K Hv D. induction d; intros K Hv D.
  - assert (v = K) by lia. subst v. rewrite N.sub_diag.
    rewrite (sum_map_ext _ _ (fun _ => 0)), sum_map_const; [lia|].
    intros k Hk. apply range_in in Hk. destruct (N.leb_spec K k); [lia|]. apply N.mul_0_r.
  - assert (HK : v <= K - 1) by lia. specialize (IHd (K - 1) HK ltac:(lia)).
    replace (K - v) with (N.succ (K - 1 - v)) by lia. rewrite N.pow_succ_r', IHd.
    assert (RK : range K = range (K - 1) ++ [K - 1]).
    { unfold range. replace (N.to_nat K) with (S (N.to_nat (K - 1))) by lia.
      rewrite seq_S, map_app. cbn [map Nat.add]. now rewrite Nnat.N2Nat.id. }
    rewrite RK, map_app, sum_app.
    replace (sum (map (fun k => 2 ^ (K - 1 - k) * N.b2n (v <=? k)) [K - 1])) with 1.
    2:{ cbn [map]. rewrite N.sub_diag. destruct (N.leb_spec v (K - 1)); [reflexivity|lia]. }
    rewrite (sum_map_ext _ (fun k => 2 ^ (K - 1 - k) * N.b2n (v <=? k))
               (fun k => 2 * (2 ^ (K - 1 - 1 - k) * N.b2n (v <=? k))) (range (K - 1))).
    + rewrite (sum_map_mul _ (fun k => 2 ^ (K - 1 - 1 - k) * N.b2n (v <=? k)) 2).
      generalize (sum (map (fun k => 2 ^ (K - 1 - 1 - k) * N.b2n (v <=? k)) (range (K - 1)))). lia.
    + intros k Hk. apply range_in in Hk. rewrite N.mul_assoc, <- N.pow_succ_r'. f_equal. f_equal. lia.
Qed.

Lemma file_le : forall W p hs l, p < W -> Forall (fun h => h < 2 ^ W) hs ->
  is_register_file W p hs l -> Forall (fun v => v <= W - p + 1) l.
Proof.
  intros W p hs l Hp Hh [L F]. apply Forall_forall. intros v Hv. apply In_nth_error in Hv.
  destruct Hv as (j & Hj). specialize (F (N.of_nat j) v). rewrite Nnat.Nat2N.id in F.
  destruct (F Hj) as [_ [->|(h & Hi & _ & <-)]]; [lia|].
  assert (2 ^ p <> 0) by (apply N.pow_nonzero; discriminate). rewrite Forall_forall in Hh.
  apply (rank_distribution W p 0 Hp ltac:(lia)), Hh, Hi.
Qed.

(** The harmonic sum scaled by [2^(W-p+1)]. *)
Theorem expected_harmonic : forall W p n file all,
  p < W -> register_files W p n file -> enumerates (hash_list W n) all ->
  sum (map (fun hs => sum (map (fun v => 2 ^ (W - p + 1 - v)) (file hs))) all)
  = 2 ^ p * (2 ^ (W * N.of_nat n) +
             sum (map (fun k => 2 ^ (W - p - k) * (2 ^ W - 2 ^ (W - p - k)) ^ N.of_nat n)
                      (range (W - p + 1)))).
Proof.
  intros W p n file all Hp F E. set (K := W - p + 1).
  assert (T : N.of_nat (length all) = 2 ^ (W * N.of_nat n)).
  { rewrite N.pow_mul_r. apply (size_of_unique _ (hash_list W n)); [now exists all|].
    eapply size_of_ext; [|apply (lists_size (fun h => h < 2 ^ W) (2 ^ W) n)]; [reflexivity|].
    apply size_of_has. eapply has_size_ext; [|apply (seq_size 0 (2 ^ W))]. intros x. cbv beta. lia. }
  transitivity (sum (map (fun hs => 2 ^ p + sum (map (fun k => 2 ^ (K - 1 - k) *
                   sum (map (fun v => N.b2n (v <=? k)) (file hs))) (range K))) all)).
  { apply sum_map_ext. intros hs Hh. apply E in Hh. pose proof (F hs Hh) as G.
    pose proof (file_le W p hs _ Hp (proj2 Hh) G) as Le. destruct G as [L _]. rewrite <- L.
    rewrite Forall_forall in Le.
    rewrite (sum_map_ext _ (fun v => 2 ^ (K - v)) (fun v => 1 +
      sum (map (fun k => 2 ^ (K - 1 - k) * N.b2n (v <=? k)) (range K))))
      by (intros v Hv; apply pow_indicators, Le, Hv).
    rewrite sum_map_add, sum_map_const, N.mul_1_r. f_equal. rewrite sum_swap.
    apply sum_map_ext. intros k _. apply (sum_map_mul _ (fun v => N.b2n (v <=? k))). }
  rewrite sum_map_add, sum_map_const, T, N.mul_add_distr_l, (N.mul_comm _ (2 ^ p)). f_equal.
  rewrite sum_swap, <- sum_map_mul. apply sum_map_ext. intros k Hk. apply range_in in Hk.
  rewrite (sum_map_mul _ (fun hs => sum (map (fun v => N.b2n (v <=? k)) (file hs)))).
  rewrite (low_total W p n file all k Hp F E) by (unfold K in Hk; lia).
  replace (K - 1 - k) with (W - p - k) by (unfold K; lia). lia.
Qed.
