(** * Sparse codes over all hash assignments *)
From Coq Require Import NArith List Bool Lia Permutation Sorted.
From Verif Require Import ModelRust Spec SpecDist BitFacts CountFacts DistFacts.
Import ListNotations.
Local Open Scope N_scope.

(** The prefixes whose codes carry a rank; the others. *)
Definition ranked (p q : N) : Prop := q < 2 ^ 25 /\ q mod 2 ^ (25 - p) = 0.
Definition plain (p q : N) : Prop := q < 2 ^ 25 /\ q mod 2 ^ (25 - p) <> 0.

(** Hashes with rank [r] after a given 25-bit prefix. *)
Definition weight (r : N) : N := if r =? 40 then 1 else 2 ^ (39 - r).

Lemma prefix_bucket : forall h, prefix25 h = bucket 64 25 h.
Proof. reflexivity. Qed.

Lemma prefix_lt : forall h, h < 2 ^ 64 -> prefix25 h < 2 ^ 25.
Proof. intros h Hh. apply N.div_lt_upper_bound; [discriminate|exact Hh]. Qed.

Lemma rank25 : forall h, h < 2 ^ 64 -> 1 <= rank 64 25 h <= 40.
Proof. intros h Hh. exact (proj2 (proj2 (proj2 (proj2 (rank_distribution 64 25 0 eq_refl eq_refl))) h Hh)). Qed.

Lemma plain_class : forall p q, plain p q ->
  size_of (fun h => h < 2 ^ 64 /\ sparse_code p h = 2 * q) (2 ^ 39).
Proof.
  intros p q [Hq Hm]. apply size_of_has.
  eapply has_size_ext; [|exact (proj1 (proj2 (proj2 (rank_distribution 64 25 q eq_refl Hq))))].
  intros h. cbv beta. rewrite <- prefix_bucket. split; intros [Hh E]; (split; [exact Hh|]).
  - unfold sparse_code. rewrite E. destruct (N.eqb_spec (q mod 2 ^ (25 - p)) 0); [tauto|]. apply N.mul_comm.
  - unfold sparse_code in E. destruct (N.eqb_spec (prefix25 h mod 2 ^ (25 - p)) 0) as [M|M]; [|lia].
    exfalso. change (2 ^ 7) with 128 in E. lia.
Qed.

Lemma ranked_class : forall p q r, ranked p q -> 1 <= r <= 40 ->
  size_of (fun h => h < 2 ^ 64 /\ sparse_code p h = 128 * q + 2 * r + 1) (weight r).
Proof.
  intros p q r [Hq Hm] Hr. apply size_of_has.
  assert (E : forall h, (h < 2 ^ 64 /\ bucket 64 25 h = q /\ rank 64 25 h = r) <->
                        (h < 2 ^ 64 /\ sparse_code p h = 128 * q + 2 * r + 1)).
  { intros h. rewrite <- prefix_bucket. split.
    - intros (Hh & E1 & E2). split; [exact Hh|]. unfold sparse_code. rewrite E1, Hm, E2.
      cbn [N.eqb]. change (2 ^ 7) with 128. lia.
    - intros [Hh E]. split; [exact Hh|]. pose proof (rank25 h Hh). unfold sparse_code in E.
      destruct (N.eqb_spec (prefix25 h mod 2 ^ (25 - p)) 0) as [M|M]; [|lia].
      change (2 ^ 7) with 128 in E. lia. }
  destruct (rank_distribution 64 25 q eq_refl Hq) as (A & B & _).
  unfold weight. destruct (N.eqb_spec r 40) as [->|Hr40].
  - eapply has_size_ext; [exact E|exact B].
  - eapply has_size_ext; [exact E|]. apply (A r). change (64 - 25) with 39. lia.
Qed.

(** Lists of hashes in which a class occurs. *)
Lemma all_size : forall W n, size_of (hash_list W n) (2 ^ (W * N.of_nat n)).
Proof.
  intros W n. rewrite N.pow_mul_r.
  eapply size_of_ext; [|apply (lists_size (fun h => h < 2 ^ W) (2 ^ W) n)]; [reflexivity|].
  apply size_of_has. eapply has_size_ext; [|apply (seq_size 0 (2 ^ W))]. intros x. cbv beta. lia.
Qed.

Lemma hit_size : forall (P : N -> Prop) (dec : forall h, {P h} + {~ P h}) W w n,
  size_of (fun h => h < 2 ^ W /\ P h) w ->
  size_of (fun hs => hash_list W n hs /\ Exists P hs)
          (2 ^ (W * N.of_nat n) - (2 ^ W - w) ^ N.of_nat n).
Proof.
  intros P dec W w n HW.
  assert (A : size_of (fun h => h < 2 ^ W) (2 ^ W)).
  { apply size_of_has. eapply has_size_ext; [|apply (seq_size 0 (2 ^ W))]. intros x. cbv beta. lia. }
  pose proof (size_diff N N.eq_dec _ _ _ _ A HW (fun x H => proj1 H)) as D.
  pose proof (lists_size _ _ n D) as M.
  assert (I : forall hs, length hs = n /\ Forall (fun x => x < 2 ^ W /\ ~ (x < 2 ^ W /\ P x)) hs ->
    hash_list W n hs).
  { intros hs [L F]. split; [exact L|]. eapply Forall_impl; [|exact F]. intros x Hx. apply Hx. }
  pose proof (size_diff (list N) (list_eq_dec N.eq_dec) _ _ _ _ (all_size W n) M I) as R.
  eapply size_of_ext; [|exact R]. intros hs. cbv beta. split.
  - intros [H HN]. split; [exact H|]. destruct (Exists_dec P hs dec) as [E|E]; [exact E|].
    exfalso. apply HN. split; [apply H|]. destruct H as [_ H]. rewrite Forall_forall in *.
    intros x Hx. split; [now apply H|]. intros [_ Px]. apply E, Exists_exists. eauto.
  - intros [H E]. split; [exact H|]. intros [_ F]. apply Exists_exists in E. destruct E as (x & Hx & Px).
    rewrite Forall_forall in F. specialize (F x Hx). tauto.
Qed.

(** All codes. *)
Definition ranks : list N := map N.succ (range 40).
Definition code_space (lp lr : list N) : list N :=
  map (fun q => 2 * q) lp ++ flat_map (fun q => map (fun r => 128 * q + 2 * r + 1) ranks) lr.

Lemma ranks_in : forall r, In r ranks <-> 1 <= r <= 40.
Proof.
  intros r. unfold ranks. rewrite in_map_iff. split.
  - intros (x & <- & Hx). apply range_in in Hx. lia.
  - intros H. exists (r - 1). split; [lia|]. apply range_in. lia.
Qed.

Lemma ranks_nodup : NoDup ranks.
Proof.
  unfold ranks, range. rewrite map_map. apply FinFun.Injective_map_NoDup; [|apply seq_NoDup].
  intros a b E. lia.
Qed.

Lemma code_space_nodup : forall lp lr, NoDup lp -> NoDup lr -> NoDup (code_space lp lr).
Proof.
  intros lp lr Hp Hr. unfold code_space.
  assert (App : forall a b : list N, NoDup a -> NoDup b -> (forall y, In y a -> ~ In y b) -> NoDup (a ++ b)).
  { clear. induction a; intros b Ha Hb D; [exact Hb|]. cbn [app]. inversion Ha; subst. constructor.
    - rewrite in_app_iff. intros [?|?]; [tauto|]. apply (D a); [now left|assumption].
    - apply IHa; auto. intros y Hy. apply D. now right. }
  apply App.
  - apply FinFun.Injective_map_NoDup; [|exact Hp]. intros a b E. lia.
  - clear Hp lp. induction Hr as [|q lr Hq Hr IH]; [constructor|]. cbn [flat_map]. apply App; [|exact IH|].
    + apply FinFun.Injective_map_NoDup; [|exact ranks_nodup]. intros a b E. lia.
    + intros c Hc Hc'. apply in_map_iff in Hc. destruct Hc as (r & <- & Hi).
      apply in_flat_map in Hc'. destruct Hc' as (q' & Hq' & Hc'). apply in_map_iff in Hc'.
      destruct Hc' as (r' & E & Hi'). apply ranks_in in Hi, Hi'.
      assert (q = q') by lia. congruence.
  - intros c Hc Hc'. apply in_map_iff in Hc. destruct Hc as (q & <- & _).
    apply in_flat_map in Hc'. destruct Hc' as (q' & _ & Hc'). apply in_map_iff in Hc'.
    destruct Hc' as (r & E & _). lia.
Qed.

Lemma code_space_in : forall p lp lr h, enumerates (plain p) lp -> enumerates (ranked p) lr ->
  h < 2 ^ 64 -> In (sparse_code p h) (code_space lp lr).
Proof.
  intros p lp lr h [_ Hp] [_ Hr] Hh. unfold code_space, sparse_code. apply in_app_iff.
  pose proof (prefix_lt h Hh). pose proof (rank25 h Hh).
  destruct (N.eqb_spec (prefix25 h mod 2 ^ (25 - p)) 0) as [M|M].
  - right. apply in_flat_map. exists (prefix25 h). split; [apply Hr; split; assumption|].
    apply in_map_iff. exists (rank 64 25 h). split; [change (2 ^ 7) with 128; lia|now apply ranks_in].
  - left. apply in_map_iff. exists (prefix25 h). split; [lia|]. apply Hp. split; assumption.
Qed.

Lemma ranked_size : forall p, p <= 25 -> size_of (ranked p) (2 ^ p).
Proof.
  intros p Hp. exists (map (fun i => i * 2 ^ (25 - p)) (range (2 ^ p))). split.
  - assert (Z : 2 ^ (25 - p) <> 0) by (apply N.pow_nonzero; discriminate).
    assert (P : 2 ^ p * 2 ^ (25 - p) = 2 ^ 25) by (rewrite <- N.pow_add_r; f_equal; lia).
    split.
    + unfold range. rewrite map_map. apply FinFun.Injective_map_NoDup; [|apply seq_NoDup].
      intros a b E. apply N.mul_cancel_r in E; [lia|exact Z].
    + intros q. rewrite in_map_iff. unfold ranked. rewrite <- P. split.
      * intros (i & <- & Hi). apply range_in in Hi. split; [|now apply N.mod_mul].
        apply N.mul_lt_mono_pos_r; [now apply N.neq_0_lt_0|exact Hi].
      * intros [Hq Hm]. exists (q / 2 ^ (25 - p)). pose proof (N.div_mod q _ Z) as D.
        rewrite Hm, N.add_0_r in D. split; [rewrite N.mul_comm; now symmetry|].
        apply range_in. apply N.div_lt_upper_bound; [exact Z|]. now rewrite N.mul_comm.
  - rewrite map_length, range_length. apply Nnat.N2Nat.id.
Qed.

Lemma plain_size : forall p, p <= 25 -> size_of (plain p) (2 ^ 25 - 2 ^ p).
Proof.
  intros p Hp.
  assert (A : size_of (fun q => q < 2 ^ 25) (2 ^ 25)).
  { apply size_of_has. eapply has_size_ext; [|apply (seq_size 0 (2 ^ 25))]. intros x. cbv beta. lia. }
  eapply size_of_ext; [|exact (size_diff N N.eq_dec _ _ _ _ A (ranked_size p Hp) (fun x H => proj1 H))].
  intros q. cbv beta. unfold plain, ranked. tauto.
Qed.

(** The number of different codes. *)
Theorem code_space_size : forall p, p <= 25 ->
  size_of (fun c => exists h, h < 2 ^ 64 /\ sparse_code p h = c) (2 ^ 25 + 39 * 2 ^ p).
Proof.
  intros p Hp. destruct (plain_size p Hp) as (lp & Ep & Lp). destruct (ranked_size p Hp) as (lr & Er & Lr).
  exists (code_space lp lr). split; [split|].
  - apply code_space_nodup; [apply Ep|apply Er].
  - intros c. split.
    + intros Hc. unfold code_space in Hc. apply in_app_iff in Hc. destruct Hc as [Hc|Hc].
      * apply in_map_iff in Hc. destruct Hc as (q & <- & Hq). apply Ep in Hq.
        destruct (plain_class p q Hq) as (l & [_ E] & L). destruct l as [|h l]; [discriminate L|].
        exists h. apply E. now left.
      * apply in_flat_map in Hc. destruct Hc as (q & Hq & Hc). apply Er in Hq. apply in_map_iff in Hc.
        destruct Hc as (r & <- & Hr). apply ranks_in in Hr.
        destruct (ranked_class p q r Hq Hr) as (l & [_ E] & L). destruct l as [|h l].
        { exfalso. cbn in L. unfold weight in L. destruct (r =? 40); [discriminate L|].
          symmetry in L. apply N.pow_nonzero in L; [exact L|discriminate]. }
        exists h. apply E. now left.
    + intros (h & Hh & <-). now apply (code_space_in p).
  - unfold code_space. rewrite app_length, map_length.
    assert (F : length (flat_map (fun q => map (fun r => 128 * q + 2 * r + 1) ranks) lr) = (length lr * 40)%nat).
    { clear. induction lr; [reflexivity|]. cbn [flat_map]. rewrite app_length, map_length, IHlr. reflexivity. }
    rewrite F, Nnat.Nat2N.inj_add, Lp, Nnat.Nat2N.inj_mul, Lr.
    assert (2 ^ p <= 2 ^ 25) by (apply N.pow_le_mono_r; [discriminate|exact Hp]).
    change (N.of_nat 40) with 40. generalize dependent (2 ^ p). intros. change (2 ^ 25) with 33554432 in *. lia.
Qed.

(** The expected number of distinct codes. *)
Theorem expected_codes : forall p n ncodes all, p <= 25 -> enumerates (hash_list 64 n) all ->
  (forall hs, hash_list 64 n hs -> exists L, is_code_list p hs L /\ ncodes hs = N.of_nat (length L)) ->
  sum (map ncodes all)
  = (2 ^ 25 - 2 ^ p) * (2 ^ (64 * N.of_nat n) - (2 ^ 64 - 2 ^ 39) ^ N.of_nat n)
    + 2 ^ p * sum (map (fun r => 2 ^ (64 * N.of_nat n) - (2 ^ 64 - weight r) ^ N.of_nat n) ranks).
Proof.
  intros p n ncodes all Hp Ea HN.
  destruct (plain_size p Hp) as (lp & Ep & Lp). destruct (ranked_size p Hp) as (lr & Er & Lr).
  set (C := code_space lp lr).
  set (hit := fun hs c => if in_dec N.eq_dec c (map (sparse_code p) hs) then true else false).
  transitivity (sum (map (fun hs => sum (map (fun c => N.b2n (hit hs c)) C)) all)).
  { apply sum_map_ext. intros hs Hh. apply Ea in Hh. destruct (HN hs Hh) as (L & [SS SL] & ->).
    rewrite sum_indicator. f_equal. apply (enum_length N (fun c => In c (map (sparse_code p) hs))).
    - split; [|intros x; apply SL]. clear - SS. induction SS; constructor; auto.
      intros Hi. rewrite Forall_forall in H. specialize (H a Hi). lia.
    - split; [apply NoDup_filter, code_space_nodup; [apply Ep|apply Er]|].
      intros c. rewrite filter_In. unfold hit. destruct (in_dec N.eq_dec c _) as [i|i].
      + split; [tauto|]. intros _. split; [|reflexivity]. apply in_map_iff in i.
        destruct i as (h & <- & Hi). apply (code_space_in p); auto.
        destruct Hh as [_ F]. rewrite Forall_forall in F. now apply F.
      + split; [intros [_ ?]; discriminate|tauto]. }
  rewrite sum_swap.
  assert (K : forall c w, size_of (fun h => h < 2 ^ 64 /\ sparse_code p h = c) w ->
    sum (map (fun hs => N.b2n (hit hs c)) all) = 2 ^ (64 * N.of_nat n) - (2 ^ 64 - w) ^ N.of_nat n).
  { intros c w Hw. rewrite sum_indicator.
    pose proof (hit_size (fun h => sparse_code p h = c) (fun h => N.eq_dec _ _) 64 w n Hw) as S.
    refine (size_of_unique _ _ _ _ _ S). exists (filter (fun hs => hit hs c) all). split; [|reflexivity].
    pose proof (enum_filter _ _ (fun hs => hit hs c) all Ea) as [N1 E]. split; [exact N1|].
    intros hs. rewrite E, Exists_exists. unfold hit. destruct (in_dec N.eq_dec c _) as [i|i].
    - apply in_map_iff in i. destruct i as (h & Eh & Hi). split; intros [? _]; eauto.
    - split; [intros [_ ?]; discriminate|]. intros [_ (h & Hi & Eh)]. exfalso. apply i.
      apply in_map_iff. eauto. }
  unfold C, code_space. rewrite map_app, sum_app. f_equal.
  - rewrite map_map.
    rewrite (sum_map_ext _ _ (fun _ => 2 ^ (64 * N.of_nat n) - (2 ^ 64 - 2 ^ 39) ^ N.of_nat n)).
    + now rewrite sum_map_const, Lp.
    + intros q Hq. apply Ep in Hq. apply K. now apply plain_class.
  - rewrite <- Lr. clear Lr Lp Ep. destruct Er as [_ Er].
    assert (G : forall l, (forall q, In q l -> ranked p q) ->
      sum (map (fun c => sum (map (fun hs => N.b2n (hit hs c)) all))
        (flat_map (fun q => map (fun r => 128 * q + 2 * r + 1) ranks) l))
      = N.of_nat (length l) * sum (map (fun r => 2 ^ (64 * N.of_nat n) - (2 ^ 64 - weight r) ^ N.of_nat n) ranks)).
    { induction l as [|q l IH]; intros Hl; [reflexivity|]. cbn [flat_map]. rewrite map_app, sum_app.
      rewrite IH by (intros x Hx; apply Hl; now right). rewrite map_map.
      rewrite (sum_map_ext _ _ (fun r => 2 ^ (64 * N.of_nat n) - (2 ^ 64 - weight r) ^ N.of_nat n)).
      - cbn [length]. lia.
      - intros r Hr. apply ranks_in in Hr. apply K. apply ranked_class; [apply Hl; now left|exact Hr]. }
    apply G. intros q. apply Er.
Qed.
