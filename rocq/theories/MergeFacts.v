(** * Sorting and the merge loop *)
From Coq Require Import NArith List Bool Lia Permutation Sorted.
From Verif Require Import ModelRust ModelEnv ModelEncoding ModelPlus Spec BitFacts EncFacts.
Import ListNotations.
Local Open Scope N_scope.

Lemma insert_sorted_perm : forall x l, Permutation (insert_sorted x l) (x :: l).
Proof.
  intros x l. induction l as [|y l IH]; cbn [insert_sorted]; auto.
  destruct (x <=? y); auto. rewrite IH. constructor.
Qed.

Lemma sort_perm : forall l, Permutation (sort l) l.
Proof.
  induction l as [|x l IH]; cbn [sort]; auto. rewrite insert_sorted_perm. now constructor.
Qed.

Lemma insert_sorted_lt : forall x l, StronglySorted N.lt l -> ~ In x l ->
  StronglySorted N.lt (insert_sorted x l).
Proof.
  intros x l. induction l as [|y l IH]; intros Hs Hx; cbn [insert_sorted].
  - repeat constructor.
  - inv Hs. destruct (N.leb_spec x y) as [Hle|Hlt].
    + constructor; [now constructor|]. assert (x < y) by (assert (x <> y) by (intros ->; apply Hx; now left); lia).
      constructor; auto. eapply Forall_impl; [|eassumption]. simpl. intros; lia.
    + constructor; [apply IH; auto; intros C; apply Hx; now right|].
      rewrite Forall_forall in *. intros z Hz.
      eapply Permutation_in in Hz; [|apply insert_sorted_perm]. destruct Hz as [<-|Hz]; auto.
Qed.

Lemma sort_strong : forall l, NoDup l -> StronglySorted N.lt (sort l).
Proof.
  induction l as [|x l IH]; intros Hd; cbn [sort]; [constructor|]. inv Hd.
  apply insert_sorted_lt; auto. intros C. eapply Permutation_in in C; [|apply sort_perm]. auto.
Qed.

Lemma strong_ext : forall l1 l2, StronglySorted N.lt l1 -> StronglySorted N.lt l2 ->
  same_set l1 l2 -> l1 = l2.
Proof.
  induction l1 as [|x l1 IH]; intros l2 H1 H2 E.
  - destruct l2 as [|y l2]; auto. destruct (proj2 (E y)). now left.
  - destruct l2 as [|y l2]. { destruct (proj1 (E x)). now left. }
    apply StronglySorted_inv in H1. destruct H1 as [H1 F1].
    apply StronglySorted_inv in H2. destruct H2 as [H2 F2]. rewrite Forall_forall in *.
    assert (x = y).
    { destruct (proj1 (E x) ltac:(now left)) as [Hxy|Hxy]; auto.
      destruct (proj2 (E y) ltac:(now left)) as [Hyx|Hyx]; auto.
      pose proof (F2 x Hxy). pose proof (F1 y Hyx). lia. }
    subst y. f_equal. apply IH; auto. intros z. split; intros Hz.
    + destruct (proj1 (E z) ltac:(now right)) as [Hzx|]; auto. subst z.
      pose proof (F1 x Hz). lia.
    + destruct (proj2 (E z) ltac:(now right)) as [Hzx|]; auto. subst z.
      pose proof (F2 x Hz). lia.
Qed.

Lemma strong_snoc : forall L x, StronglySorted N.lt L -> Forall (fun y => y < x) L ->
  StronglySorted N.lt (L ++ [x]).
Proof.
  induction L as [|y L IH]; intros x Hs Hf; simpl.
  - repeat constructor.
  - inv Hs. inv Hf. constructor; auto. apply Forall_app. split; auto.
Qed.

Lemma strong_NoDup : forall L, StronglySorted N.lt L -> NoDup L.
Proof.
  induction L as [|x L IH]; intros Hs; constructor; inv Hs; auto.
  intros C. rewrite Forall_forall in H2. specialize (H2 x C). lia.
Qed.

Lemma last_of_lt : forall L x, Forall (fun y => y < x) L -> last_of L <= x.
Proof.
  intros L x Hf. unfold last_of. destruct L as [|y L]; [simpl; lia|].
  assert (In (last (y :: L) 0) (y :: L)) as Hin.
  { clear Hf. revert y. induction L as [|z L IH]; intros y; [now left|]. right. apply IH. }
  rewrite Forall_forall in Hf. specialize (Hf _ Hin). lia.
Qed.

Ltac quad := split; [assumption || reflexivity|]; split; [assumption|]; split; [assumption|].

(** A peeked iterator over the rest of a difference vector. *)
Definition peeked (o : option N) (it : difiter) (d : difintvec) (B : list N) : Prop :=
  match B with
  | [] => o = None /\ iter_repr it d []
  | b :: B' => o = Some b /\ iter_repr it d B'
  end.

Lemma peek : forall e it d B, iter_repr it d B ->
  exists o it', dif_next e it = Ret (o, it') /\ peeked o it' d B.
Proof.
  intros e it d [|b B] H.
  - exists None, it. split; [eapply dif_next_nil; eauto|split; auto].
  - destruct (dif_next_cons e it d b B H) as (it' & E & H'). exists (Some b), it'.
    split; auto. split; auto.
Qed.

Definition below (L A : list N) : Prop := forall x y, In x L -> In y A -> x < y.

Lemma below_snoc : forall L x A, below L A -> StronglySorted N.lt (x :: A) ->
  below (L ++ [x]) A.
Proof.
  intros L x A Hb Hs y z Hy Hz. apply in_app_iff in Hy. destruct Hy as [Hy|[<-|[]]].
  - now apply Hb. - inv Hs. rewrite Forall_forall in H2. auto.
Qed.

Lemma below_snoc_lt : forall L x a A, below L (a :: A) -> x < a -> StronglySorted N.lt (a :: A) ->
  below (L ++ [x]) (a :: A).
Proof.
  intros L x a A Hb Hl Hs y z Hy Hz. apply in_app_iff in Hy. destruct Hy as [Hy|[<-|[]]].
  - now apply Hb. - inv Hs. rewrite Forall_forall in H2. destruct Hz as [<-|Hz]; auto.
    specialize (H2 z Hz). lia.
Qed.

Lemma below_tl : forall L a A, below L (a :: A) -> below L A.
Proof. intros L a A H x y Hx Hy. apply H; auto. now right. Qed.

Lemma below_hd : forall L a A, below L (a :: A) -> Forall (fun y => y < a) L.
Proof. intros L a A H. rewrite Forall_forall. intros x Hx. apply H; auto. now left. Qed.

Lemma merge_loop_ok : forall fuel e d A B L bo bit out,
  (length A + length B < fuel)%nat ->
  StronglySorted N.lt A -> StronglySorted N.lt B -> StronglySorted N.lt L ->
  below L A -> below L B ->
  Forall (fun x => x < 2 ^ 32) A -> Forall (fun x => x < 2 ^ 32) B ->
  peeked bo bit d B -> dif_repr out L ->
  exists out' L', merge_loop fuel e (fst (set_next A)) (snd (set_next A)) bo bit out = Ret out' /\
    dif_repr out' L' /\ StronglySorted N.lt L' /\ same_set L' (L ++ A ++ B).
Proof.
  induction fuel as [|fuel IH]; intros e d A B L bo bit out Hf HA HB HL HLA HLB BA BB Hp Ho.
  { lia. }
  destruct A as [|a A]; destruct B as [|b B]; simpl in Hp; destruct Hp as [-> Hit];
    cbn [merge_loop set_next fst snd].
  - exists out, L. quad. intros x. simpl. rewrite app_nil_r. tauto.
  - (* only the list *)
    destruct (dif_push_ok e out L b Ho) as (out1 & E1 & Ho1).
    { apply last_of_lt. eapply below_hd; eauto. } { now inv BB. }
    rewrite E1, bind_ret. destruct (peek e bit d B Hit) as (o & it' & E2 & Hp').
    rewrite E2, bind_ret.
    destruct (IH e d [] B (L ++ [b]) o it' out1) as (out' & L' & E & R & S & I); auto.
    + simpl in *. lia.
    + now inv HB.
    + apply strong_snoc; auto. eapply below_hd; eauto.
    + intros x y _ [].
    + apply below_snoc; auto. eapply below_tl; eauto.
    + now inv BB.
    + exists out', L'. quad; intros x; split; intros Hx.
      * apply I in Hx. rewrite <- app_assoc in Hx. exact Hx.
      * apply I. rewrite <- app_assoc. exact Hx.
  - (* only the set *)
    destruct (dif_push_ok e out L a Ho) as (out1 & E1 & Ho1).
    { apply last_of_lt. eapply below_hd; eauto. } { now inv BA. }
    rewrite E1, bind_ret. rewrite (surjective_pairing (set_next A)).
    destruct (IH e d A [] (L ++ [a]) None bit out1) as (out' & L' & E & R & S & I); auto.
    + simpl in *. lia.
    + now inv HA.
    + apply strong_snoc; auto. eapply below_hd; eauto.
    + apply below_snoc; auto. eapply below_tl; eauto.
    + intros x y _ [].
    + now inv BA.
    + split; auto.
    + exists out', L'. quad; intros x; split; intros Hx.
      * apply I in Hx. rewrite <- app_assoc in Hx. exact Hx.
      * apply I. rewrite <- app_assoc. exact Hx.
  - destruct (N.eqb_spec a b) as [->|Hne].
    + (* equal *)
      destruct (dif_push_ok e out L b Ho) as (out1 & E1 & Ho1).
      { apply last_of_lt. eapply below_hd; eauto. } { now inv BA. }
      rewrite E1, bind_ret. rewrite (surjective_pairing (set_next A)).
      destruct (peek e bit d B Hit) as (o & it' & E2 & Hp'). rewrite E2, bind_ret.
      destruct (IH e d A B (L ++ [b]) o it' out1) as (out' & L' & E & R & S & I); auto.
      * simpl in *. lia.
      * now inv HA.
      * now inv HB.
      * apply strong_snoc; auto. eapply below_hd; eauto.
      * apply below_snoc; auto. eapply below_tl; eauto.
      * apply below_snoc; auto. eapply below_tl; eauto.
      * now inv BA.
      * now inv BB.
      * exists out', L'. quad; intros x; split; intros Hx.
        -- apply I in Hx. rewrite !in_app_iff in *. simpl in *. tauto.
        -- apply I. rewrite !in_app_iff in *. simpl in *. tauto.
    + destruct (N.ltb_spec b a) as [Hlt|Hge].
      * (* the list first *)
        destruct (dif_push_ok e out L b Ho) as (out1 & E1 & Ho1).
        { apply last_of_lt. eapply below_hd; eauto. } { now inv BB. }
        rewrite E1, bind_ret. destruct (peek e bit d B Hit) as (o & it' & E2 & Hp').
        rewrite E2, bind_ret.
        destruct (IH e d (a :: A) B (L ++ [b]) o it' out1) as (out' & L' & E & R & S & I); auto.
        -- simpl in *. lia.
        -- now inv HB.
        -- apply strong_snoc; auto. eapply below_hd; eauto.
        -- apply below_snoc_lt; auto.
        -- apply below_snoc; auto. eapply below_tl; eauto.
        -- now inv BB.
        -- exists out', L'. quad; intros x; split; intros Hx.
           ++ apply I in Hx. rewrite !in_app_iff in *. simpl in *. tauto.
           ++ apply I. rewrite !in_app_iff in *. simpl in *. tauto.
      * (* the set first *)
        destruct (dif_push_ok e out L a Ho) as (out1 & E1 & Ho1).
        { apply last_of_lt. eapply below_hd; eauto. } { now inv BA. }
        rewrite E1, bind_ret. rewrite (surjective_pairing (set_next A)).
        destruct (IH e d A (b :: B) (L ++ [a]) (Some b) bit out1)
          as (out' & L' & E & R & S & I); auto.
        -- simpl in *. lia.
        -- now inv HA.
        -- apply strong_snoc; auto. eapply below_hd; eauto.
        -- apply below_snoc; auto. eapply below_tl; eauto.
        -- apply below_snoc_lt; auto. lia.
        -- now inv BA.
        -- split; auto.
        -- exists out', L'. quad; intros x; split; intros Hx.
           ++ apply I in Hx. rewrite !in_app_iff in *. simpl in *. tauto.
           ++ apply I. rewrite !in_app_iff in *. simpl in *. tauto.
Qed.

(** The part of [merge_sparse] before the size check. *)
Definition merge_codes (e : env) (ord : list N -> list N) (T : hset) (d : difintvec)
  : M difintvec :=
  let set_codes := sort (ord T) in
  let (set_opt, set_it) := set_next set_codes in
  let* (buf_opt, buf_it) := dif_next e (dif_into_iter d) in
  merge_loop (S (length set_codes + length (d_buf d))) e set_opt set_it buf_opt buf_it dif_new.

Lemma merge_sparse_codes : forall (V : Type) e ord (s : plus V),
  merge_sparse e ord s =
  (let* buf := merge_codes e ord (hp_tmpset s) (hp_sparse s) in
   let s' := set_tmpset (set_sparse s buf) [] in
   if hp_counts2 s' <? dif_len (hp_sparse s') then sparse_to_normal e s' else Ret s').
Proof.
  intros. unfold merge_sparse, merge_codes.
  destruct (set_next (sort (ord (hp_tmpset s)))) as [so si].
  destruct (dif_next e (dif_into_iter (hp_sparse s))) as [[bo bi]| |]; reflexivity.
Qed.

Lemma merge_codes_ok : forall e ord T d L, is_order ord -> NoDup T ->
  Forall (fun x => x < 2 ^ 32) T -> dif_repr d L -> StronglySorted N.lt L ->
  exists d' L', merge_codes e ord T d = Ret d' /\ dif_repr d' L' /\
    StronglySorted N.lt L' /\ same_set L' (T ++ L).
Proof.
  intros e ord T d L Ho HT BT Hd HL. unfold merge_codes.
  rewrite (surjective_pairing (set_next (sort (ord T)))).
  pose proof (iter_start d L Hd) as Hit.
  destruct (peek e _ d L Hit) as (o & it' & E & Hp). rewrite E, bind_ret.
  assert (P : Permutation (sort (ord T)) T).
  { eapply Permutation_trans; [apply sort_perm|apply Ho]. }
  destruct Hd as (Hasc & Hlt & Hbuf & Hcnt & Hlast).
  destruct (merge_loop_ok (S (length (sort (ord T)) + length (d_buf d))) e d (sort (ord T)) L []
              o it' dif_new) as (out' & L' & E' & R & S & I); auto.
  - pose proof (dif_bytes_count L 0). rewrite Hbuf. lia.
  - apply sort_strong. apply (Permutation_NoDup (l := T)); auto. symmetry. apply Ho.
  - constructor.
  - intros x y [].
  - intros x y [].
  - rewrite Forall_forall in *. intros x Hx. apply BT. eapply Permutation_in; eauto.
  - apply dif_repr_new.
  - exists out', L'. quad; intros x; split; intros Hx.
    + apply I in Hx. simpl in Hx. rewrite in_app_iff in *. destruct Hx; auto.
      left. eapply Permutation_in; eauto.
    + apply I. simpl. rewrite in_app_iff in *. destruct Hx; auto.
      left. eapply Permutation_in; [symmetry|]; eauto.
Qed.

(** ** Hash sets *)
Lemma hset_insert_in : forall s c x, In x (hset_insert s c) <-> x = c \/ In x s.
Proof.
  intros s c x. unfold hset_insert. destruct (existsb (N.eqb c) s) eqn:E.
  - apply existsb_exists in E. destruct E as (y & Hy & Ey). apply N.eqb_eq in Ey. subst y.
    split; auto. intros [->|]; auto.
  - simpl. split; intros [->|]; auto.
Qed.

Lemma hset_insert_NoDup : forall s c, NoDup s -> NoDup (hset_insert s c).
Proof.
  intros s c Hd. unfold hset_insert. destruct (existsb (N.eqb c) s) eqn:E; auto.
  constructor; auto. intros C. rewrite <- not_true_iff_false in E. apply E.
  apply existsb_exists. exists c. split; auto. apply N.eqb_refl.
Qed.

Lemma hset_inserts : forall l s, NoDup s ->
  NoDup (fold_left hset_insert l s) /\ same_set (fold_left hset_insert l s) (l ++ s).
Proof.
  induction l as [|c l IH]; intros s Hd; cbn [fold_left].
  - split; auto. intros x. tauto.
  - destruct (IH (hset_insert s c)) as [Hn Hs]; [now apply hset_insert_NoDup|].
    split; auto. intros x. rewrite (Hs x). rewrite in_app_iff, hset_insert_in. simpl.
    rewrite in_app_iff. intuition congruence.
Qed.
