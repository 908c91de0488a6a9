(** * Steps *)
From Coq Require Import NArith List Bool Lia Permutation Sorted.
From Verif Require Import ModelRust ModelF64 ModelEnv ModelRegisters ModelEncoding ModelCommon ModelPF ModelPlus ModelSerde ModelHistory ModelCost
  Spec SpecBuild BitFacts RegFacts EncFacts CodeFacts MergeFacts AbsorbFacts PFInv PlusInv WideFacts.
Import ListNotations.
Local Open Scope N_scope.

(** ** Without the counter *)
Lemma erase_bind : forall (A B : Type) (m : T A) (k : A -> T B), erase (tbind m k) = (let* a := erase m in erase (k a)).
Proof. intros A B [[a n]| |] k; try reflexivity. unfold tbind, erase. cbn [bind]. destruct (k a) as [[b n']| |]; reflexivity. Qed.
Lemma erase_free : forall (A : Type) (m : M A), erase (free m) = m.
Proof. intros A [a| |]; reflexivity. Qed.
Lemma erase_after : forall (A : Type) n (m : T A), erase (after n m) = erase m.
Proof. intros A n [[a n']| |]; reflexivity. Qed.
Lemma bind_ext : forall (A B : Type) (m : M A) (f g : A -> M B), (forall a, f a = g a) -> bind m f = bind m g.
Proof. intros A B [a| |] f g H; [apply H|reflexivity..]. Qed.
Ltac er := repeat first [rewrite erase_after | rewrite erase_bind | rewrite erase_free | rewrite bind_ret].

Lemma erase_for_each : forall (A S : Type) l (body : S -> A -> M S) s, erase (t_for_each l body s) = for_each l body s.
Proof. induction l as [|x l IH]; intros body s; cbn [t_for_each for_each]; er; [reflexivity|]. apply bind_ext. intros a. apply IH. Qed.
Lemma erase_for_each_enum : forall (A S : Type) l (body : S -> N -> A -> M S) i s, erase (t_for_each_enum i l body s) = for_each_enum i l body s.
Proof. induction l as [|x l IH]; intros body i s; cbn [t_for_each_enum for_each_enum]; er; [reflexivity|]. apply bind_ext. intros a. apply IH. Qed.
Lemma erase_push : forall v val, erase (t_varint_push v val) = varint_push v val.
Proof.
  intros v val. unfold t_varint_push, varint_push. generalize (S (N.size_nat val)). intros f. revert v val.
  induction f as [|f IH]; intros v val; cbn [t_varint_push_loop varint_push_loop]; [reflexivity|]. er. destruct (negb _); [apply IH|reflexivity].
Qed.
Lemma erase_decode : forall e v idx, erase (t_varint_decode e v idx) = varint_decode e v idx.
Proof.
  intros e v idx. unfold t_varint_decode, varint_decode. generalize (S (length v)). intros f. generalize 0 at 1 3. generalize 0. revert idx.
  induction f as [|f IH]; intros idx val i; cbn [t_varint_decode_loop varint_decode_loop]; [reflexivity|]. er. apply bind_ext. intros b.
  destruct (negb _); er; apply bind_ext; intros x; [apply IH|reflexivity].
Qed.
Lemma erase_dif_push : forall e d val, erase (t_dif_push e d val) = dif_push e d val.
Proof. intros e d val. unfold t_dif_push, dif_push. er. apply bind_ext. intros x. er. rewrite erase_push. apply bind_ext. intros b. reflexivity. Qed.
Lemma erase_dif_next : forall e it, erase (t_dif_next e it) = dif_next e it.
Proof.
  intros e it. unfold t_dif_next, dif_next. destruct (_ <=? _); [reflexivity|]. er. rewrite erase_decode. apply bind_ext. intros [d i]. er. apply bind_ext. intros l. reflexivity.
Qed.
Lemma erase_dif_for : forall (S : Type) e d (body : S -> N -> M S) s, erase (t_dif_for e d body s) = dif_for e d body s.
Proof.
  intros S e d body s. unfold t_dif_for, dif_for. generalize (Datatypes.S (length (d_buf d))). intros f. generalize (dif_into_iter d). intros it. revert it s.
  induction f as [|f IH]; intros it s; cbn [t_dif_for_loop dif_for_loop]; [reflexivity|]. er. rewrite erase_dif_next. apply bind_ext. intros [[c|] it']; [|reflexivity].
  er. apply bind_ext. intros a. apply IH.
Qed.
Lemma erase_with_count : forall e sz c, erase (t_with_count e sz c) = with_count e sz c.
Proof. intros e sz c. unfold t_with_count. er. destruct (with_count e sz c); reflexivity. Qed.
Lemma erase_to_normal : forall (V : Type) e (s : plus V), erase (t_sparse_to_normal e s) = sparse_to_normal e s.
Proof.
  intros V e s. unfold t_sparse_to_normal, sparse_to_normal. er. rewrite erase_with_count. apply bind_ext. intros r. er. rewrite erase_dif_for. apply bind_ext. reflexivity.
Qed.
Lemma erase_merge_loop : forall f e so si bo bi out, erase (t_merge_loop f e so si bo bi out) = merge_loop f e so si bo bi out.
Proof.
  induction f as [|f IH]; intros e so si bo bi out; cbn [t_merge_loop merge_loop]; [reflexivity|].
  assert (P : forall x (k : difintvec -> T difintvec) k', (forall o, erase (k o) = k' o) -> erase (tbind (t_dif_push e out x) k) = bind (dif_push e out x) k').
  { intros x k k' H. er. rewrite erase_dif_push. now apply bind_ext. }
  assert (Q : forall (k : option N * difiter -> T difintvec) k', (forall o, erase (k o) = k' o) -> erase (tbind (t_dif_next e bi) k) = bind (dif_next e bi) k').
  { intros k k' H. er. rewrite erase_dif_next. now apply bind_ext. }
  destruct so as [a|], bo as [b|]; [destruct (a =? b); [|destruct (b <? a)]| | |]; rewrite ?erase_after.
  - apply P. intros o. destruct (set_next si). apply Q. intros [? ?]. apply IH.
  - apply P. intros o. apply Q. intros [? ?]. apply IH.
  - apply P. intros o. destruct (set_next si). apply IH.
  - apply P. intros o. destruct (set_next si). apply IH.
  - apply P. intros o. apply Q. intros [? ?]. apply IH.
  - reflexivity.
Qed.
Lemma erase_merge_sparse : forall (V : Type) e ord (s : plus V), erase (t_merge_sparse e ord s) = merge_sparse e ord s.
Proof.
  intros V e ord s. unfold t_merge_sparse, merge_sparse. er. destruct (set_next _) as [so si]. er. rewrite erase_dif_next. apply bind_ext. intros [bo bi].
  er. rewrite erase_merge_loop. apply bind_ext. intros d. cbv zeta. destruct (_ <? _); [apply erase_to_normal|reflexivity].
Qed.
Lemma erase_flush : forall (V : Type) e ord (s : plus V), erase (t_flush_if_full e ord s) = flush_if_full e ord s.
Proof. intros V e ord s. unfold t_flush_if_full, flush_if_full. er. apply bind_ext. intros n. destruct (_ <? _); [apply erase_merge_sparse|reflexivity]. Qed.
Lemma erase_insert : forall (V : Type) e ord (s : plus V) v, erase (t_hp_insert e ord s v) = hp_insert_impl e ord s v.
Proof.
  intros V e ord s v. unfold t_hp_insert. er. destruct (hp_registers s) eqn:R; er; [reflexivity|]. unfold hp_insert_impl, hp_insert_hash. rewrite R.
  apply bind_ext. intros c. apply erase_flush.
Qed.
Lemma erase_merge : forall (V W : Type) e ord (s : plus V) (o : plus W), erase (t_hp_merge e ord s o) = hp_merge e ord s o.
Proof.
  intros V W e ord s o. unfold t_hp_merge, hp_merge. er. destruct (negb _); [reflexivity|]. destruct (is_sparse o).
  - destruct (is_sparse s); er.
    + rewrite erase_for_each. apply bind_ext. intros t1. er. rewrite erase_dif_for. apply bind_ext. intros t2. er. rewrite erase_flush. apply bind_ext. reflexivity.
    + apply bind_ext. intros r. er. rewrite erase_for_each. apply bind_ext. intros r1. er. rewrite erase_dif_for. apply bind_ext. reflexivity.
  - er. assert (E : erase (if is_sparse s then let! s1 := t_merge_sparse e ord s in if is_sparse s1 then t_sparse_to_normal e s1 else free (Ret s1) else free (Ret s)) =
      (if is_sparse s then let* s1 := merge_sparse e ord s in if is_sparse s1 then sparse_to_normal e s1 else Ret s1 else Ret s)).
    { destruct (is_sparse s); er; [|reflexivity]. rewrite erase_merge_sparse. apply bind_ext. intros s1. destruct (is_sparse s1); [apply erase_to_normal|reflexivity]. }
    rewrite E. apply bind_ext. intros s1. er. apply bind_ext. intros r. er. apply bind_ext. intros l. er. rewrite erase_for_each_enum. apply bind_ext. reflexivity.
Qed.
Lemma erase_count : forall (V : Type) e ord (s : plus V), erase (t_hp_count e ord s) = hp_count e ord s.
Proof.
  intros V e ord s. unfold t_hp_count, hp_count. er.
  assert (E : erase (if is_sparse s then t_merge_sparse e ord s else free (Ret s)) = if is_sparse s then merge_sparse e ord s else Ret s).
  { destruct (is_sparse s); [apply erase_merge_sparse|reflexivity]. }
  rewrite E. apply bind_ext. intros s1. destruct (hp_registers s1) as [r|]; cbv zeta.
  - destruct (negb _); er.
    + apply bind_ext. intros c. er. apply bind_ext. intros t. destruct (fle c t); [reflexivity|]. er. er. apply bind_ext. reflexivity.
    + er. apply bind_ext. reflexivity.
  - er. apply bind_ext. intros z. er. apply bind_ext. reflexivity.
Qed.
Lemma erase_run_plus : forall (V : Type) e (h : hist V), erase (t_run_plus e h) = run_plus e h.
Proof.
  intros V e. induction h as [p b|k ord h IH v|ord h1 IH1 h2 IH2|ord h IH|ord sb db h IH]; cbn [t_run_plus run_plus]; er.
  - reflexivity.
  - rewrite IH. apply bind_ext. intros s. rewrite erase_insert. destruct k; reflexivity.
  - rewrite IH1. apply bind_ext. intros s1. er. rewrite IH2. apply bind_ext. intros s2. er. rewrite erase_merge. apply bind_ext. intros [s r]. reflexivity.
  - rewrite IH. apply bind_ext. intros s. er. rewrite erase_count. apply bind_ext. intros [s' c]. reflexivity.
  - rewrite IH. apply bind_ext. intros s. er. destruct (unwrap _); reflexivity.
Qed.
Lemma erase_pf_merge : forall (V W : Type) e (s : pf V) (o : pf W), erase (t_pf_merge e s o) = pf_merge e s o.
Proof. intros V W e s o. unfold t_pf_merge, pf_merge. er. destruct (negb _); [reflexivity|]. er. rewrite erase_for_each_enum. apply bind_ext. reflexivity. Qed.
Lemma erase_run_pf : forall (V : Type) e (h : hist V), erase (t_run_pf e h) = run_pf e h.
Proof.
  intros V e. induction h as [p b|k ord h IH v|ord h1 IH1 h2 IH2|ord h IH|ord sb db h IH]; cbn [t_run_pf run_pf]; er.
  - unfold t_pf_new. er. destruct (let* r := pf_new e p b in unwrap_res r); reflexivity.
  - rewrite IH. apply bind_ext. intros s. unfold t_pf_insert. er. destruct k; reflexivity.
  - rewrite IH1. apply bind_ext. intros s1. er. rewrite IH2. apply bind_ext. intros s2. er. rewrite erase_pf_merge. apply bind_ext. intros [s r]. reflexivity.
  - rewrite IH. apply bind_ext. intros s. unfold t_pf_count. er. apply bind_ext. reflexivity.
  - rewrite IH. apply bind_ext. intros s. er. destruct (unwrap _); reflexivity.
Qed.

(** ** With it *)
Lemma tbind_inv : forall (A B : Type) (m : T A) (k : A -> T B) b n, tbind m k = Ret (b, n) ->
  exists a n1 n2, m = Ret (a, n1) /\ k a = Ret (b, n2) /\ n = n1 + n2.
Proof.
  intros A B [[a n1]| |] k b n H; try discriminate. unfold tbind in H. cbn [bind] in H. destruct (k a) as [[b' n2]| |] eqn:E; try discriminate. injection H as <- <-.
  exists a, n1, n2. auto.
Qed.
Lemma after_inv : forall (A : Type) n (m : T A) a k, after n m = Ret (a, k) -> exists k', m = Ret (a, k') /\ k = n + k'.
Proof. intros A n [[a' k']| |] a k H; try discriminate. injection H as <- <-. exists k'. auto. Qed.
Lemma free_inv : forall (A : Type) (m : M A) a k, free m = Ret (a, k) -> m = Ret a /\ k = 0.
Proof. intros A [a'| |] a k H; try discriminate. injection H as <- <-. auto. Qed.
Lemma erase_inv : forall (A : Type) (m : T A) a, erase m = Ret a -> exists k, m = Ret (a, k).
Proof. intros A [[a' k]| |] a H; try discriminate. injection H as <-. eauto. Qed.
Lemma erase_ret : forall (A : Type) (m : T A) a k, m = Ret (a, k) -> erase m = Ret a.
Proof. intros A m a k ->. reflexivity. Qed.
Ltac ti H := first [apply tbind_inv in H as (? & ? & ? & ? & H & ->) | apply after_inv in H as (? & H & ->) | apply free_inv in H as (H & ->)].

Lemma for_each_steps : forall (A S : Type) l (body : S -> A -> M S) s s' k, t_for_each l body s = Ret (s', k) -> k = len l.
Proof.
  induction l as [|x l IH]; intros body s s' k H; cbn [t_for_each] in H.
  - ti H. reflexivity.
  - ti H. ti H. ti H0. apply IH in H. subst. unfold len. cbn [length]. lia.
Qed.
Lemma for_each_enum_steps : forall (A S : Type) l (body : S -> N -> A -> M S) i s s' k, t_for_each_enum i l body s = Ret (s', k) -> k = len l.
Proof.
  induction l as [|x l IH]; intros body i s s' k H; cbn [t_for_each_enum] in H.
  - ti H. reflexivity.
  - ti H. ti H. ti H0. apply IH in H. subst. unfold len. cbn [length]. lia.
Qed.
Lemma push_steps : forall v val v' k, t_varint_push v val = Ret (v', k) -> len v' = len v + k.
Proof.
  unfold t_varint_push. intros v val v' k. generalize (S (N.size_nat val)). intros f. revert v val v' k.
  induction f as [|f IH]; intros v val v' k H; cbn [t_varint_push_loop] in H; [discriminate|]. ti H. destruct (negb _).
  - apply IH in H. rewrite H. unfold len. rewrite app_length. cbn [length]. lia.
  - ti H. injection H as <-. unfold len. rewrite app_length. cbn [length]. lia.
Qed.
Lemma venc_5 : forall n, n < 2 ^ 32 -> len (venc n) <= 5.
Proof.
  intros n H. unfold len. rewrite (venc_length n H). unfold varint_len. destruct (n =? 0) eqn:E; [lia|]. apply N.eqb_neq in E.
  assert (N.log2 n < 32) by (apply N.log2_lt_pow2; lia). assert (N.log2 n / 7 < 5) by (apply N.div_lt_upper_bound; lia). lia.
Qed.
Lemma dif_push_steps : forall e d x d' k, x < 2 ^ 32 -> d_last d < 2 ^ 32 -> t_dif_push e d x = Ret (d', k) ->
  len (d_buf d') = len (d_buf d) + k /\ k <= 5 /\ 1 <= k /\ d_last d' = x.
Proof.
  intros e d x d' k HX HD H. unfold t_dif_push in H. ti H. ti H0. ti H. ti H. injection H as <-. cbn [d_buf d_last].
  assert (L : x0 < 2 ^ 32).
  { unfold usub in H0. destruct (N.leb_spec (d_last d) x); [injection H0 as <-; lia|]. destruct (overflow_checks e); [discriminate|]. injection H0 as <-. change (2 ^ 32) with 4294967296 in *. lia. }
  pose proof (push_steps _ _ _ _ H1) as P. apply erase_ret in H1. rewrite erase_push, varint_push_ok in H1 by exact L. injection H1 as <-.
  pose proof (venc_5 x0 L). pose proof (venc_length_pos x0). unfold len in *. rewrite app_length in *. lia.
Qed.
Lemma decode_steps : forall e v idx x idx' k, t_varint_decode e v idx = Ret ((x, idx'), k) -> idx' = idx + k /\ 1 <= k /\ idx' <= len v.
Proof.
  intros e v idx x idx' k. unfold t_varint_decode. generalize (S (length v)). intros f.
  assert (G : forall f i val x idx' k, t_varint_decode_loop f e v idx i val = Ret ((x, idx'), k) -> idx' = idx + i + k /\ 1 <= k /\ idx' <= len v).
  { clear. induction f as [|f IH]; intros i val x idx' k H; cbn [t_varint_decode_loop] in H; [discriminate|]. ti H. ti H. ti H0. destruct (negb _).
    - ti H. ti H1. apply IH in H. lia.
    - ti H. ti H1. ti H. injection H as <- <-. apply index_inv in H0. assert (nth_error v (N.to_nat (idx + i)) <> None) as Q by congruence. apply nth_error_Some in Q. unfold len. lia. }
  intros H. apply G in H. lia.
Qed.
Definition rest (it : difiter) : N := len (d_buf (di_inner it)) - di_index it.
Lemma dif_next_steps : forall e it o it' k, t_dif_next e it = Ret ((o, it'), k) ->
  rest it = k + rest it' /\ match o with None => k = 0 /\ rest it' = 0 | Some x => 1 <= k /\ x < 2 ^ 32 end.
Proof.
  intros e it o it' k H. unfold t_dif_next, rest in *. destruct (N.leb_spec (len (d_buf (di_inner it))) (di_index it)) as [Q|Q].
  - ti H. injection H as <- <-. lia.
  - ti H. destruct x as [d i]. ti H. ti H1. ti H. injection H as <- <-. cbn [di_inner di_index]. apply decode_steps in H0. split; [lia|]. split; [lia|].
    unfold uadd in H1. destruct (di_last it + d <? 2 ^ 32) eqn:L; [injection H1 as <-; now apply N.ltb_lt|]. destruct (overflow_checks e); [discriminate|]. injection H1 as <-. apply N.mod_lt. discriminate.
Qed.
Lemma dif_for_steps : forall (S : Type) e d (body : S -> N -> M S) s s' k, t_dif_for e d body s = Ret (s', k) -> len (d_buf d) <= k <= 2 * len (d_buf d).
Proof.
  intros S e d body s s' k. unfold t_dif_for. generalize (Datatypes.S (length (d_buf d))). intros f.
  assert (G : forall it s s' k, t_dif_for_loop f e it body s = Ret (s', k) -> rest it <= k <= 2 * rest it).
  { clear. induction f as [|f IH]; intros it s s' k H; cbn [t_dif_for_loop] in H; [discriminate|]. ti H. destruct x as [[c|] it']; apply dif_next_steps in H0; cbn in H0.
    - ti H. ti H. ti H1. apply IH in H. lia.
    - ti H. lia. }
  intros H. apply G in H. unfold rest in H. cbn [di_inner di_index dif_into_iter] in H. lia.
Qed.
Definition some (o : option N) : N := match o with Some _ => 1 | None => 0 end.
Definition small (o : option N) : Prop := match o with Some x => x < 2 ^ 32 | None => True end.
Ltac nx := match goal with Q : t_dif_next _ _ = Ret (?x, _) |- _ => let b := fresh "bo'" in
  destruct x as [b ?]; apply dif_next_steps in Q; destruct b; destruct Q as (R & R1 & R2) end.
Ltac pu S L := match goal with Q : t_dif_push _ _ _ = Ret _ |- _ => destruct (dif_push_steps _ _ _ _ _ S L Q) as (P1 & P2 & P3 & P4) end.
Lemma merge_loop_steps : forall f e so si bo bi out out' k, small so -> Forall (fun x => x < 2 ^ 32) si -> small bo -> d_last out < 2 ^ 32 ->
  (so = None -> si = []) -> (bo = None -> rest bi = 0) -> t_merge_loop f e so si bo bi out = Ret (out', k) ->
  rest bi <= k /\ k <= 6 * (some so + len si + some bo + rest bi) + rest bi /\
  len (d_buf out') <= len (d_buf out) + 5 * (some so + len si + some bo + rest bi).
Proof.
  induction f as [|f IH]; intros e so si bo bi out out' k SS FS SB LO NS NB H; cbn [t_merge_loop] in H; [discriminate|].
  assert (NX : forall so' si', set_next si = (so', si') -> small so' /\ Forall (fun x => x < 2 ^ 32) si' /\ (so' = None -> si' = []) /\ some so' + len si' = len si).
  { intros so' si' Q. destruct si as [|x si]; cbn in Q; injection Q as <- <-.
    - cbn. repeat split; auto.
    - inversion FS; subst. split; [exact H2|]. split; [assumption|]. split; [discriminate|]. unfold len. cbn [length some]. lia. }
  assert (FIN : forall so' si' bo' bi' o k', t_merge_loop f e so' si' bo' bi' o = Ret (out', k') -> small so' -> Forall (fun x => x < 2 ^ 32) si' -> small bo' ->
    d_last o < 2 ^ 32 -> (so' = None -> si' = []) -> (bo' = None -> rest bi' = 0) -> rest bi' <= k' /\ k' <= 6 * (some so' + len si' + some bo' + rest bi') + rest bi' /\
    len (d_buf out') <= len (d_buf o) + 5 * (some so' + len si' + some bo' + rest bi')).
  { intros. eapply IH; eassumption. }
  clear IH. destruct so as [a|], bo as [b|]; cbn [some small] in *.
  - ti H. destruct (a =? b); [|destruct (b <? a)].
    + ti H. pu SS LO. destruct (set_next si) as [so' si'] eqn:Q. destruct (NX _ _ eq_refl) as (N1 & N2 & N3 & N4). ti H.
      nx; apply FIN in H; cbn [small some] in *; try assumption; try (rewrite P4; assumption); try (intros; discriminate); try (intros; assumption); lia.
    + ti H. pu SB LO. ti H.
      nx; apply FIN in H; cbn [small some] in *; try assumption; try (rewrite P4; assumption); try (intros; discriminate); try (intros; assumption); lia.
    + ti H. pu SS LO. destruct (set_next si) as [so' si'] eqn:Q. destruct (NX _ _ eq_refl) as (N1 & N2 & N3 & N4).
      apply FIN in H; cbn [small some] in *; try assumption; try (rewrite P4; assumption); try (intros; discriminate); lia.
  - ti H. ti H. pu SS LO. destruct (set_next si) as [so' si'] eqn:Q. destruct (NX _ _ eq_refl) as (N1 & N2 & N3 & N4).
    apply FIN in H; cbn [small some] in *; try assumption; try (rewrite P4; assumption); lia.
  - ti H. ti H. pu SB LO. ti H.
    nx; apply FIN in H; cbn [small some] in *; try assumption; try (rewrite P4; assumption); try (intros; discriminate); try (intros; assumption); lia.
  - ti H. injection H as <-. specialize (NB eq_refl). lia.
Qed.
Lemma to_normal_steps : forall (V : Type) e (s s' : plus V) k, t_sparse_to_normal e s = Ret (s', k) ->
  is_sparse s' = false /\ hp_tmpset s' = [] /\ exists r0, with_count e SIZE_PLUS (hp_counts0 s) = Ret r0 /\
    len (r_buf r0) <= k /\ k <= len (r_buf r0) + 2 * len (d_buf (hp_sparse s)).
Proof.
  intros V e s s' k H. unfold t_sparse_to_normal in H. ti H. ti H. ti H. injection H as <-. split; [reflexivity|]. split; [reflexivity|].
  unfold t_with_count in H0. apply tbind_inv in H0 as (r1 & n1 & n2 & A & B & ->). apply free_inv in A as [A ->]. apply after_inv in B as (n3 & B & ->). apply free_inv in B as [B ->]. injection B as <-. exists r1. split; [exact A|].
  apply dif_for_steps in H1. lia.
Qed.
Definition flush_steps (P B : N) : N := 7 * P + sort_steps P + 7 * B.
Lemma merge_sparse_steps : forall (V : Type) e ord (s s' : plus V) k, is_order ord -> Forall (fun x => x < 2 ^ 32) (hp_tmpset s) -> hp_registers s = None ->
  t_merge_sparse e ord s = Ret (s', k) ->
  len (d_buf (hp_sparse s)) <= k /\ hp_tmpset s' = [] /\
  ((is_sparse s' = true /\ hp_counts0 s' = hp_counts0 s /\ len (d_buf (hp_sparse s')) <= hp_counts2 s /\ k <= flush_steps (len (hp_tmpset s)) (len (d_buf (hp_sparse s)))) \/
   (is_sparse s' = false /\ exists r0, with_count e SIZE_PLUS (hp_counts0 s) = Ret r0 /\
      k <= flush_steps (len (hp_tmpset s)) (len (d_buf (hp_sparse s))) + len (r_buf r0) + 10 * (len (hp_tmpset s) + len (d_buf (hp_sparse s))))).
Proof.
  intros V e ord s s' k Ho F R H. unfold t_merge_sparse in H.
  assert (PM : Permutation (sort (ord (hp_tmpset s))) (hp_tmpset s)) by (eapply Permutation_trans; [apply sort_perm|apply Ho]).
  assert (LP : len (sort (ord (hp_tmpset s))) = len (hp_tmpset s)) by (unfold len; now rewrite (Permutation_length PM)).
  assert (F' : Forall (fun x => x < 2 ^ 32) (sort (ord (hp_tmpset s)))).
  { rewrite Forall_forall in *. intros x Hx. apply F. revert Hx. apply Permutation_in. exact PM. }
  rewrite LP in H. revert H LP F'. generalize (sort (ord (hp_tmpset s))). intros l H LP F'. ti H.
  destruct (set_next l) as [so si] eqn:Q.
  assert (NX : small so /\ Forall (fun x => x < 2 ^ 32) si /\ (so = None -> si = []) /\ some so + len si = len (hp_tmpset s)).
  { rewrite <- LP. destruct l as [|y l]; cbn in Q; injection Q as <- <-; [cbn; repeat split; auto|]. inversion F'; subst. split; [assumption|]. split; [assumption|]. split; [discriminate|]. unfold len. cbn [length some]. lia. }
  destruct NX as (N1 & N2 & N3 & N4). ti H. destruct x0 as [bo bi]. apply dif_next_steps in H0.
  unfold rest at 1 in H0. cbn [di_inner di_index dif_into_iter] in H0. rewrite N.sub_0_r in H0. ti H.
  assert (Sb : small bo) by (destruct bo; [apply H0|exact I]). assert (Nb : bo = None -> rest bi = 0) by (intros ->; apply H0).
  pose proof H1 as M1. apply merge_loop_steps in M1 as (M1 & M2 & M3); try assumption; try reflexivity.
  change (len (d_buf dif_new)) with 0 in M3.
  assert (B1 : some bo + rest bi <= len (d_buf (hp_sparse s))) by (destruct bo; cbn [some]; lia).
  assert (Z : len (d_buf (hp_sparse s)) <= x1 + x0) by lia.
  assert (Y : x1 + x0 <= 6 * len (hp_tmpset s) + 7 * len (d_buf (hp_sparse s))) by (destruct bo; cbn [some] in *; lia).
  assert (X : len (d_buf x) <= 5 * (len (hp_tmpset s) + len (d_buf (hp_sparse s)))) by lia.
  unfold flush_steps. cbv zeta in H. match type of H with (if ?a <? ?b then _ else _) = _ => destruct (N.ltb_spec a b) as [LT|LE] end.
  - apply to_normal_steps in H as (S' & T' & r0 & W & _ & K). cbn [hp_sparse set_tmpset set_sparse hp_counts0] in *. split; [lia|]. split; [exact T'|]. right. split; [exact S'|]. exists r0. split; [exact W|]. lia.
  - ti H. injection H as <-. split; [lia|]. split; [reflexivity|]. left. split; [unfold is_sparse; cbn [set_tmpset set_sparse hp_registers]; now rewrite R|]. split; [reflexivity|]. split; [exact LE|]. lia.
Qed.
