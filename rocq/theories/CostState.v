(** * Steps of each call, against what is pending *)
From Coq Require Import NArith List Bool Lia Permutation Sorted.
From Verif Require Import ModelRust ModelF64 ModelEnv ModelRegisters ModelEncoding ModelCommon ModelPF ModelPlus ModelSerde ModelHistory ModelCost
  Spec SpecBuild BitFacts RegFacts EncFacts CodeFacts MergeFacts AbsorbFacts PFInv PlusInv WideFacts CostFacts.
Import ListNotations.
Local Open Scope N_scope.

(** What the bounds use of a sketch. *)
Definition shape {V : Type} (p : N) (s : plus V) : Prop :=
  hp_precision s = p /\ hp_counts0 s = 2 ^ p /\ hp_counts2 s = sparse_limit p /\
  match hp_registers s with
  | None => 100 * len (hp_tmpset s) <= sparse_limit p /\ len (d_buf (hp_sparse s)) <= sparse_limit p /\
            Forall (fun x => x < 2 ^ 32) (hp_tmpset s) /\ exists L, dif_repr (hp_sparse s) L
  | Some r => hp_tmpset s = [] /\ d_buf (hp_sparse s) = [] /\ 5 * len (r_buf r) <= 2 ^ p + 4 /\ len (reg_iter SIZE_PLUS r) = 2 ^ p
  end.
Lemma limit_lt : forall p, 4 <= p <= 18 -> 5 * sparse_limit p <= 4 * 2 ^ p /\ 16 <= 2 ^ p /\ sparse_limit p <= 209715.
Proof.
  intros p Hp. pose proof (sparse_limit_bounds p Hp). pose proof (pow2_le 4 p ltac:(lia)). change (2 ^ 4) with 16 in *.
  split; [|lia]. unfold sparse_limit. apply N.mul_div_le. discriminate.
Qed.
Lemma words : forall p r, wf_regs 6 r -> r_count r = 2 ^ p -> 5 * len (r_buf r) <= 2 ^ p + 4.
Proof.
  intros p r [H _] C. rewrite C in H. change (count_per_word 6) with 5 in H. unfold len. rewrite H.
  replace (2 ^ p + 5 - 1) with (2 ^ p + 4) by lia. apply N.mul_div_le. discriminate.
Qed.
Lemma ok_shape : forall (V : Type) p (b : V -> N) H s, 4 <= p <= 18 -> plus_ok p b H s -> shape p s.
Proof.
  intros V p b H s Hp ((_ & A & B & _ & C) & F & K). split; [exact A|]. split; [exact B|]. split; [exact C|]. unfold body_ok in K. destruct (hp_registers s) as [r|].
  - destruct K as (K1 & K2 & (K3 & K4 & _) & _). split; [exact K1|]. rewrite K2. split; [reflexivity|]. split; [now apply words|].
    unfold len. pose proof (reg_iter_length 6 r ltac:(red; auto) K3) as Q. unfold SIZE_PLUS. rewrite Q, N2Nat.id. exact K4.
  - destruct K as ((L & N1 & N2 & N3 & N4 & N5) & K). split; [lia|]. split.
    + rewrite <- (dif_repr_len _ _ N2) in N5. exact N5.
    + split; [|eauto]. apply Forall_forall. intros x Hx. apply (codes_lt p H F). apply N4. apply in_app_iff. auto.
Qed.

(** What is set aside for later calls. *)
Definition pending {V : Type} (p : N) (s : plus V) : N :=
  725 * len (hp_tmpset s) + if is_sparse s then 9 * 2 ^ p else 0.

Lemma size_18 : forall n, n < 2 ^ 18 -> sort_steps n <= 18 * n.
Proof.
  intros n H. unfold sort_steps. destruct (N.eq_dec n 0) as [->|Z]; [discriminate|]. rewrite N.size_log2 by exact Z.
  assert (N.log2 n < 18) by (apply N.log2_lt_pow2; lia). nia.
Qed.
Lemma fresh_words : forall e p r, 32 <= usize_bits e -> 4 <= p <= 18 -> with_count e SIZE_PLUS (2 ^ p) = Ret r -> 5 * len (r_buf r) <= 2 ^ p + 4.
Proof.
  intros e p r He Hp H. destruct (with_count_spec e SIZE_PLUS (2 ^ p)) as (r' & E & W & C & _).
  - red. auto.
  - change (count_per_word SIZE_PLUS) with 5. pose proof (pow2_le p 18 ltac:(lia)). pose proof (pow2_le 32 (usize_bits e) He).
    change (2 ^ 18) with 262144 in *. change (2 ^ 32) with 4294967296 in *. lia.
  - rewrite H in E. injection E as <-. now apply words.
Qed.
Lemma flush_cost : forall (V : Type) e ord p (s s' : plus V) k, 32 <= usize_bits e -> 4 <= p <= 18 -> is_order ord -> hp_registers s = None -> hp_counts0 s = 2 ^ p ->
  Forall (fun x => x < 2 ^ 32) (hp_tmpset s) -> len (hp_tmpset s) < 2 ^ 18 -> t_merge_sparse e ord s = Ret (s', k) ->
  len (d_buf (hp_sparse s)) <= k /\ hp_tmpset s' = [] /\
  ((is_sparse s' = true /\ hp_counts0 s' = 2 ^ p /\ len (d_buf (hp_sparse s')) <= hp_counts2 s /\ k <= 25 * len (hp_tmpset s) + 7 * len (d_buf (hp_sparse s))) \/
   (is_sparse s' = false /\ 5 * k <= 175 * len (hp_tmpset s) + 85 * len (d_buf (hp_sparse s)) + 2 ^ p + 4)).
Proof.
  intros V e ord p s s' k He Hp Ho R C F LT H. apply merge_sparse_steps in H as (A & B & K); auto. split; [exact A|]. split; [exact B|].
  apply size_18 in LT. unfold flush_steps in K. destruct K as [(S & S1 & S2 & K)|(S & r & W & K)]; [left|right]; (split; [exact S|]); [split; [congruence|]; split; [exact S2|]; lia|].
  rewrite C in W. apply fresh_words in W; auto. lia.
Qed.

Lemma is_sparse_true : forall (V : Type) (s : plus V), is_sparse s = true -> hp_registers s = None.
Proof. intros V s. unfold is_sparse. destruct (hp_registers s); [discriminate|reflexivity]. Qed.
Lemma is_sparse_false : forall (V : Type) (s : plus V), is_sparse s = false -> exists r, hp_registers s = Some r.
Proof. intros V s. unfold is_sparse. destruct (hp_registers s); [eauto|discriminate]. Qed.
Lemma insert_length : forall t c, len (hset_insert t c) <= len t + 1.
Proof. intros t c. unfold hset_insert, len. destruct (existsb _ _); cbn [length]; lia. Qed.
Lemma inserts_length : forall l t, len (fold_left hset_insert l t) <= len t + len l.
Proof.
  induction l as [|c l IH]; intros t; cbn [fold_left]; [unfold len; cbn [length]; lia|]. specialize (IH (hset_insert t c)). pose proof (insert_length t c).
  unfold len in *. cbn [length]. lia.
Qed.
Lemma insert_small : forall t c, Forall (fun x => x < 2 ^ 32) t -> c < 2 ^ 32 -> Forall (fun x => x < 2 ^ 32) (hset_insert t c).
Proof. intros t c F H. unfold hset_insert. destruct (existsb _ _); auto. Qed.
Lemma inserts_small : forall l t, Forall (fun x => x < 2 ^ 32) t -> Forall (fun x => x < 2 ^ 32) l -> Forall (fun x => x < 2 ^ 32) (fold_left hset_insert l t).
Proof. induction l as [|c l IH]; intros t F G; [exact F|]. inversion G; subst. apply IH; auto. now apply insert_small. Qed.

(** ** insert *)
Lemma full_cost : forall (V : Type) e ord p (s s' : plus V) k, 32 <= usize_bits e -> 4 <= p <= 18 -> is_order ord -> hp_registers s = None -> hp_counts0 s = 2 ^ p ->
  hp_counts2 s = sparse_limit p -> Forall (fun x => x < 2 ^ 32) (hp_tmpset s) -> len (hp_tmpset s) < 2 ^ 18 -> t_flush_if_full e ord s = Ret (s', k) ->
  (100 * len (hp_tmpset s) <= sparse_limit p /\ s' = s /\ k = 0) \/
  (sparse_limit p < 100 * len (hp_tmpset s) /\ hp_tmpset s' = [] /\
  ((is_sparse s' = true /\ k <= 25 * len (hp_tmpset s) + 7 * len (d_buf (hp_sparse s))) \/
   (is_sparse s' = false /\ 5 * k <= 175 * len (hp_tmpset s) + 85 * len (d_buf (hp_sparse s)) + 2 ^ p + 4))).
Proof.
  intros V e ord p s s' k He Hp Ho R C C2 F LT H. unfold t_flush_if_full, hset_len in H. rewrite umul_ok in H.
  2:{ eapply N.lt_le_trans; [|apply (pow2_le 32); auto]. change (2 ^ 32) with 4294967296. change (2 ^ 18) with 262144 in LT. lia. }
  apply tbind_inv in H as (x & n1 & n2 & A & H & ->). apply free_inv in A as [A ->]. injection A as <-. rewrite C2 in H.
  destruct (N.ltb_spec (sparse_limit p) (len (hp_tmpset s) * 100)) as [Q|Q].
  - right. apply (flush_cost V e ord p) in H as (_ & B & K); auto. split; [lia|]. split; [exact B|]. destruct K as [(S & _ & _ & K)|K]; auto.
  - left. apply free_inv in H as [H ->]. injection H as <-. split; [lia|]. auto.
Qed.
Lemma insert_cost : forall (V : Type) e ord p (s s' : plus V) v k, 32 <= usize_bits e -> 4 <= p <= 18 -> is_order ord -> shape p s ->
  t_hp_insert e ord s v = Ret (s', k) ->
  k + pending p s' <= 726 + pending p s /\ k <= 17 * 2 ^ p /\ (is_sparse s = false -> k = 1 /\ is_sparse s' = false).
Proof.
  intros V e ord p s s' v k He Hp Ho (P & C0 & C2 & K) H. pose proof (limit_lt p Hp) as (L1 & L2 & L3). unfold t_hp_insert in H. unfold pending. destruct (hp_registers s) as [r|] eqn:R.
  - apply after_inv in H as (k' & H & ->). apply free_inv in H as [H ->]. unfold hp_insert_impl, hp_insert_hash in H. rewrite R in H.
    assert (Q : is_sparse s' = false /\ hp_tmpset s' = hp_tmpset s).
    { clear K. repeat (match type of H with bind ?m _ = _ => destruct m as [?| |] eqn:?; try discriminate; cbn [bind] in H end).
      injection H as <-. split; reflexivity. }
    destruct Q as [Q ->]. rewrite Q. assert (is_sparse s = false) by (unfold is_sparse; now rewrite R). rewrite H0. split; [lia|]. split; [lia|]. auto.
  - assert (Z : is_sparse s = true) by (unfold is_sparse; now rewrite R). rewrite Z. destruct K as (K1 & K2 & K3 & _).
    apply after_inv in H as (k' & H & ->). apply tbind_inv in H as (c & n1 & n2 & A & H & ->). apply free_inv in A as [A ->].
    rewrite P, encode_hash_ok in A; try lia. 2:{ unfold cast. apply N.mod_lt. discriminate. }
    injection A as <-. set (c := sparse_code p (cast 64 (hp_builder s v))) in *.
    assert (HC : c < 2 ^ 32) by (apply sparse_code_lt; unfold cast; apply N.mod_lt; discriminate).
    pose proof (insert_length (hp_tmpset s) c) as IL. pose proof (insert_small _ _ K3 HC) as IS.
    apply (full_cost V e ord p) in H; auto; cbn [set_tmpset hp_tmpset hp_sparse] in *; [|change (2 ^ 18) with 262144; lia].
    destruct H as [(Q & -> & ->)|(Q & T & [(S & Q')|(S & Q')])].
    + cbn [set_tmpset hp_tmpset]. change (is_sparse (set_tmpset s (hset_insert (hp_tmpset s) c))) with (is_sparse s). rewrite Z.
      split; [lia|]. split; [lia|]. discriminate.
    + rewrite T, S. change (len (@nil N)) with 0. split; [lia|]. split; [lia|]. discriminate.
    + rewrite T, S. change (len (@nil N)) with 0. split; [lia|]. split; [lia|]. discriminate.
Qed.

(** ** merge *)
Lemma erased : forall (A : Type) (m : T A) a k, m = Ret (a, k) -> erase m = Ret a.
Proof. intros A m a k ->. reflexivity. Qed.
Lemma for_each_insert : forall l t, for_each l (fun t c => Ret (hset_insert t c)) t = Ret (fold_left hset_insert l t).
Proof. induction l as [|c l IH]; intros t; cbn [for_each fold_left]; [reflexivity|]. rewrite bind_ret. apply IH. Qed.
Lemma order_len : forall ord l, is_order ord -> len (ord l) = len l.
Proof. intros ord l H. unfold len. now rewrite (Permutation_length (H l)). Qed.
Lemma order_small : forall ord l, is_order ord -> Forall (fun x => x < 2 ^ 32) l -> Forall (fun x => x < 2 ^ 32) (ord l).
Proof. intros ord l H F. rewrite Forall_forall in *. intros x Hx. apply F. revert Hx. apply Permutation_in, H. Qed.
Lemma merge_cost : forall (V W : Type) e ord p (s s' : plus V) (o : plus W) r k, 32 <= usize_bits e -> 4 <= p <= 18 -> is_order ord -> shape p s -> shape p o ->
  t_hp_merge e ord s o = Ret ((s', r), k) -> k + pending p s' <= 26 * 2 ^ p + pending p s + pending p o.
Proof.
  intros V W e ord p s s' o r k He Hp Ho (P & C0 & C2 & K) (P' & C0' & C2' & K') H. pose proof (limit_lt p Hp) as (L1 & L2 & L3). unfold t_hp_merge in H.
  apply after_inv in H as (k' & H & ->). rewrite P, P', N.eqb_refl in H. cbn [negb] in H. unfold pending. destruct (is_sparse o) eqn:SO.
  - pose proof (is_sparse_true _ _ SO) as RO. rewrite RO in K'. destruct K' as (K1' & K2' & K3' & D & KD).
    destruct (is_sparse s) eqn:SS.
    + pose proof (is_sparse_true _ _ SS) as RS. rewrite RS in K. destruct K as (K1 & K2 & K3 & _).
      apply tbind_inv in H as (t1 & n1 & n2 & A & H & ->). pose proof (erased _ _ _ _ A) as EA. apply for_each_steps in A. rewrite erase_for_each, for_each_insert in EA. injection EA as <-.
      apply tbind_inv in H as (t2 & n3 & n4 & B & H & ->). pose proof (erased _ _ _ _ B) as EB. apply dif_for_steps in B. rewrite erase_dif_for, (dif_for_ok _ e _ D) in EB by exact KD. rewrite for_each_insert in EB. injection EB as EB.
      rewrite order_len in A by exact Ho.
      assert (LD : len D <= len (d_buf (hp_sparse o))). { pose proof (gap_len_length D 0). rewrite <- (dif_repr_len _ _ KD) in H0. exact H0. }
      assert (T2 : len t2 <= len (hp_tmpset s) + len (hp_tmpset o) + len (d_buf (hp_sparse o))).
      { subst t2. pose proof (inserts_length D (fold_left hset_insert (ord (hp_tmpset o)) (hp_tmpset s))). pose proof (inserts_length (ord (hp_tmpset o)) (hp_tmpset s)). pose proof (order_len ord (hp_tmpset o) Ho). lia. }
      assert (F2 : Forall (fun x => x < 2 ^ 32) t2). { subst t2. apply inserts_small; [|apply KD]. apply inserts_small; [exact K3|]. now apply order_small. }
      apply tbind_inv in H as (s1 & n5 & n6 & Q & H & ->). apply free_inv in H as [H ->]. injection H as <- _.
      apply (full_cost V e ord p) in Q; auto; cbn [set_tmpset hp_tmpset hp_sparse] in *; [|change (2 ^ 18) with 262144; lia].
      destruct Q as [(Q & -> & ->)|(Q & T & [(S & Q')|(S & Q')])].
      * cbn [set_tmpset hp_tmpset]. change (is_sparse (set_tmpset s t2)) with (is_sparse s). rewrite SS. lia.
      * rewrite T, S. change (len (@nil N)) with 0. lia.
      * rewrite T, S. change (len (@nil N)) with 0. lia.
    + apply tbind_inv in H as (q & n1 & n2 & A & H & ->). apply free_inv in A as [_ ->].
      apply tbind_inv in H as (q1 & n3 & n4 & A & H & ->). apply for_each_steps in A. rewrite order_len in A by exact Ho.
      apply tbind_inv in H as (q2 & n5 & n6 & B & H & ->). apply dif_for_steps in B. apply free_inv in H as [H ->]. injection H as <- _.
      cbn [set_registers hp_tmpset]. change (is_sparse (set_registers s (Some q2))) with false. cbv iota. lia.
  - destruct (is_sparse_false _ _ SO) as (ro & RO). rewrite RO in K'. destruct K' as (K1' & K2' & K3' & K4').
    apply tbind_inv in H as (s1 & n1 & n2 & A & H & ->).
    apply tbind_inv in H as (q & n3 & n4 & B & H & ->). apply free_inv in B as [_ ->].
    apply tbind_inv in H as (l & n5 & n6 & B & H & ->). apply free_inv in B as [B ->]. unfold registers_iter in B. rewrite RO in B. injection B as <-.
    apply tbind_inv in H as (q' & n7 & n8 & B & H & ->). apply for_each_enum_steps in B. rewrite K4' in B. apply free_inv in H as [H ->]. injection H as <- _.
    cbn [set_registers hp_tmpset]. change (is_sparse (set_registers s1 (Some q'))) with false. cbv iota.
    destruct (is_sparse s) eqn:SS.
    + pose proof (is_sparse_true _ _ SS) as RS. rewrite RS in K. destruct K as (K1 & K2 & K3 & _).
      apply tbind_inv in A as (s2 & m1 & m2 & A & A' & ->). apply (flush_cost V e ord p) in A as (_ & T & [(S & S1 & S2 & Q)|(S & Q)]); auto; [| |change (2 ^ 18) with 262144; lia].
      * rewrite S in A'. apply to_normal_steps in A' as (_ & T1 & r0 & WC & _ & Q'). rewrite S1 in WC. apply fresh_words in WC; auto.
        rewrite T1. change (len (@nil N)) with 0. lia.
      * rewrite S in A'. apply free_inv in A' as [A' ->]. injection A' as <-. rewrite T. change (len (@nil N)) with 0. lia.
    + apply free_inv in A as [A ->]. injection A as <-. lia.
Qed.

(** ** count *)
Lemma count_cost : forall (V : Type) e ord p (s s' : plus V) x k, 32 <= usize_bits e -> 4 <= p <= 18 -> is_order ord -> shape p s -> shape p s' ->
  t_hp_count e ord s = Ret ((s', x), k) -> k + pending p s' <= 6 * 2 ^ p + pending p s /\ 1 + len (d_buf (hp_sparse s)) <= k.
Proof.
  intros V e ord p s s' x k He Hp Ho (P & C0 & C2 & K) SH H. pose proof (limit_lt p Hp) as (L1 & L2 & L3). unfold t_hp_count in H.
  apply after_inv in H as (k' & H & ->). apply tbind_inv in H as (s1 & n1 & n2 & A & H & ->).
  assert (E : s' = s1 /\ n2 <= if is_sparse s1 then 0 else 2 ^ p).
  { unfold is_sparse. destruct (hp_registers s1) as [r|] eqn:R1.
    - assert (E : s' = s1 -> len (reg_iter SIZE_PLUS r) = 2 ^ p). { intros ->. destruct SH as (_ & _ & _ & SH). rewrite R1 in SH. apply SH. }
      destruct (negb _).
      + apply tbind_inv in H as (c & m1 & m2 & B & H & ->). apply free_inv in B as [_ ->]. apply tbind_inv in H as (t & m3 & m4 & B & H & ->). apply free_inv in B as [_ ->].
        destruct (fle c t).
        * apply free_inv in H as [H ->]. injection H as <- _. split; [reflexivity|lia].
        * apply tbind_inv in H as (w & m5 & m6 & B & H & ->). apply after_inv in B as (m7 & B & ->). apply free_inv in B as [_ ->]. apply free_inv in H as [H ->]. injection H as <- _. specialize (E eq_refl). split; [reflexivity|lia].
      + apply tbind_inv in H as (w & m5 & m6 & B & H & ->). apply after_inv in B as (m7 & B & ->). apply free_inv in B as [_ ->]. apply free_inv in H as [H ->]. injection H as <- _. specialize (E eq_refl). split; [reflexivity|lia].
    - apply tbind_inv in H as (c & m1 & m2 & B & H & ->). apply free_inv in B as [_ ->]. apply tbind_inv in H as (t & m3 & m4 & B & H & ->). apply free_inv in B as [_ ->].
      apply free_inv in H as [H ->]. injection H as <- _. split; [reflexivity|lia]. }
  clear H. destruct E as [-> E]. unfold pending. destruct (is_sparse s) eqn:SS.
  - pose proof (is_sparse_true _ _ SS) as RS. rewrite RS in K. destruct K as (K1 & K2 & K3 & _).
    apply (flush_cost V e ord p) in A as (A0 & T & [(S & S1 & S2 & Q)|(S & Q)]); auto; [| |change (2 ^ 18) with 262144; lia].
    + rewrite S, T in *. change (len (@nil N)) with 0. lia.
    + rewrite S, T in *. change (len (@nil N)) with 0. lia.
  - apply free_inv in A as [A ->]. injection A as <-. rewrite SS in *. destruct (is_sparse_false _ _ SS) as (r & R). rewrite R in K. destruct K as (_ & K & _). rewrite K. change (len (@nil N)) with 0. lia.
Qed.
