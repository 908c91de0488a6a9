(** * Concrete programs used as examples beside the theorems *)
From Coq Require Import NArith ZArith List Bool Lia Permutation Sorted.
From Verif Require Import ModelRust ModelF64 ModelEnv ModelLog ModelCommon ModelPF ModelPlus
  ModelSerde ModelHistory ModelTests Spec SpecBuild BitFacts BsFacts PFInv ObsFacts.
Import ListNotations.
Local Open Scope N_scope.

(** ** Builds *)
Lemma test_build : build_std test_env.
Proof.
  split; [|reflexivity]. split; [cbn; lia|split; [now right|]]. exact bsearch_halving_ok.
Qed.

(** A 32-bit release build of the same platform, without const-loop. *)
Definition small_env : env :=
  {| usize_bits := 32; overflow_checks := false; feat_std := true; feat_const_loop := false;
     sum_init := nzero; std_ln := model_ln; std_bsearch := bsearch_halving |}.
Lemma small_build : build_std small_env.
Proof.
  split; [|reflexivity]. split; [cbn; lia|split; [now right|]]. exact bsearch_halving_ok.
Qed.
Lemma small_same : same_platform test_env small_env.
Proof. split; [|split; [|split]]; reflexivity. Qed.

(** A no_std build. *)
Definition core_env : env :=
  {| usize_bits := 64; overflow_checks := true; feat_std := false; feat_const_loop := true;
     sum_init := pzero; std_ln := fun x => x; std_bsearch := bsearch_early |}.
Lemma core_build : build core_env.
Proof. split; [cbn; lia|split; [now left|]]. exact bsearch_early_ok. Qed.

(** ** Histories *)
Lemma keep_order : is_order keep.
Proof. intros l. apply Permutation_refl. Qed.
Lemma rev_order : is_order (@rev N).
Proof. intros l. apply Permutation_sym, Permutation_rev. Qed.

(** A multiplicative hash. *)
Definition mix (v : N) : N := v * 0x9E3779B97F4A7C15.
(** Another hasher. *)
Definition mix2 (v : N) : N := (v + 1) * 0xD6E8FEB86659FD93.

Lemma inserted_snoc : forall (V : Type) p (b : V -> N) k ord vs v,
  inserted p b k ord (vs ++ [v]) = HInsert k ord (inserted p b k ord vs) v.
Proof. intros. unfold inserted. now rewrite fold_left_app. Qed.

Lemma inserted_spec : forall (V : Type) p (b : V -> N) k ord vs,
  hist_precision (inserted p b k ord vs) = p /\ hist_builder (inserted p b k ord vs) = b /\
  same_set (hist_hashes (inserted p b k ord vs)) (map (hash64 b) vs) /\
  (forall m, is_order ord -> 4 <= p <= m -> valid m (inserted p b k ord vs)) /\
  (forall w, 2 * p < w -> narrow w (inserted p b k ord vs)).
Proof.
  intros V p b k ord vs. induction vs as [|v vs IH] using rev_ind.
  - cbn. split; [auto|split; [auto|split; [intros x; tauto|split; auto]]].
  - destruct IH as (A & B & C & D & F). rewrite inserted_snoc. cbn [hist_precision hist_builder valid narrow].
    split; [auto|split; [auto|split; [|split; auto]]].
    intros x. cbn [hist_hashes In]. rewrite map_app, in_app_iff, B, (C x). cbn. tauto.
Qed.

Lemma inserted_valid : forall (V : Type) m p (b : V -> N) k ord vs, is_order ord -> 4 <= p <= m ->
  valid m (inserted p b k ord vs).
Proof. intros. now apply inserted_spec. Qed.
Lemma inserted_narrow : forall (V : Type) w p (b : V -> N) k ord vs, 2 * p < w ->
  narrow w (inserted p b k ord vs).
Proof. intros. now apply inserted_spec. Qed.

(** Serializing a stateless builder. *)
Definition ser_unit (_ : N -> N) : sval := SUnit.
Definition de_mix (_ : sval) : option (N -> N) := Some mix.

(** Sparse at precision 10; normal at precision 4; a program with merges, counts and a
    serialization round trip. *)
Definition demo_sparse : hist N := inserted 10 mix Insert keep (range 9).
Definition demo_normal : hist N := inserted 4 mix Add (@rev N) (range 40).
Definition demo_other : hist N := inserted 4 mix2 InsertAny keep (range 5).
Definition demo_tree : hist N :=
  HInsert Insert keep
    (HMerge (@rev N) (HCount keep demo_other)
       (HSerde (@rev N) ser_unit de_mix (HMerge keep demo_normal demo_sparse))) 77.
Definition demo_tree10 : hist N :=
  HMerge keep (HCount keep demo_sparse)
    (HSerde (@rev N) ser_unit de_mix (inserted 10 mix Add keep (range 500))).

Lemma demo_sparse_valid : forall m, 10 <= m -> valid m demo_sparse.
Proof. intros. apply inserted_valid; [apply keep_order|lia]. Qed.
Lemma demo_normal_valid : forall m, 10 <= m -> valid m demo_normal.
Proof. intros. apply inserted_valid; [apply rev_order|lia]. Qed.
Lemma demo_other_valid : forall m, 10 <= m -> valid m demo_other.
Proof. intros. apply inserted_valid; [apply keep_order|lia]. Qed.

Lemma demo_tree_valid : forall m, 10 <= m -> valid m demo_tree.
Proof.
  intros m Hm. unfold demo_tree. cbn [valid].
  split; [apply keep_order|]. split; [apply rev_order|]. split.
  - split; [apply keep_order|now apply demo_other_valid].
  - split; [apply rev_order|]. split.
    + split; [apply keep_order|split; [now apply demo_normal_valid|now apply demo_sparse_valid]].
    + exists mix. split; [reflexivity|]. cbn [hist_builder].
      unfold demo_normal. now rewrite (proj1 (proj2 (inserted_spec _ _ _ _ _ _))).
Qed.

Lemma demo_tree10_valid : forall m, 10 <= m -> valid m demo_tree10.
Proof.
  intros m Hm. unfold demo_tree10. cbn [valid].
  split; [apply keep_order|]. split.
  - split; [apply keep_order|now apply demo_sparse_valid].
  - split; [apply rev_order|]. split.
    + apply inserted_valid; [apply keep_order|lia].
    + exists mix. split; [reflexivity|].
      now rewrite (proj1 (proj2 (inserted_spec _ _ _ _ _ _))).
Qed.

Lemma wide : forall (V : Type) e (h : hist V), valid MAX_PLUS h -> 64 <= usize_bits e ->
  narrow (usize_bits e) h.
Proof. intros V e h Hv He. apply (valid_narrow V MAX_PLUS); auto. unfold MAX_PLUS. lia. Qed.

Lemma wide_pf : forall (V : Type) e (h : hist V), valid MAX_PF h -> 64 <= usize_bits e ->
  narrow (usize_bits e) h.
Proof. intros V e h Hv He. apply (valid_narrow V MAX_PF); auto. unfold MAX_PF. lia. Qed.

Definition is_ok {A : Type} (m : M A) : bool := match m with Ret _ => true | _ => false end.

(** The bits of a result (floats carry proofs, which are slow to compare). *)
Definition bits (m : M f64) : M N := let* x := m in Ret (to_bits x).

(** The same values in another order, with repetitions, split over two merged sketches. *)
Lemma shuffled_same : forall p (b : N -> N) k1 k2 k3 o1 o2 o3 q q' n m k, m <= n -> k <= n ->
  same_set (hist_hashes (inserted p b k1 o1 (range n)))
    (hist_hashes (HMerge q (HCount q' (inserted p b k2 o2 (rev (range m))))
       (inserted p b k3 o3 (range n ++ range k)))).
Proof.
  intros p b k1 k2 k3 o1 o2 o3 q q' n m k Hm Hk x. cbn [hist_hashes hist_precision].
  pose proof (inserted_spec N p b k1 o1 (range n)) as (_ & _ & A & _).
  pose proof (inserted_spec N p b k2 o2 (rev (range m))) as (B1 & _ & B & _).
  pose proof (inserted_spec N p b k3 o3 (range n ++ range k)) as (C1 & _ & C & _).
  rewrite B1, C1, N.eqb_refl, in_app_iff, (A x), (B x), (C x), !in_map_iff. split.
  - intros (y & E & H). left. exists y. rewrite in_app_iff. auto.
  - intros [(y & E & H)|(y & E & H)]; exists y; (split; [auto|]).
    + apply in_app_iff in H. destruct H as [H|H]; auto. apply range_in in H. apply range_in. lia.
    + apply in_rev, range_in in H. apply range_in. lia.
Qed.

(** Hash functions that agree modulo 2^32. *)
Lemma low_same : forall p (b b' : N -> N) k o vs, (forall v, b v mod 2 ^ 32 = b' v mod 2 ^ 32) ->
  same_set (map (fun x => x mod 2 ^ 32) (hist_hashes (inserted p b k o vs)))
           (map (fun x => x mod 2 ^ 32) (hist_hashes (inserted p b' k o vs))).
Proof.
  intros p b b' k o vs H x.
  pose proof (inserted_spec N p b k o vs) as (_ & _ & A & _).
  pose proof (inserted_spec N p b' k o vs) as (_ & _ & B & _).
  rewrite (same_set_map _ _ _ A x), (same_set_map _ _ _ B x), !map_map.
  rewrite (map_ext (fun v => hash64 b v mod 2 ^ 32) (fun v => hash64 b' v mod 2 ^ 32)); [tauto|].
  intros v. unfold hash64. change (2 ^ 64) with (2 ^ 32 * 2 ^ 32).
  rewrite !N.mod_mul_r by discriminate.
  rewrite !(N.mul_comm (2 ^ 32)), !N.mod_add, !N.mod_mod by discriminate. apply H.
Qed.

(** Checking a list of codes. *)
Fixpoint sorted_b (L : list N) : bool :=
  match L with
  | x :: ((y :: _) as L') => (x <? y) && sorted_b L'
  | _ => true
  end.
Definition incl_b (l m : list N) : bool := forallb (fun x => existsb (N.eqb x) m) l.
Definition code_list_b (p : N) (H L : list N) : bool :=
  sorted_b L && incl_b L (map (sparse_code p) H) && incl_b (map (sparse_code p) H) L.

Lemma sorted_b_ok : forall L, sorted_b L = true -> StronglySorted N.lt L.
Proof.
  intros L H. apply Sorted_StronglySorted; [intros a b c; apply N.lt_trans|].
  induction L as [|x [|y L] IH]; [constructor|constructor; constructor|].
  cbn in H. apply andb_true_iff in H. destruct H as [H1 H2]. constructor; [now apply IH|].
  constructor. now apply N.ltb_lt.
Qed.
Lemma incl_b_ok : forall l m, incl_b l m = true -> forall x, In x l -> In x m.
Proof.
  intros l m H x Hx. unfold incl_b in H. rewrite forallb_forall in H. specialize (H x Hx).
  apply existsb_exists in H. destruct H as (y & Hy & E). apply N.eqb_eq in E. now subst.
Qed.
Lemma code_list_b_ok : forall p H L, code_list_b p H L = true -> is_code_list p H L.
Proof.
  intros p H L E. unfold code_list_b in E. apply andb_true_iff in E. destruct E as [E1 E2].
  apply andb_true_iff in E1. destruct E1 as [E0 E1]. split; [now apply sorted_b_ok|].
  intros x. split; now apply incl_b_ok.
Qed.

(** Computing the list of codes. *)
Fixpoint insert_code (x : N) (L : list N) : list N :=
  match L with
  | [] => [x]
  | y :: L' => if x <? y then x :: L else if x =? y then L else y :: insert_code x L'
  end.
Definition codes (p : N) (H : list N) : list N := fold_right insert_code [] (map (sparse_code p) H).

(** Register files all of whose registers hold [r + 1], at precision 4; for the 64-bit and for
    the 32-bit hash. *)
Definition raised (r : N) : hist N :=
  inserted 4 (fun v => v * 2 ^ 60 + 2 ^ (59 - r)) Insert keep (range 16).
Definition raised_pf (r : N) : hist N :=
  inserted 4 (fun v => v * 2 ^ 28 + 2 ^ 28 / 2 ^ (r + 1)) Insert keep (range 16).
Lemma raised_valid : forall m r, 4 <= m -> valid m (raised r).
Proof. intros. apply inserted_valid; [apply keep_order|lia]. Qed.
Lemma raised_pf_valid : forall m r, 4 <= m -> valid m (raised_pf r).
Proof. intros. apply inserted_valid; [apply keep_order|lia]. Qed.
