(** * What later operations can observe *)
From Coq Require Import NArith ZArith Reals Lra List Bool Lia Permutation Sorted.
From Flocq Require Import Core BinarySingleNaN.
From Verif Require Import ModelRust ModelF64 ModelEnv ModelLog ModelRegisters ModelEncoding
  ModelCommon ModelPF ModelPlus ModelSerde ModelHistory Spec SpecReal SpecBuild BitFacts RegFacts
  EncFacts MergeFacts AbsorbFacts F64Facts RawFacts BiasFacts LogFacts PFInv PlusInv.
Import ListNotations.
Local Open Scope N_scope.

(** ** Builds *)

Lemma i32_checked : forall ck z y, i32 true z = Ret y -> i32 ck z = Ret y.
Proof. intros ck z y. unfold i32. destruct (_ && _); [auto|discriminate]. Qed.
Lemma uadd_checked : forall ck w a b y, uadd true w a b = Ret y -> uadd ck w a b = Ret y.
Proof. intros ck w a b y. unfold uadd. destruct (_ <? _); [auto|discriminate]. Qed.
Lemma usub_checked : forall ck w w' a b y, usub true w a b = Ret y -> usub ck w' a b = Ret y.
Proof. intros ck w w' a b y. unfold usub. destruct (_ <=? _); [auto|discriminate]. Qed.

Lemma log_reduce_checked : forall ck b k y, log_reduce true b k = Ret y -> log_reduce ck b k = Ret y.
Proof.
  intros ck b k y H. unfold log_reduce in *.
  apply bind_inv in H. destruct H as (h1 & E1 & H). rewrite (uadd_checked ck _ _ _ _ E1), bind_ret.
  apply bind_inv in H. destruct H as (k1 & E2 & H). rewrite (i32_checked ck _ _ E2), bind_ret.
  apply bind_inv in H. destruct H as (k2 & E3 & H). rewrite (i32_checked ck _ _ E3), bind_ret.
  apply bind_inv in H. destruct H as (h2 & E4 & H). rewrite (uadd_checked ck _ _ _ _ E4), bind_ret.
  exact H.
Qed.

Lemma log_checked : forall ck x y, log true x = Ret y -> log ck x = Ret y.
Proof.
  intros ck x y. unfold log, log_bits. 
  destruct (_ || _); [destruct (_ =? 0); [auto|]; destruct (negb _); [auto|]|].
  - intros H. apply bind_inv in H. destruct H as (k & E & H).
    rewrite (i32_checked ck _ _ E), bind_ret. now apply log_reduce_checked.
  - destruct (_ <=? _); auto. destruct (_ && _); auto. apply log_reduce_checked.
Qed.

Lemma log_same : forall ck ck' x, log ck x = log ck' x.
Proof.
  intros ck ck' x. destruct (log_total true x) as [y E].
  now rewrite (log_checked ck x y E), (log_checked ck' x y E).
Qed.

Lemma ln_same : forall e e' x, same_platform e e' -> ModelCommon.ln e x = ModelCommon.ln e' x.
Proof.
  intros e e' x (A & B & C & D). unfold ModelCommon.ln. rewrite A, C, (log_same _ (overflow_checks e')).
  reflexivity.
Qed.

Lemma linear_same : forall e e' a b, same_platform e e' -> linear_count e a b = linear_count e' a b.
Proof. intros e e' a b H. unfold linear_count. now rewrite (ln_same e e'). Qed.

Lemma raw_same : forall e e' p l, same_platform e e' -> raw_f e p l = raw_f e' p l.
Proof. intros e e' p l (_ & H & _). unfold raw_f. now rewrite H. Qed.

(** The same build with overflow checks. *)
Definition checked (e : env) : env :=
  Env (usize_bits e) true (feat_std e) (feat_const_loop e) (sum_init e) (std_ln e) (std_bsearch e).

Lemma checked_build : forall e, build e -> build (checked e).
Proof. intros e H. exact H. Qed.

Lemma interpolate_checked : forall e e' E B raw f, std_bsearch e = std_bsearch e' ->
  interpolate (checked e) E B raw = Ret f -> interpolate e' E B raw = Ret f.
Proof.
  intros e e' E B raw f Hs H. unfold interpolate in *. rewrite <- Hs. cbn [checked std_bsearch] in H.
  apply bind_inv in H. destruct H as (res & E1 & H). rewrite E1, bind_ret. clear E1.
  cbn [checked overflow_checks usize_bits] in H. revert H.
  generalize (match res with BsOk i => i | BsErr i => i end). intros i H.
  apply bind_inv in H. destruct H as (prv & E2 & H).
  rewrite (usub_checked _ _ (usize_bits e') _ _ _ E2), bind_ret. exact H.
Qed.

Lemma bias_checked : forall e e' p raw f, std_bsearch e = std_bsearch e' ->
  estimate_bias (checked e) p raw = Ret f -> estimate_bias e' p raw = Ret f.
Proof.
  intros e e' p raw f Hs H. unfold estimate_bias in *. cbn [checked overflow_checks usize_bits] in H.
  apply bind_inv in H. destruct H as (t & E1 & H). rewrite (usub_checked _ _ _ _ _ _ E1), bind_ret.
  apply bind_inv in H. destruct H as (bs & E2 & H). rewrite E2, bind_ret.
  apply bind_inv in H. destruct H as (es & E3 & H). rewrite E3, bind_ret.
  apply bind_inv in H. destruct H as (e0 & E4 & H). rewrite E4, bind_ret.
  destruct (fle raw e0); [exact H|].
  apply bind_inv in H. destruct H as (l & E5 & H).
  rewrite (usub_checked _ _ (usize_bits e') _ _ _ E5), bind_ret.
  apply bind_inv in H. destruct H as (el & E6 & H). rewrite E6, bind_ret.
  destruct (fle el raw).
  - apply bind_inv in H. destruct H as (lb & E7 & H).
    rewrite (usub_checked _ _ (usize_bits e') _ _ _ E7), bind_ret. exact H.
  - eapply interpolate_checked; eauto.
Qed.

Lemma bias_same : forall e e' p raw, build e -> same_platform e e' -> 4 <= p <= 18 -> fin raw ->
  estimate_bias e p raw = estimate_bias e' p raw.
Proof.
  intros e e' p raw Hb (_ & _ & _ & Hs) Hp Fr.
  destruct (estimate_bias_ok (checked e) p raw (checked_build e Hb) (proj1 Hp) (proj2 Hp) Fr)
    as (f & y & E & _).
  rewrite (bias_checked e e' p raw f Hs E). eapply bias_checked; eauto.
Qed.

Lemma corrected_same : forall e e' p l, build_std e -> build_std e' -> same_platform e e' ->
  4 <= p <= 18 -> 2 * p < usize_bits e -> 2 * p < usize_bits e' ->
  N.of_nat (length l) = 2 ^ p -> Forall (fun v => v < 64) l ->
  estimate_corrected e p l (2 ^ p) = estimate_corrected e' p l (2 ^ p).
Proof.
  intros e e' p l [Hb Hs] [Hb' Hs'] HP Hp Hu Hu' HL Hl. unfold estimate_corrected.
  assert (Hm : forall w, 2 * p < w -> 2 ^ p * 2 ^ p < 2 ^ w).
  { intros w Hw. rewrite <- N.pow_add_r. apply pow2_lt. lia. }
  rewrite !estimate_raw_plus_ok, !bind_ret by (auto; unfold lut_bound; rewrite ?Hs, ?Hs'; auto).
  fold (raw_f e p l) (raw_f e' p l). rewrite <- (raw_same e e') by auto.
  destruct (raw_f_rel e p l Hb (proj1 Hp) (proj2 Hp) HL Hl) as (Fr & _).
  rewrite (bias_same e e' p _ Hb HP Hp Fr). reflexivity.
Qed.

Lemma value_same : forall e e' p H c, build_std e -> build_std e' -> same_platform e e' ->
  4 <= p <= 18 -> 2 * p < usize_bits e -> 2 * p < usize_bits e' ->
  value_of e p H c -> value_of e' p H c.
Proof.
  intros e e' p H c Hb Hb' HP Hp Hu Hu' (L & HL & A). exists L. split; [auto|].
  destruct A as [[A B]|(A & l & R & F & B)].
  - left. split; auto. rewrite <- (linear_same e e'); auto.
  - right. split; auto. exists l. split; [auto|split; [auto|]]. rewrite <- B. unfold normal_value.
    rewrite (linear_same e e') by auto. rewrite (corrected_same e e') by (auto; apply R). reflexivity.
Qed.

Lemma pf_value_same : forall e e' p l z, same_platform e e' -> pf_value e p l z = pf_value e' p l z.
Proof.
  intros e e' p l z HP. unfold pf_value. rewrite (raw_same e e') by auto.
  rewrite (linear_same e e'), (ln_same e e') by auto. reflexivity.
Qed.

(** ** Counts as functions of the absorbed set *)

Theorem count_plus_same : forall (V V' : Type) e e' ord ord' (h : hist V) (h' : hist V'),
  build_std e -> build_std e' -> same_platform e e' ->
  valid MAX_PLUS h -> valid MAX_PLUS h' -> narrow (usize_bits e) h -> narrow (usize_bits e') h' ->
  is_order ord -> is_order ord' ->
  hist_precision h = hist_precision h' -> same_set (hist_hashes h) (hist_hashes h') ->
  exists c, count_plus e ord h = Ret c /\ count_plus e' ord' h' = Ret c.
Proof.
  intros V V' e e' ord ord' h h' Hb Hb' HP Hv Hv' Hn Hn' Ho Ho' Ep Es.
  destruct (count_plus_ok V e ord h Hb Hv Hn Ho) as (_ & _ & c & _ & _ & Ec & _ & _ & Vc).
  destruct (count_plus_ok V' e' ord' h' Hb' Hv' Hn' Ho') as (_ & _ & c' & _ & _ & Ec' & _ & _ & Vc').
  exists c. split; [auto|]. rewrite Ec'. f_equal.
  pose proof (hist_prec V _ h Hv) as Hp. unfold MAX_PLUS in Hp.
  pose proof (narrow_prec _ _ _ Hn). pose proof (narrow_prec _ _ _ Hn').
  rewrite <- Ep in *.
  apply (value_unique e' (hist_precision h) (hist_hashes h')); [lia|auto|].
  apply (value_same e e'); auto. eapply value_ext; eauto.
Qed.

Theorem count_pf_same : forall (V V' : Type) e e' (h : hist V) (h' : hist V'),
  build e -> build e' -> same_platform e e' ->
  valid MAX_PF h -> valid MAX_PF h' -> narrow (usize_bits e) h -> narrow (usize_bits e') h' ->
  hist_precision h = hist_precision h' ->
  same_set (low32 (hist_hashes h)) (low32 (hist_hashes h')) ->
  exists c, count_pf e h = Ret c /\ count_pf e' h' = Ret c.
Proof.
  intros V V' e e' h h' Hb Hb' HP Hv Hv' Hn Hn' Ep Es.
  destruct (count_pf_ok V e h Hb Hv Hn) as (l & R & F & Ec).
  destruct (count_pf_ok V' e' h' Hb' Hv' Hn') as (l' & R' & F' & Ec').
  pose proof (hist_prec V _ h Hv) as Hp. unfold MAX_PF in Hp.
  rewrite <- Ep in *.
  assert (l' = l) as ->.
  { apply (is_register_file_unique 32 (hist_precision h) (low32 (hist_hashes h'))); [lia|auto|].
    eapply register_file_same; eauto. }
  destruct (pf_value_total e (hist_precision h) l (zero_count l)) as [c E].
  exists c. rewrite Ec, Ec', <- (pf_value_same e e') by auto. auto.
Qed.

(** ** Continuations *)

Lemma same_set_refl : forall l, same_set l l.
Proof. intros l x. tauto. Qed.

Lemma same_set_map : forall (g : N -> N) A B, same_set A B -> same_set (map g A) (map g B).
Proof.
  intros g A B H x. rewrite !in_map_iff.
  split; intros (y & E & Hy); exists y; (split; [auto|]); now apply H.
Qed.

Lemma plug_valid_hole : forall (V : Type) m (c : ctx V) h, valid m (plug c h) -> valid m h.
Proof. intros V m c h. induction c; cbn [plug valid]; intuition auto. Qed.

Lemma plug_narrow_hole : forall (V : Type) w (c : ctx V) h, narrow w (plug c h) -> narrow w h.
Proof. intros V w c h. induction c; cbn [plug narrow]; intuition auto. Qed.

(** Two sketches of equal precision, hash function and (through [g]) absorbed set stay so. *)
Lemma plug_equiv : forall (V : Type) m (g : N -> N) (c : ctx V) h h',
  hist_precision h = hist_precision h' ->
  (forall v, hash64 (hist_builder h) v = hash64 (hist_builder h') v) ->
  same_set (map g (hist_hashes h)) (map g (hist_hashes h')) ->
  valid m (plug c h) -> valid m (plug c h') ->
  hist_precision (plug c h) = hist_precision (plug c h') /\
  (forall v, hash64 (hist_builder (plug c h)) v = hash64 (hist_builder (plug c h')) v) /\
  same_set (map g (hist_hashes (plug c h))) (map g (hist_hashes (plug c h'))).
Proof.
  intros V m g c h h' Ep Eb Es.
  induction c as [|k ord c IH v|ord c IH other|ord h0 c IH|ord c1 IH1 c2 IH2|ord c IH|ord ser_b de_b c IH];
    cbn [plug valid hist_precision hist_builder hist_hashes]; intros Hv Hv'.
  - auto.
  - destruct (IH (proj2 Hv) (proj2 Hv')) as (A & B & C). split; [auto|split; [auto|]].
    intros x. cbn [map In]. rewrite (C x), (B v). tauto.
  - destruct Hv as (_ & Hv & Ho), Hv' as (_ & Hv' & Ho').
    destruct (IH Hv Hv') as (A & B & C). split; [auto|split; [auto|]]. rewrite A.
    destruct (_ =? _); auto. intros x. rewrite !map_app, !in_app_iff, (C x). tauto.
  - destruct Hv as (_ & Ho & Hv), Hv' as (_ & Ho' & Hv').
    destruct (IH Hv Hv') as (A & B & C). split; [auto|split; [auto|]]. rewrite A.
    destruct (_ =? _); [|apply same_set_refl]. intros x. rewrite !map_app, !in_app_iff, (C x). tauto.
  - destruct Hv as (_ & Hv1 & Hv2), Hv' as (_ & Hv1' & Hv2').
    destruct (IH1 Hv1 Hv1') as (A1 & B1 & C1). destruct (IH2 Hv2 Hv2') as (A2 & B2 & C2).
    split; [auto|split; [auto|]]. rewrite A1, A2.
    destruct (_ =? _); auto. intros x. rewrite !map_app, !in_app_iff, (C1 x), (C2 x). tauto.
  - apply IH; tauto.
  - destruct Hv as (_ & Hv & b & Eb1 & Hb1), Hv' as (_ & Hv' & b' & Eb2 & Hb2).
    destruct (IH Hv Hv') as (A & B & C). split; [auto|split; [|auto]].
    rewrite Eb1, Eb2. intros v. rewrite Hb1, Hb2. auto.
Qed.

(** With the same builder nothing needs to be assumed of the second program. *)
Lemma plug_valid : forall (V : Type) m (c : ctx V) h h',
  hist_builder h = hist_builder h' -> valid m h' -> valid m (plug c h) -> 
  valid m (plug c h') /\ hist_builder (plug c h) = hist_builder (plug c h').
Proof.
  intros V m c h h' Eb Hh.
  induction c as [|k ord c IH v|ord c IH other|ord h0 c IH|ord c1 IH1 c2 IH2|ord c IH|ord ser_b de_b c IH];
    cbn [plug valid hist_builder]; intros Hv; try (intuition; fail).
  destruct Hv as (Ho & Hv & b & Eb1 & Hb1). destruct (IH Hv) as [A B].
  rewrite <- B. split; [|reflexivity]. split; [auto|split; [auto|]]. exists b. auto.
Qed.

Lemma plug_narrow : forall (V : Type) w (c : ctx V) h h',
  narrow w h' -> narrow w (plug c h) -> narrow w (plug c h').
Proof. intros V w c h h' Hh. induction c; cbn [plug narrow]; intuition. Qed.

Lemma valid_narrow : forall (V : Type) m w (h : hist V), valid m h -> 2 * m < w -> narrow w h.
Proof.
  intros V m w h Hv Hw. induction h; cbn [valid narrow] in *; intuition; lia.
Qed.

Lemma map_id_set : forall A B, same_set A B <-> same_set (map (fun x => x) A) (map (fun x => x) B).
Proof. intros A B. now rewrite !map_id. Qed.

Theorem plus_observe : forall (V : Type) e e' ord ord' (c : ctx V) h h',
  build_std e -> build_std e' -> same_platform e e' ->
  hist_precision h = hist_precision h' ->
  (forall v, hash64 (hist_builder h) v = hash64 (hist_builder h') v) ->
  same_set (hist_hashes h) (hist_hashes h') ->
  valid MAX_PLUS (plug c h) -> valid MAX_PLUS (plug c h') ->
  narrow (usize_bits e) (plug c h) -> narrow (usize_bits e') (plug c h') ->
  is_order ord -> is_order ord' ->
  exists x, count_plus e ord (plug c h) = Ret x /\ count_plus e' ord' (plug c h') = Ret x.
Proof.
  intros V e e' ord ord' c h h' Hb Hb' HP Ep Eb Es Hv Hv' Hn Hn' Ho Ho'.
  rewrite map_id_set in Es.
  destruct (plug_equiv V MAX_PLUS _ c h h' Ep Eb Es Hv Hv') as (A & _ & C).
  rewrite <- map_id_set in C. now apply count_plus_same.
Qed.

Theorem pf_observe : forall (V : Type) e e' (c : ctx V) h h',
  build e -> build e' -> same_platform e e' ->
  hist_precision h = hist_precision h' ->
  (forall v, hash64 (hist_builder h) v = hash64 (hist_builder h') v) ->
  same_set (low32 (hist_hashes h)) (low32 (hist_hashes h')) ->
  valid MAX_PF (plug c h) -> valid MAX_PF (plug c h') ->
  narrow (usize_bits e) (plug c h) -> narrow (usize_bits e') (plug c h') ->
  exists x, count_pf e (plug c h) = Ret x /\ count_pf e' (plug c h') = Ret x.
Proof.
  intros V e e' c h h' Hb Hb' HP Ep Eb Es Hv Hv' Hn Hn'.
  destruct (plug_equiv V MAX_PF _ c h h' Ep Eb Es Hv Hv') as (A & _ & C).
  now apply count_pf_same.
Qed.

Lemma same_platform_refl : forall e, same_platform e e.
Proof. intros e. split; [auto|split; [auto|split; auto]]. Qed.

(** Removing counts or round trips. *)
Lemma without_counts_same : forall (V : Type) m w (h : hist V), valid m h ->
  valid m (without_counts h) /\ (narrow w h -> narrow w (without_counts h)) /\
  hist_precision (without_counts h) = hist_precision h /\
  hist_builder (without_counts h) = hist_builder h /\
  hist_hashes (without_counts h) = hist_hashes h.
Proof.
  intros V m w h.
  induction h as [p b|k ord h IH v|ord h1 IH1 h2 IH2|ord h IH|ord ser_b de_b h IH];
    cbn [without_counts valid narrow hist_precision hist_builder hist_hashes]; intros Hv.
  - auto 10.
  - destruct (IH (proj2 Hv)) as (A & B & C & D & E). rewrite C, D, E. intuition auto.
  - destruct Hv as (Ho & Hv1 & Hv2). destruct (IH1 Hv1) as (A & B & C & D & E).
    destruct (IH2 Hv2) as (A2 & B2 & C2 & D2 & E2). rewrite C, D, E, C2, E2. intuition auto.
  - apply IH. tauto.
  - destruct Hv as (Ho & Hv & b & Eb & Hb). destruct (IH Hv) as (A & B & C & D & E).
    rewrite C, D, E. split; [|auto]. split; [auto|split; [auto|]]. exists b. auto.
Qed.

Lemma without_serde_same : forall (V : Type) m w (h : hist V), valid m h ->
  valid m (without_serde h) /\ (narrow w h -> narrow w (without_serde h)) /\
  hist_precision (without_serde h) = hist_precision h /\
  (forall v, hash64 (hist_builder (without_serde h)) v = hash64 (hist_builder h) v) /\
  hist_hashes (without_serde h) = hist_hashes h.
Proof.
  intros V m w h.
  induction h as [p b|k ord h IH v|ord h1 IH1 h2 IH2|ord h IH|ord ser_b de_b h IH];
    cbn [without_serde valid narrow hist_precision hist_builder hist_hashes]; intros Hv.
  - auto 10.
  - destruct (IH (proj2 Hv)) as (A & B & C & D & E). rewrite C, D, E. intuition auto.
  - destruct Hv as (Ho & Hv1 & Hv2). destruct (IH1 Hv1) as (A & B & C & D & E).
    destruct (IH2 Hv2) as (A2 & B2 & C2 & D2 & E2). rewrite C, E, C2, E2. intuition auto.
  - destruct (IH (proj2 Hv)) as (A & B & C & D & E). rewrite C, E. intuition auto.
  - destruct Hv as (Ho & Hv & b & Eb & Hb). destruct (IH Hv) as (A & B & C & D & E).
    rewrite C, E, Eb. split; [auto|split; [auto|split; [auto|split; [|auto]]]].
    intros v. rewrite D. symmetry. apply Hb.
Qed.
