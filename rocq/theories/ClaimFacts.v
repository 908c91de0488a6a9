(** * The properties on states, derived from the invariants *)
From Coq Require Import NArith ZArith Reals Lra List Bool Lia Permutation Sorted.
From Flocq Require Import Core BinarySingleNaN.
From Verif Require Import ModelRust ModelF64 ModelEnv ModelLog ModelRegisters ModelEncoding
  ModelCommon ModelPF ModelPlus ModelSerde ModelHistory Spec SpecReal SpecBuild BitFacts RegFacts
  EncFacts CodeFacts MergeFacts AbsorbFacts F64Facts RawFacts BiasFacts LogFacts SerdeFacts PFInv
  PlusInv ObsFacts.
Import ListNotations.
Local Open Scope N_scope.

(** ** new *)
Lemma plus_new_cases : forall (V : Type) e p (b : V -> N), build e ->
  (4 <= p <= 18 /\ exists s, hp_new e p b = Ret (ROk s) /\ hp_precision s = p /\ hp_builder s = b) \/
  (~ 4 <= p <= 18 /\ hp_new e p b = Ret (RErr InvalidPrecision)).
Proof.
  intros V e p b Hb. assert (4 <= p <= 18 \/ ~ 4 <= p <= 18) as [H|H] by lia.
  - left. split; auto. destruct (hp_new_ok V e p b (proj1 Hb) H) as (s & E & ((A & B & _) & _) & _).
    exists s. auto.
  - right. split; auto. unfold hp_new, MIN_PRECISION, MAX_PRECISION.
    destruct (N.ltb_spec p 4), (N.ltb_spec 18 p); try reflexivity. lia.
Qed.

Lemma pf_new_cases : forall (V : Type) e p (b : V -> N), build e ->
  (4 <= p <= 16 /\ exists s, pf_new e p b = Ret (ROk s) /\ pf_precision s = p /\ pf_builder s = b) \/
  (~ 4 <= p <= 16 /\ pf_new e p b = Ret (RErr InvalidPrecision)).
Proof.
  intros V e p b Hb. assert (4 <= p <= 16 \/ ~ 4 <= p <= 16) as [H|H] by lia.
  - left. split; auto. destruct (pf_new_ok V e p b (proj1 Hb) H) as (s & E & (A & B & _)).
    exists s. auto.
  - right. split; auto. unfold pf_new, PF_MIN_PRECISION, PF_MAX_PRECISION.
    destruct (N.ltb_spec p 4), (N.ltb_spec 16 p); try reflexivity. lia.
Qed.


(** ** No panic *)
Lemma plus_no_panic : forall (V : Type) e ord (h : hist V), build_std e -> valid MAX_PLUS h ->
  narrow (usize_bits e) h -> is_order ord ->
  exists s s' c, run_plus e h = Ret s /\ hp_count e ord s = Ret (s', c).
Proof.
  intros V e ord h Hb Hv Hn Ho.
  destruct (count_plus_ok V e ord h Hb Hv Hn Ho) as (s & s' & c & E & E' & _). eauto.
Qed.

Lemma pf_no_panic : forall (V : Type) e (h : hist V), build e -> valid MAX_PF h ->
  narrow (usize_bits e) h ->
  exists s c, run_pf e h = Ret s /\ pf_count_est e s = Ret c.
Proof.
  intros V e h Hb Hv Hn. destruct (run_pf_ok V e h Hb Hv Hn) as (s & E & Hs).
  destruct (count_pf_ok V e h Hb Hv Hn) as (l & _ & _ & Ec).
  destruct (pf_value_total e (hist_precision h) l (zero_count l)) as [c Ev].
  exists s, c. split; auto. unfold count_pf in Ec. rewrite E, bind_ret in Ec. now rewrite Ec.
Qed.

(** ** Re-insertion, merge, count, serialization: contexts *)
Lemma plus_reinsert : forall (V : Type) e ord ord' (c : ctx V) h k o v,
  build_std e -> valid MAX_PLUS (plug c h) -> narrow (usize_bits e) (plug c h) ->
  is_order ord -> is_order ord' -> is_order o ->
  In (hash64 (hist_builder h) v) (hist_hashes h) ->
  exists x, count_plus e ord (plug c (HInsert k o h v)) = Ret x /\
            count_plus e ord' (plug c h) = Ret x.
Proof.
  intros V e ord ord' c h k o v Hb Hv Hn Ho Ho' Hoo Hin.
  pose proof (plug_valid_hole _ _ _ _ Hv) as Hh. pose proof (plug_narrow_hole _ _ _ _ Hn) as Hnh.
  apply plus_observe; auto using same_platform_refl.
  - intros x. cbn [hist_hashes In]. intuition congruence.
  - apply (plug_valid V MAX_PLUS c h); auto. split; auto.
  - eapply plug_narrow; [|exact Hn]. exact Hnh.
Qed.

Lemma pf_reinsert : forall (V : Type) e (c : ctx V) h k o v,
  build e -> valid MAX_PF (plug c h) -> narrow (usize_bits e) (plug c h) -> is_order o ->
  In (hash64 (hist_builder h) v mod 2 ^ 32) (map (fun x => x mod 2 ^ 32) (hist_hashes h)) ->
  exists x, count_pf e (plug c (HInsert k o h v)) = Ret x /\ count_pf e (plug c h) = Ret x.
Proof.
  intros V e c h k o v Hb Hv Hn Hoo Hin.
  pose proof (plug_valid_hole _ _ _ _ Hv) as Hh. pose proof (plug_narrow_hole _ _ _ _ Hn) as Hnh.
  apply pf_observe; auto using same_platform_refl.
  - intros x. unfold low32. cbn [hist_hashes map In]. intuition congruence.
  - apply (plug_valid V MAX_PF c h); auto. split; auto.
  - eapply plug_narrow; [|exact Hn]. exact Hnh.
Qed.

Lemma plus_merge_union : forall (V : Type) e ord ord' o (c : ctx V) a b w,
  build_std e -> is_order ord -> is_order ord' ->
  hist_precision a = hist_precision b -> hist_precision w = hist_precision a ->
  (forall v, hash64 (hist_builder w) v = hash64 (hist_builder a) v) ->
  same_set (hist_hashes w) (hist_hashes a ++ hist_hashes b) ->
  valid MAX_PLUS (plug c (HMerge o a b)) -> valid MAX_PLUS (plug c w) ->
  narrow (usize_bits e) (plug c (HMerge o a b)) -> narrow (usize_bits e) (plug c w) ->
  (exists sa sb s, run_plus e a = Ret sa /\ run_plus e b = Ret sb /\
     hp_merge e o sa sb = Ret (s, ROk tt)) /\
  exists x, count_plus e ord (plug c (HMerge o a b)) = Ret x /\
            count_plus e ord' (plug c w) = Ret x.
Proof.
  intros V e ord ord' o c a b w Hb Ho Ho' Eab Ew Ebw Es Hv Hv' Hn Hn'. split.
  - pose proof (plug_valid_hole _ _ _ _ Hv) as (Hoo & Ha & Hbv).
    pose proof (plug_narrow_hole _ _ _ _ Hn) as (Hna & Hnb).
    destruct (run_plus_ok V e a Hb Ha Hna) as (sa & E1 & H1).
    destruct (run_plus_ok V e b Hb Hbv Hnb) as (sb & E2 & H2). rewrite <- Eab in H2.
    pose proof (hist_prec _ _ _ Ha) as Hp. unfold MAX_PLUS in Hp.
    destruct (hp_merge_ok V V e o _ _ _ _ _ sa sb (proj1 (proj1 Hb)) Hp Hoo H1 H2) as (s & E & _).
    eauto 10.
  - apply plus_observe; auto using same_platform_refl.
    intros x. cbn [hist_hashes]. rewrite Eab, N.eqb_refl, (Es x), !in_app_iff. tauto.
Qed.

Lemma pf_merge_union : forall (V : Type) e o (c : ctx V) a b w,
  build e ->
  hist_precision a = hist_precision b -> hist_precision w = hist_precision a ->
  (forall v, hash64 (hist_builder w) v = hash64 (hist_builder a) v) ->
  same_set (hist_hashes w) (hist_hashes a ++ hist_hashes b) ->
  valid MAX_PF (plug c (HMerge o a b)) -> valid MAX_PF (plug c w) ->
  narrow (usize_bits e) (plug c (HMerge o a b)) -> narrow (usize_bits e) (plug c w) ->
  (exists sa sb s, run_pf e a = Ret sa /\ run_pf e b = Ret sb /\
     pf_merge e sa sb = Ret (s, ROk tt)) /\
  exists x, count_pf e (plug c (HMerge o a b)) = Ret x /\ count_pf e (plug c w) = Ret x.
Proof.
  intros V e o c a b w Hb Eab Ew Ebw Es Hv Hv' Hn Hn'. split.
  - pose proof (plug_valid_hole _ _ _ _ Hv) as (Hoo & Ha & Hbv).
    pose proof (plug_narrow_hole _ _ _ _ Hn) as (Hna & Hnb).
    destruct (run_pf_ok V e a Hb Ha Hna) as (sa & E1 & H1).
    destruct (run_pf_ok V e b Hb Hbv Hnb) as (sb & E2 & H2). rewrite <- Eab in H2.
    pose proof (hist_prec _ _ _ Ha) as Hp. unfold MAX_PF in Hp.
    destruct (pf_merge_ok V V e _ _ _ _ _ sa sb Hp H1 H2) as (s & E & _). eauto 10.
  - apply pf_observe; auto using same_platform_refl. unfold low32. apply same_set_map.
    intros x. cbn [hist_hashes]. rewrite Eab, N.eqb_refl, (Es x), !in_app_iff. tauto.
Qed.

(** Algebra of merge. *)
Lemma plus_merge_laws : forall (V : Type) e ord ord' o o2 o3 o4 (a b c : hist V),
  build_std e -> valid MAX_PLUS a -> valid MAX_PLUS b -> valid MAX_PLUS c ->
  hist_precision b = hist_precision a -> hist_precision c = hist_precision a ->
  narrow (usize_bits e) a ->
  narrow (usize_bits e) b -> narrow (usize_bits e) c ->
  is_order ord -> is_order ord' -> is_order o -> is_order o2 -> is_order o3 -> is_order o4 ->
  (exists x, count_plus e ord (HMerge o a b) = Ret x /\ count_plus e ord' (HMerge o2 b a) = Ret x) /\
  (exists x, count_plus e ord (HMerge o a (HMerge o2 b c)) = Ret x /\
             count_plus e ord' (HMerge o3 (HMerge o4 a b) c) = Ret x) /\
  (exists x, count_plus e ord (HMerge o (HMerge o2 a b) b) = Ret x /\
             count_plus e ord' (HMerge o3 a b) = Ret x) /\
  (exists x, count_plus e ord (HMerge o a a) = Ret x /\ count_plus e ord' a = Ret x) /\
  (hist_hashes b = [] ->
   exists x, count_plus e ord (HMerge o a b) = Ret x /\ count_plus e ord' a = Ret x).
Proof.
  intros V e ord ord' o o2 o3 o4 a b c Hb Va Vb Vc Eb Ec Na Nb Nc O1 O2 O3 O4 O5 O6.
  repeat match goal with |- _ /\ _ => split end; try intros HE;
    (apply count_plus_same; auto using same_platform_refl; cbn [valid narrow hist_precision]; auto;
     intros x; cbn [hist_hashes hist_precision]; rewrite ?Eb, ?Ec, ?N.eqb_refl;
     try rewrite HE; rewrite ?in_app_iff; cbn [In]; tauto).
Qed.

Lemma pf_merge_laws : forall (V : Type) e o o2 o3 o4 (a b c : hist V),
  build e -> valid MAX_PF a -> valid MAX_PF b -> valid MAX_PF c ->
  hist_precision b = hist_precision a -> hist_precision c = hist_precision a ->
  narrow (usize_bits e) a -> narrow (usize_bits e) b -> narrow (usize_bits e) c ->
  is_order o -> is_order o2 -> is_order o3 -> is_order o4 ->
  (exists x, count_pf e (HMerge o a b) = Ret x /\ count_pf e (HMerge o2 b a) = Ret x) /\
  (exists x, count_pf e (HMerge o a (HMerge o2 b c)) = Ret x /\
             count_pf e (HMerge o3 (HMerge o4 a b) c) = Ret x) /\
  (exists x, count_pf e (HMerge o (HMerge o2 a b) b) = Ret x /\
             count_pf e (HMerge o3 a b) = Ret x) /\
  (exists x, count_pf e (HMerge o a a) = Ret x /\ count_pf e a = Ret x) /\
  (hist_hashes b = [] ->
   exists x, count_pf e (HMerge o a b) = Ret x /\ count_pf e a = Ret x).
Proof.
  intros V e o o2 o3 o4 a b c Hb Va Vb Vc Eb Ec Na Nb Nc O3 O4 O5 O6.
  repeat match goal with |- _ /\ _ => split end; try intros HE;
    (apply count_pf_same; auto using same_platform_refl; cbn [valid narrow hist_precision]; auto;
     unfold low32; apply same_set_map;
     intros x; cbn [hist_hashes hist_precision]; rewrite ?Eb, ?Ec, ?N.eqb_refl;
     try rewrite HE; rewrite ?in_app_iff; cbn [In]; tauto).
Qed.

Lemma plus_count_pure : forall (V : Type) e ord ord' o (c : ctx V) h,
  build_std e -> valid MAX_PLUS (plug c h) -> narrow (usize_bits e) (plug c h) ->
  is_order ord -> is_order ord' -> is_order o ->
  exists x, count_plus e ord (plug c (HCount o h)) = Ret x /\ count_plus e ord' (plug c h) = Ret x.
Proof.
  intros V e ord ord' o c h Hb Hv Hn Ho Ho' Hoo.
  pose proof (plug_valid_hole _ _ _ _ Hv) as Hh. pose proof (plug_narrow_hole _ _ _ _ Hn) as Hnh.
  apply plus_observe; auto using same_platform_refl.
  - intros x. tauto.
  - apply (plug_valid V MAX_PLUS c h); auto. split; auto.
  - eapply plug_narrow; [|exact Hn]. exact Hnh.
Qed.

Lemma plus_without_counts : forall (V : Type) e ord ord' (h : hist V),
  build_std e -> valid MAX_PLUS h -> narrow (usize_bits e) h -> is_order ord -> is_order ord' ->
  exists x, count_plus e ord h = Ret x /\ count_plus e ord' (without_counts h) = Ret x.
Proof.
  intros V e ord ord' h Hb Hv Hn Ho Ho'.
  destruct (without_counts_same V MAX_PLUS (usize_bits e) h Hv) as (A & B & C & D & E).
  apply count_plus_same; auto using same_platform_refl. rewrite E. apply same_set_refl.
Qed.

Lemma pf_without_counts : forall (V : Type) e (h : hist V),
  build e -> valid MAX_PF h -> narrow (usize_bits e) h ->
  exists x, count_pf e h = Ret x /\ count_pf e (without_counts h) = Ret x.
Proof.
  intros V e h Hb Hv Hn.
  destruct (without_counts_same V MAX_PF (usize_bits e) h Hv) as (A & B & C & D & E).
  apply count_pf_same; auto using same_platform_refl. rewrite E. apply same_set_refl.
Qed.

Lemma plus_count_twice : forall (V : Type) e ord ord' (h : hist V),
  build_std e -> valid MAX_PLUS h -> narrow (usize_bits e) h -> is_order ord -> is_order ord' ->
  exists s s' x, run_plus e h = Ret s /\ hp_count e ord s = Ret (s', x) /\
                 hp_count e ord' s' = Ret (s', x).
Proof.
  intros V e ord ord' h Hb Hv Hn Ho Ho'.
  destruct (count_plus_ok V e ord h Hb Hv Hn Ho) as (s & s' & c & E & E' & _ & Hd & Hf & Hvl).
  destruct (run_plus_ok V e h Hb Hv Hn) as (s0 & E0 & Hs). rewrite E in E0. inv E0.
  pose proof (hist_prec _ _ _ Hv) as Hp. unfold MAX_PLUS in Hp.
  assert (Hs' : plus_ok (hist_precision h) (hist_builder h) (hist_hashes h) s').
  { split; [auto|split; [apply Hs|]]. apply flushed_body; auto. lia. }
  destruct (hp_count_ok V e ord' _ _ _ s' Hb Hp (or_introl (narrow_prec _ _ _ Hn)) Ho' Hs')
    as (s2 & c2 & E2 & Hd2 & Hf2 & Hvl2).
  exists s0, s', c. split; [auto|split; [auto|]]. rewrite E2.
  rewrite (flushed_unique V _ _ _ s2 s' (proj2 Hp) Hd2 Hd Hf2 Hf).
  rewrite (value_unique e _ _ c2 c (proj2 Hp) Hvl2 Hvl). reflexivity.
Qed.

Lemma plus_serde_round : forall (V : Type) e ord ord' o ser_b de_b (c : ctx V) h,
  build_std e -> is_order ord -> is_order ord' ->
  valid MAX_PLUS (plug c (HSerde o ser_b de_b h)) -> valid MAX_PLUS (plug c h) ->
  narrow (usize_bits e) (plug c h) ->
  (exists s s', run_plus e h = Ret s /\ de_plus e de_b (ser_plus o ser_b s) = Some s') /\
  exists x, count_plus e ord (plug c (HSerde o ser_b de_b h)) = Ret x /\
            count_plus e ord' (plug c h) = Ret x.
Proof.
  intros V e ord ord' o ser_b de_b c h Hb Ho Ho' Hv Hv' Hn.
  pose proof (plug_valid_hole _ _ _ _ Hv) as (Hoo & Hh & b & Eb & Hbb).
  pose proof (plug_narrow_hole _ _ _ _ Hn) as Hnh. split.
  - destruct (run_plus_ok V e h Hb Hh Hnh) as (s & E & Hs).
    pose proof (hist_prec _ _ _ Hh) as Hp. unfold MAX_PLUS in Hp.
    destruct (plus_serde_ok V e o _ _ _ s ser_b de_b b (proj1 (proj1 Hb)) Hp Hoo Hs Eb)
      as (s' & E' & _). eauto.
  - apply plus_observe; auto using same_platform_refl.
    + cbn [hist_builder]. rewrite Eb. exact Hbb.
    + intros x. tauto.
    + eapply plug_narrow; [|exact Hn]. exact Hnh.
Qed.

Lemma pf_serde_round : forall (V : Type) e o ser_b de_b (c : ctx V) h,
  build e ->
  valid MAX_PF (plug c (HSerde o ser_b de_b h)) -> valid MAX_PF (plug c h) ->
  narrow (usize_bits e) (plug c h) ->
  (exists s s', run_pf e h = Ret s /\ de_pf e de_b (ser_pf ser_b s) = Some s' /\
     pf_precision s' = pf_precision s /\ pf_count s' = pf_count s /\
     pf_registers s' = pf_registers s) /\
  exists x, count_pf e (plug c (HSerde o ser_b de_b h)) = Ret x /\
            count_pf e (plug c h) = Ret x.
Proof.
  intros V e o ser_b de_b c h Hb Hv Hv' Hn.
  pose proof (plug_valid_hole _ _ _ _ Hv) as (Hoo & Hh & b & Eb & Hbb).
  pose proof (plug_narrow_hole _ _ _ _ Hn) as Hnh. split.
  - destruct (run_pf_ok V e h Hb Hh Hnh) as (s & E & Hs).
    pose proof (hist_prec _ _ _ Hh) as Hp. unfold MAX_PF in Hp.
    destruct (pf_serde_ok V e _ _ _ s ser_b de_b b (proj1 Hb) Hp Hs Eb) as (s' & E' & Hs').
    exists s, s'. split; [auto|split; [auto|]].
    pose proof Hs as (_ & A & B & C). pose proof Hs' as (_ & A' & B' & C').
    split; [congruence|split; [congruence|]]. eapply (holds_unique 5 32); eauto; [now left|lia].
  - apply pf_observe; auto using same_platform_refl.
    + cbn [hist_builder]. rewrite Eb. exact Hbb.
    + intros x. tauto.
    + eapply plug_narrow; [|exact Hn]. exact Hnh.
Qed.

Lemma plus_without_serde : forall (V : Type) e ord ord' (h : hist V),
  build_std e -> valid MAX_PLUS h -> narrow (usize_bits e) h -> is_order ord -> is_order ord' ->
  exists x, count_plus e ord h = Ret x /\ count_plus e ord' (without_serde h) = Ret x.
Proof.
  intros V e ord ord' h Hb Hv Hn Ho Ho'.
  destruct (without_serde_same V MAX_PLUS (usize_bits e) h Hv) as (A & B & C & D & E).
  apply count_plus_same; auto using same_platform_refl. rewrite E. apply same_set_refl.
Qed.

(** ** What operations preserve, in every state *)
Definition kept {V : Type} (s s' : plus V) : Prop :=
  hp_precision s' = hp_precision s /\ hp_builder s' = hp_builder s /\
  (is_sparse s = false -> is_sparse s' = false).

Lemma kept_refl : forall (V : Type) (s : plus V), kept s s.
Proof. intros. split; [auto|split; auto]. Qed.
Lemma kept_trans : forall (V : Type) (a b c : plus V), kept a b -> kept b c -> kept a c.
Proof. intros V a b c (A & B & C) (D & E & F). split; [congruence|split; [congruence|auto]]. Qed.

Lemma sparse_to_normal_kept : forall (V : Type) e (s s' : plus V),
  sparse_to_normal e s = Ret s' -> kept s s' /\ is_sparse s' = false.
Proof.
  intros V e s s' H. unfold sparse_to_normal in H.
  apply bind_inv in H. destruct H as (r0 & _ & H). apply bind_inv in H. destruct H as (r & _ & H).
  inv H. split; [|reflexivity]. split; [reflexivity|split; [reflexivity|auto]].
Qed.

Lemma merge_sparse_kept : forall (V : Type) e ord (s s' : plus V),
  merge_sparse e ord s = Ret s' -> kept s s'.
Proof.
  intros V e ord s s' H. rewrite merge_sparse_codes in H.
  apply bind_inv in H. destruct H as (b & _ & H). cbv zeta in H.
  assert (K : kept s (set_tmpset (set_sparse s b) [])) by (split; [auto|split; auto]).
  destruct (_ <? _) in H.
  - apply sparse_to_normal_kept in H. eapply kept_trans; [exact K|apply H].
  - inv H. exact K.
Qed.

Lemma flush_kept : forall (V : Type) e ord (s s' : plus V),
  flush_if_full e ord s = Ret s' -> kept s s'.
Proof.
  intros V e ord s s' H. unfold flush_if_full in H. apply bind_inv in H. destruct H as (n & _ & H).
  destruct (_ <? _); [eapply merge_sparse_kept; eauto|inv H; apply kept_refl].
Qed.

Lemma insert_kept : forall (V : Type) e ord (s s' : plus V) h,
  hp_insert_hash e ord s h = Ret s' -> kept s s'.
Proof.
  intros V e ord s s' h H. unfold hp_insert_hash in H. cbv zeta in H.
  destruct (hp_registers s) as [r|] eqn:Er.
  - repeat (apply bind_inv in H; destruct H as (? & _ & H)). inv H.
    split; [auto|split; auto].
  - apply bind_inv in H. destruct H as (c & _ & H). apply flush_kept in H.
    eapply kept_trans; [|exact H]. split; [auto|split; auto].
Qed.

Lemma merge_kept : forall (V W : Type) e ord (s s' : plus V) (t : plus W) r,
  hp_merge e ord s t = Ret (s', r) ->
  kept s s' /\
  (r = RErr IncompatiblePrecision /\ hp_precision s <> hp_precision t /\ s' = s \/
   r = ROk tt /\ hp_precision s = hp_precision t).
Proof.
  intros V W e ord s s' t r H. unfold hp_merge in H.
  destruct (N.eqb_spec (hp_precision s) (hp_precision t)) as [E|E]; cbn [negb] in H.
  2:{ inv H. split; [apply kept_refl|auto]. }
  enough (kept s s' /\ r = ROk tt) by (split; [|right]; tauto).
  destruct (is_sparse t).
  - destruct (is_sparse s) eqn:Es.
    + repeat (apply bind_inv in H; destruct H as (? & ? & H)). inv H.
      split; [|auto]. match goal with X : flush_if_full _ _ _ = _ |- _ => apply flush_kept in X;
        eapply kept_trans; [|exact X] end. split; [auto|split; auto].
    + repeat (apply bind_inv in H; destruct H as (? & _ & H)). inv H. split; [|auto].
      split; [auto|split; auto].
  - apply bind_inv in H. destruct H as (s1 & E1 & H).
    assert (K : kept s s1).
    { destruct (is_sparse s).
      - apply bind_inv in E1. destruct E1 as (s2 & E2 & E1). apply merge_sparse_kept in E2.
        eapply kept_trans; [exact E2|].
        destruct (is_sparse s2); [apply sparse_to_normal_kept in E1; tauto|inv E1; apply kept_refl].
      - inv E1. apply kept_refl. }
    repeat (apply bind_inv in H; destruct H as (? & _ & H)). inv H. split; [|auto].
    eapply kept_trans; [exact K|]. split; [auto|split; auto].
Qed.

Lemma count_kept : forall (V : Type) e ord (s s' : plus V) c,
  hp_count e ord s = Ret (s', c) -> kept s s'.
Proof.
  intros V e ord s s' c H. unfold hp_count in H. apply bind_inv in H. destruct H as (s1 & E1 & H).
  assert (K : kept s s1).
  { destruct (is_sparse s); [eapply merge_sparse_kept; eauto|inv E1; apply kept_refl]. }
  destruct (hp_registers s1) as [r|].
  - destruct (negb _).
    + apply bind_inv in H. destruct H as (y & _ & H). apply bind_inv in H. destruct H as (t & _ & H).
      destruct (fle y t); [now inv H|]. apply bind_inv in H. destruct H as (? & _ & H). now inv H.
    + apply bind_inv in H. destruct H as (? & _ & H). now inv H.
  - repeat (apply bind_inv in H; destruct H as (? & _ & H)). now inv H.
Qed.

Lemma pf_merge_kept : forall (V W : Type) e (s s' : pf V) (t : pf W) r,
  pf_merge e s t = Ret (s', r) ->
  pf_precision s' = pf_precision s /\ pf_builder s' = pf_builder s /\ pf_count s' = pf_count s /\
  (r = RErr IncompatiblePrecision /\ pf_precision s <> pf_precision t /\ s' = s \/
   r = ROk tt /\ pf_precision s = pf_precision t).
Proof.
  intros V W e s s' t r H. unfold pf_merge in H.
  destruct (N.eqb_spec (pf_precision s) (pf_precision t)) as [E|E]; cbn [negb] in H.
  - apply bind_inv in H. destruct H as (? & _ & H). inv H. cbn. auto 10.
  - inv H. auto 10.
Qed.

Lemma pf_insert_kept : forall (V : Type) e (s s' : pf V) h,
  pf_insert_hash e s h = Ret s' ->
  pf_precision s' = pf_precision s /\ pf_builder s' = pf_builder s /\ pf_count s' = pf_count s.
Proof.
  intros V e s s' h H. unfold pf_insert_hash in H. cbv zeta in H.
  repeat (apply bind_inv in H; destruct H as (? & _ & H)). inv H. cbn. auto.
Qed.

(** ** Representation and memory *)
Lemma plus_sparse_iff : forall (V : Type) e ord (h : hist V) L,
  build_std e -> valid MAX_PLUS h -> narrow (usize_bits e) h -> is_order ord ->
  is_code_list (hist_precision h) (hist_hashes h) L ->
  exists s s' c, run_plus e h = Ret s /\ hp_count e ord s = Ret (s', c) /\
    (is_sparse s' = true <-> gap_len 0 L <= sparse_limit (hist_precision h)).
Proof.
  intros V e ord h L Hb Hv Hn Ho HL.
  destruct (count_plus_ok V e ord h Hb Hv Hn Ho) as (s & s' & c & E & E' & _ & Hd & (T & Hf) & _).
  exists s, s', c. split; [auto|split; [auto|]]. unfold is_sparse.
  destruct (hp_registers s') as [r|].
  - destruct Hf as (_ & _ & L' & HL' & HG). rewrite (code_list_unique _ _ _ _ HL HL').
    split; [discriminate|lia].
  - destruct Hf as (L' & HL' & _ & HG). rewrite (code_list_unique _ _ _ _ HL HL'). tauto.
Qed.

Lemma plus_memory : forall (V : Type) e (h : hist V),
  build_std e -> valid MAX_PLUS h -> narrow (usize_bits e) h ->
  exists s, run_plus e h = Ret s /\
    match hp_registers s with
    | None => N.of_nat (length (d_buf (hp_sparse s))) <= 4 * 2 ^ hist_precision h / 5 /\
              N.of_nat (length (hp_tmpset s)) <= 4 * 2 ^ hist_precision h / 500
    | Some r => N.of_nat (length (r_buf r)) = (2 ^ hist_precision h + 4) / 5 /\
                hp_tmpset s = [] /\ d_buf (hp_sparse s) = []
    end.
Proof.
  intros V e h Hb Hv Hn. destruct (run_plus_ok V e h Hb Hv Hn) as (s & E & Hd & _ & HB).
  exists s. split; [auto|]. unfold body_ok in HB. destruct (hp_registers s) as [r|].
  - destruct HB as (T & S & ((W & _) & C & _) & _). rewrite S.
    split; [|split; auto]. rewrite W, C. change (count_per_word 6) with 5. f_equal. lia.
  - destruct HB as ((L & _ & HD & _ & _ & HG) & HT). split.
    + rewrite <- (len_length _ (d_buf (hp_sparse s))).
      change (len (d_buf (hp_sparse s))) with (dif_len (hp_sparse s)).
      rewrite (dif_repr_len _ _ HD). exact HG.
    + rewrite <- len_length. change 500 with (5 * 100). rewrite <- N.div_div by discriminate.
      fold (sparse_limit (hist_precision h)). apply N.div_le_lower_bound; [discriminate|]. lia.
Qed.

(** ** Registers *)
Lemma pf_registers_max : forall (V : Type) e (h : hist V),
  build e -> valid MAX_PF h -> narrow (usize_bits e) h ->
  exists s, run_pf e h = Ret s /\
    (forall i, i < 2 ^ hist_precision h -> exists v, reg_get SIZE_PF (pf_registers s) i = Ret v /\
       is_register 32 (hist_precision h) (map (fun x => x mod 2 ^ 32) (hist_hashes h)) i v) /\
    is_register_file 32 (hist_precision h) (map (fun x => x mod 2 ^ 32) (hist_hashes h))
      (reg_iter SIZE_PF (pf_registers s)) /\
    reg_zeros (pf_registers s) = zero_count (reg_iter SIZE_PF (pf_registers s)).
Proof.
  intros V e h Hb Hv Hn. destruct (run_pf_ok V e h Hb Hv Hn) as (s & E & _ & _ & C & Hr).
  exists s. split; [auto|]. destruct Hr as (W & C' & Z & RF & _). split; [|split; [exact RF|exact Z]].
  intros i Hi. destruct (reg_get_spec 5 (pf_registers s) i (or_introl eq_refl) W ltac:(lia))
    as (v & E1 & E2 & _). exists v. split; [exact E1|]. now apply RF.
Qed.

Lemma plus_registers_max : forall (V : Type) e (h : hist V),
  build_std e -> valid MAX_PLUS h -> narrow (usize_bits e) h ->
  exists s, run_plus e h = Ret s /\
    forall r, hp_registers s = Some r ->
    (forall i, i < 2 ^ hist_precision h -> exists v, reg_get SIZE_PLUS r i = Ret v /\
       is_register 64 (hist_precision h) (hist_hashes h) i v) /\
    is_register_file 64 (hist_precision h) (hist_hashes h) (reg_iter SIZE_PLUS r) /\
    reg_zeros r = zero_count (reg_iter SIZE_PLUS r).
Proof.
  intros V e h Hb Hv Hn. destruct (run_plus_ok V e h Hb Hv Hn) as (s & E & _ & _ & HB).
  exists s. split; [auto|]. intros r Er. unfold body_ok in HB. rewrite Er in HB.
  destruct HB as (_ & _ & (W & C' & Z & RF & _) & _). split; [|split; [exact RF|exact Z]].
  intros i Hi. destruct (reg_get_spec 6 r i (or_intror eq_refl) W ltac:(lia)) as (v & E1 & E2 & _).
  exists v. split; [exact E1|]. now apply RF.
Qed.

Lemma packed_nth : forall sz buf j v, reg_size sz ->
  packed sz buf j v <-> nth_error (flat_map (word_registers sz) buf) (N.to_nat j) = Some v.
Proof.
  intros sz buf j v Hs. destruct (index_split sz j Hs) as [E L].
  assert (HF : forall w i, fld sz w i = (w / 2 ^ (sz * i)) mod 2 ^ sz).
  { intros w i. unfold fld. destruct (reg_size_facts sz Hs) as (_ & _ & _ & ->).
    rewrite land_mask, N.shiftr_div_pow2, (N.mul_comm i). reflexivity. }
  assert (HN : forall w, nth_error buf (N.to_nat (j / count_per_word sz)) = Some w ->
    nth_error (flat_map (word_registers sz) buf) (N.to_nat j)
    = Some (fld sz w (j mod count_per_word sz))).
  { intros w Hw. rewrite E, (flat_map_nth_c _ _ _ (cpw sz) (word_registers_length sz) _ _ _ _ Hw L).
    rewrite word_registers_nth by auto. now rewrite Nnat.N2Nat.id. }
  unfold packed. fold (count_per_word sz). split.
  - intros (w & Hw & ->). rewrite (HN w Hw), HF. reflexivity.
  - intros H. destruct (nth_error buf (N.to_nat (j / count_per_word sz))) as [w|] eqn:Ew.
    + exists w. split; auto. rewrite (HN w eq_refl), HF in H. congruence.
    + exfalso. apply nth_error_None in Ew.
      assert (N.to_nat j < length (flat_map (word_registers sz) buf))%nat
        by (apply nth_error_Some; congruence).
      rewrite (flat_map_length_c _ _ _ (cpw sz)) in H0 by apply word_registers_length.
      pose proof (cpw_pos sz Hs). rewrite E in H0. revert Ew H0 H1 L. clear.
      generalize (N.to_nat (j / count_per_word sz)) (cpw sz) (length buf)
        (N.to_nat (j mod count_per_word sz)). intros; nia.
Qed.

Lemma registers_independent : forall e sz buf count zeros i v, sz = 5 \/ sz = 6 ->
  N.of_nat (length buf) = (count + 32 / sz - 1) / (32 / sz) ->
  Forall (fun w => w < 2 ^ 32) buf -> i < count -> v < 2 ^ sz ->
  (packed sz buf i 0 -> 1 <= zeros) ->
  exists r', set_greater e sz (Registers buf count zeros) i v = Ret r' /\
    r_count r' = count /\ length (r_buf r') = length buf /\
    Forall (fun w => w < 2 ^ 32) (r_buf r') /\
    (forall j old, packed sz buf j old ->
       packed sz (r_buf r') j (if j =? i then N.max old v else old)) /\
    (forall k w w', nth_error buf k = Some w -> nth_error (r_buf r') k = Some w' ->
       w' / 2 ^ 30 = w / 2 ^ 30) /\
    (forall old, packed sz buf i old ->
       r_zeros r' = if (old =? 0) && (0 <? v) then zeros - 1 else zeros).
Proof.
  intros e sz buf count zeros i v Hs Hl HF Hi Hv Hz.
  set (r := Registers buf count zeros).
  assert (W : wf_regs sz r) by (split; auto).
  destruct (reg_get_spec sz r i Hs W Hi) as (old & _ & Hold & _).
  assert (HP : packed sz buf i old).
  { apply packed_nth; auto. unfold reg_iter in Hold. rewrite firstn_nth_error in Hold; auto.
    cbn. lia. }
  destruct (set_greater_spec e sz r i v old Hs W Hi Hv Hold) as (r' & E & W' & C' & I & P & SP & Z).
  { intros ->. auto. }
  exists r'. split; [auto|split; [auto|]].
  assert (HL : length (r_buf r') = length buf).
  { apply Nnat.Nat2N.inj. rewrite (proj1 W'), C', Hl. reflexivity. }
  split; [auto|split; [apply W'|]].
  assert (FM : flat_map (word_registers sz) (r_buf r')
               = update_nat (flat_map (word_registers sz) buf) (N.to_nat i) (N.max old v)).
  { rewrite <- (firstn_skipn (N.to_nat count) (flat_map (word_registers sz) (r_buf r'))).
    unfold spare, reg_iter, update in SP, I. rewrite C' in SP, I. cbn [r r_count r_buf] in SP, I.
    rewrite SP, I. rewrite <- update_nat_app_l.
    - now rewrite firstn_skipn.
    - rewrite firstn_length. pose proof (wf_total sz r Hs W) as HT. cbn [r r_count r_buf] in HT.
      rewrite (flat_map_length_c _ _ _ (cpw sz)) by apply word_registers_length. lia. }
  split; [|split].
  - intros j o Hj. apply packed_nth; auto. apply packed_nth in Hj; auto. rewrite FM.
    destruct (N.eqb_spec j i) as [->|Hne].
    + apply packed_nth in HP; auto. rewrite HP in Hj. inv Hj.
      apply update_nat_same. apply nth_error_Some. congruence.
    + rewrite update_nat_other; auto. intros X. apply Nnat.N2Nat.inj in X. auto.
  - intros k w w' Hw Hw'. unfold padding in P.
    destruct (reg_size_facts sz Hs) as (_ & E30 & _). rewrite E30 in P.
    assert (Q : nth_error (map (fun w => w / 2 ^ 30) (r_buf r')) k
                = nth_error (map (fun w => w / 2 ^ 30) buf) k) by (f_equal; exact P).
    rewrite !nth_error_map, Hw, Hw' in Q. cbn [option_map] in Q. congruence.
  - intros o Ho. apply packed_nth in Ho, HP; auto. rewrite HP in Ho. inv Ho. exact Z.
Qed.

Lemma registers_iterate : forall sz buf count zeros, sz = 5 \/ sz = 6 ->
  N.of_nat (length buf) = (count + 32 / sz - 1) / (32 / sz) ->
  Forall (fun w => w < 2 ^ 32) buf ->
  N.of_nat (length (reg_iter sz (Registers buf count zeros))) = count /\
  forall i, i < count -> exists v, v < 2 ^ sz /\ packed sz buf i v /\
    reg_get sz (Registers buf count zeros) i = Ret v /\
    nth_error (reg_iter sz (Registers buf count zeros)) (N.to_nat i) = Some v.
Proof.
  intros sz buf count zeros Hs Hl HF. set (r := Registers buf count zeros).
  assert (W : wf_regs sz r) by (split; auto). split.
  - rewrite (reg_iter_length sz r Hs W). cbn. lia.
  - intros i Hi. destruct (reg_get_spec sz r i Hs W Hi) as (v & E1 & E2 & E3).
    exists v. split; [auto|split; [|auto]]. apply packed_nth; auto.
    unfold reg_iter in E2. rewrite firstn_nth_error in E2; auto. cbn. lia.
Qed.

(** ** Encodings *)
Lemma varint_roundtrip : forall e l, Forall (fun x => x < 2 ^ 32) l ->
  exists v, for_each l varint_push [] = Ret v /\ varint_collect e v = Ret l /\
    N.of_nat (length v) = fold_right (fun x s => varint_len x + s) 0 l.
Proof.
  intros e l H. exists (varint_bytes l). split; [apply (varint_pushes l [] H)|].
  split; [now apply varint_collect_ok|now apply varint_bytes_length].
Qed.

Lemma dif_pushes : forall e l L d, dif_repr d L -> Forall (fun x => x < 2 ^ 32) l ->
  StronglySorted N.le (L ++ l) ->
  exists d', for_each l (dif_push e) d = Ret d' /\ dif_repr d' (L ++ l).
Proof.
  intros e l. induction l as [|x l IH]; intros L d Hd HF HS; cbn [for_each].
  - exists d. rewrite app_nil_r. auto.
  - inversion HF; subst.
    destruct (dif_push_ok e d L x Hd) as (d1 & E1 & H1'); auto.
    { unfold last_of. destruct L as [|y L] using rev_ind; [cbn; lia|]. rewrite last_last.
      rewrite <- app_assoc in HS. clear - HS. induction L as [|z L IHL]; cbn [app] in HS.
      - apply StronglySorted_inv in HS. destruct HS as [_ HS]. inversion HS; auto.
      - apply StronglySorted_inv in HS. tauto. }
    rewrite E1, bind_ret. destruct (IH (L ++ [x]) d1 H1' H2) as (d2 & E2 & Hd2).
    { rewrite <- app_assoc. exact HS. }
    exists d2. rewrite <- app_assoc in Hd2. auto.
Qed.

Lemma fold_snoc : forall (l a : list N), fold_left (fun acc x => acc ++ [x]) l a = a ++ l.
Proof.
  induction l as [|x l IH]; intros a; cbn [fold_left].
  - now rewrite app_nil_r.
  - rewrite IH, <- app_assoc. reflexivity.
Qed.

Lemma dif_roundtrip : forall e l, Forall (fun x => x < 2 ^ 32) l -> StronglySorted N.le l ->
  exists d, for_each l (dif_push e) dif_new = Ret d /\
    dif_for e d (fun acc x => Ret (acc ++ [x])) [] = Ret l /\
    dif_count d = N.of_nat (length l) /\ dif_len d = gap_len 0 l.
Proof.
  intros e l HF HS. destruct (dif_pushes e l [] dif_new dif_repr_new HF HS) as (d & E & Hd).
  exists d. split; [auto|]. cbn [app] in Hd. split; [|split].
  - rewrite (dif_for_ok _ e d l) by auto. rewrite (for_each_ret _ _ (fun acc x => acc ++ [x])). f_equal.
    apply (fold_snoc l []).
  - apply Hd.
  - now apply dif_repr_len.
Qed.

Lemma dif_push_overflow : forall e d L x, dif_repr d L -> x < 2 ^ 32 -> overflow_checks e = true ->
  (dif_push e d x = Panic <-> x < last L 0).
Proof.
  intros e d L x Hd Hx Hc. split; intros H.
  - destruct (N.lt_ge_cases x (last L 0)) as [|Hge]; auto.
    destruct (dif_push_ok e d L x Hd Hge Hx) as (d' & E & _). congruence.
  - apply dif_push_panics; auto. destruct Hd as (_ & _ & _ & _ & ->). exact H.
Qed.

(** A difference vector read to the end. *)
Definition dif_reads (e : env) (d : difintvec) (l : list N) : Prop :=
  dif_for e d (fun acc x => Ret (acc ++ [x])) [] = Ret l.

Lemma dif_repr_reads : forall e d L, dif_repr d L -> dif_reads e d L.
Proof.
  intros e d L Hd. unfold dif_reads. rewrite (dif_for_ok _ e d L) by auto.
  rewrite (for_each_ret _ _ (fun acc x => acc ++ [x])). f_equal.
  apply (fold_snoc L []).
Qed.

Lemma strong_lt_le : forall l, StronglySorted N.lt l -> StronglySorted N.le l.
Proof.
  induction 1; constructor; auto. eapply Forall_impl; [|exact H0]. intros y Hy. cbv beta in Hy. lia.
Qed.

Lemma merge_sparse_union : forall (V : Type) e ord (s : plus V) d L U,
  is_order ord -> StronglySorted N.lt L -> Forall (fun x => x < 2 ^ 32) L ->
  for_each L (dif_push e) dif_new = Ret d -> hp_sparse s = d ->
  NoDup (hp_tmpset s) -> Forall (fun x => x < 2 ^ 32) (hp_tmpset s) ->
  StronglySorted N.lt U -> same_set U (hp_tmpset s ++ L) -> gap_len 0 U <= hp_counts2 s ->
  exists s', merge_sparse e ord s = Ret s' /\ hp_tmpset s' = [] /\
    hp_registers s' = hp_registers s /\
    for_each U (dif_push e) dif_new = Ret (hp_sparse s') /\
    dif_for e (hp_sparse s') (fun acc x => Ret (acc ++ [x])) [] = Ret U.
Proof.
  intros V e ord s d L U Ho HSL HFL Ed Es HN HT HSU HU HG.
  destruct (dif_pushes e L [] dif_new dif_repr_new HFL (strong_lt_le _ HSL)) as (d0 & E0 & Hd0).
  rewrite Ed in E0. inv E0. cbn [app] in Hd0.
  destruct (merge_codes_ok e ord (hp_tmpset s) (hp_sparse s) L Ho HN HT Hd0 HSL)
    as (d' & L' & E & Hd' & HS' & HC').
  assert (L' = U) as ->.
  { apply strong_ext; auto. intros x. rewrite (HC' x), (HU x). tauto. }
  rewrite merge_sparse_codes, E, bind_ret. cbv zeta.
  change (hp_counts2 (set_tmpset (set_sparse s d') [])) with (hp_counts2 s).
  change (hp_sparse (set_tmpset (set_sparse s d') [])) with d'.
  rewrite (dif_repr_len _ _ Hd'). rewrite (proj2 (N.ltb_ge _ _) HG).
  eexists. split; [reflexivity|]. split; [reflexivity|split; [reflexivity|split]].
  - cbn. destruct (dif_pushes e U [] dif_new dif_repr_new) as (d2 & E2 & Hd2).
    + apply Hd'.
    + apply strong_lt_le, HSU.
    + cbn [app] in Hd2. rewrite E2. f_equal. eapply dif_repr_unique; eauto.
  - cbn. now apply dif_repr_reads.
Qed.

Lemma sparse_code_roundtrip : forall e p h, build e -> 4 <= p <= 18 -> h < 2 ^ 64 ->
  exists c, encode_hash e p h = Ret c /\ c < 2 ^ 32 /\
    decode_hash e p c = Ret (rank 64 p h, bucket 64 p h).
Proof.
  intros e p h Hb Hp Hh. exists (sparse_code p h). split; [apply encode_hash_ok; lia|].
  split; [now apply sparse_code_lt|]. apply decode_encode; auto; try lia. apply Hb.
Qed.

(** ** Entry points and hash functions *)
Definition same_but_builder {V W : Type} (s : plus V) (t : plus W) : Prop :=
  hp_precision s = hp_precision t /\ hp_counts0 s = hp_counts0 t /\ hp_counts1 s = hp_counts1 t /\
  hp_counts2 s = hp_counts2 t /\ hp_tmpset s = hp_tmpset t /\ hp_sparse s = hp_sparse t /\
  hp_registers s = hp_registers t.

Definition rebuild {V W : Type} (b : W -> N) (s : plus V) : plus W :=
  Plus b (hp_precision s) (hp_counts0 s) (hp_counts1 s) (hp_counts2 s) (hp_tmpset s) (hp_sparse s)
    (hp_registers s).

Definition mmap {A B : Type} (f : A -> B) (m : M A) : M B :=
  match m with Ret a => Ret (f a) | Panic => Panic | OutOfFuel => OutOfFuel end.

Lemma bind_mmap : forall (A B C : Type) (m : M A) (k : A -> M B) (f : B -> C),
  mmap f (bind m k) = bind m (fun a => mmap f (k a)).
Proof. intros. now destruct m. Qed.

Lemma bind_ext : forall (A B : Type) (m : M A) (k k' : A -> M B), (forall a, k a = k' a) ->
  bind m k = bind m k'.
Proof. intros. destruct m; cbn; auto. Qed.

Lemma sparse_to_normal_rebuild : forall (V W : Type) e (b : W -> N) (s : plus V),
  sparse_to_normal e (rebuild b s) = mmap (rebuild b) (sparse_to_normal e s).
Proof.
  intros. unfold sparse_to_normal. rewrite bind_mmap. cbn [rebuild hp_counts0 hp_sparse hp_precision].
  apply bind_ext. intros r0. rewrite bind_mmap. apply bind_ext. intros r. reflexivity.
Qed.

Lemma merge_sparse_rebuild : forall (V W : Type) e ord (b : W -> N) (s : plus V),
  merge_sparse e ord (rebuild b s) = mmap (rebuild b) (merge_sparse e ord s).
Proof.
  intros. rewrite !merge_sparse_codes, bind_mmap. cbn [rebuild hp_tmpset hp_sparse].
  apply bind_ext. intros d. cbv zeta.
  change (set_tmpset (set_sparse (rebuild b s) d) []) with (rebuild b (set_tmpset (set_sparse s d) [])).
  change (hp_counts2 (rebuild b (set_tmpset (set_sparse s d) [])))
    with (hp_counts2 (set_tmpset (set_sparse s d) [])).
  change (hp_sparse (rebuild b (set_tmpset (set_sparse s d) [])))
    with (hp_sparse (set_tmpset (set_sparse s d) [])).
  destruct (_ <? _); [apply sparse_to_normal_rebuild|reflexivity].
Qed.

Lemma insert_rebuild : forall (V W : Type) e ord (b : W -> N) (s : plus V) h,
  hp_insert_hash e ord (rebuild b s) h = mmap (rebuild b) (hp_insert_hash e ord s h).
Proof.
  intros. unfold hp_insert_hash. cbv zeta. cbn [rebuild hp_precision hp_registers].
  destruct (hp_registers s) as [r|].
  - do 6 (rewrite bind_mmap; apply bind_ext; intro). rewrite bind_mmap. apply bind_ext.
    intros r'. reflexivity.
  - rewrite bind_mmap. apply bind_ext. intros c.
    change (set_tmpset (rebuild b s) (hset_insert (hp_tmpset (rebuild b s)) c))
      with (rebuild b (set_tmpset s (hset_insert (hp_tmpset s) c))).
    unfold flush_if_full. rewrite bind_mmap. cbn [rebuild hp_tmpset hp_counts2].
    apply bind_ext. intros n. destruct (_ <? _); [apply merge_sparse_rebuild|reflexivity].
Qed.

Lemma plus_hash_only : forall (V W : Type) e ord (s : plus V) (b : W -> N) v w,
  hash64 (hp_builder s) v = hash64 b w ->
  hp_insert e ord (rebuild b s) w = mmap (rebuild b) (hp_insert e ord s v) /\
  hp_add e ord s v = hp_insert e ord s v /\ hp_insert_any e ord s v = hp_insert e ord s v.
Proof.
  intros V W e ord s b v w E. split; [|split; reflexivity].
  unfold hp_insert, hp_insert_impl. cbn [rebuild hp_builder].
  change (cast 64 (b w)) with (hash64 b w). rewrite <- E. apply insert_rebuild.
Qed.

Definition pf_rebuild {V W : Type} (b : W -> N) (s : pf V) : pf W :=
  PF b (pf_count s) (pf_precision s) (pf_registers s).

Lemma pf_hash_only : forall (V W : Type) e (s : pf V) (b : W -> N) v w,
  hash64 (pf_builder s) v mod 2 ^ 32 = hash64 b w mod 2 ^ 32 ->
  pf_insert e (pf_rebuild b s) w = mmap (pf_rebuild b) (pf_insert e s v) /\
  pf_add e s v = pf_insert e s v /\ pf_insert_any e s v = pf_insert e s v.
Proof.
  intros V W e s b v w E. split; [|split; reflexivity].
  unfold pf_insert, pf_insert_impl. cbn [pf_rebuild pf_builder]. rewrite !hash64_low, <- E.
  unfold pf_insert_hash. cbv zeta. cbn [pf_rebuild pf_precision pf_registers].
  do 6 (rewrite bind_mmap; apply bind_ext; intro). rewrite bind_mmap. apply bind_ext.
  intros r'. reflexivity.
Qed.

(** ** Merging across types *)
Lemma plus_merge_types : forall (V W X : Type) e ord o o1 (a : hist V) (b : hist W) (w : hist X) v,
  build_std e -> valid MAX_PLUS a -> valid MAX_PLUS b -> valid MAX_PLUS w ->
  narrow (usize_bits e) a -> narrow (usize_bits e) b -> narrow (usize_bits e) w ->
  is_order ord -> is_order o -> is_order o1 ->
  hist_precision a = hist_precision b -> hist_precision w = hist_precision a ->
  same_set (hist_hashes w) (hash64 (hist_builder a) v :: hist_hashes a ++ hist_hashes b) ->
  exists sa sb s s1 s2 c, run_plus e a = Ret sa /\ run_plus e b = Ret sb /\
    hp_merge e o sa sb = Ret (s, ROk tt) /\ hp_insert e o1 s v = Ret s1 /\
    hp_count e ord s1 = Ret (s2, c) /\ count_plus e ord w = Ret c.
Proof.
  intros V W X e ord o o1 a b w v Hb Va Vb Vw Na Nb Nw O1 O2 O3 Eab Ew Es.
  pose proof (proj1 (proj1 Hb)) as He.
  destruct (run_plus_ok V e a Hb Va Na) as (sa & E1 & H1).
  destruct (run_plus_ok W e b Hb Vb Nb) as (sb & E2 & H2). rewrite <- Eab in H2.
  pose proof (hist_prec _ _ _ Va) as Hp. unfold MAX_PLUS in Hp.
  destruct (hp_merge_ok V W e o _ _ _ _ _ sa sb He Hp O2 H1 H2) as (s & E3 & H3).
  destruct (hp_insert_hash_ok V e o1 _ _ _ s (hash64 (hist_builder a) v) He Hp O3 (hash64_lt _ _ _) H3)
    as (s1 & E4 & H4).
  destruct (hp_count_ok V e ord _ _ _ s1 Hb Hp (or_introl (narrow_prec _ _ _ Na)) O1 H4)
    as (s2 & c & E5 & _ & _ & Vc).
  destruct (count_plus_ok X e ord w Hb Vw Nw O1) as (_ & _ & c' & _ & _ & Ec & _ & _ & Vc').
  exists sa, sb, s, s1, s2, c. split; [auto|split; [auto|split; [auto|split; [|split; [auto|]]]]].
  - unfold hp_insert, hp_insert_impl. destruct H3 as ((-> & _) & _). exact E4.
  - rewrite Ec. f_equal. rewrite Ew in Vc'. eapply value_unique; [|exact Vc'|].
    + lia.
    + eapply value_ext; [|exact Vc]. intros x. rewrite (Es x). cbn [In]. rewrite !in_app_iff. tauto.
Qed.

Lemma pf_merge_types : forall (V W X : Type) e (a : hist V) (b : hist W) (w : hist X) v,
  build e -> valid MAX_PF a -> valid MAX_PF b -> valid MAX_PF w ->
  narrow (usize_bits e) a -> narrow (usize_bits e) b -> narrow (usize_bits e) w ->
  hist_precision a = hist_precision b -> hist_precision w = hist_precision a ->
  same_set (hist_hashes w) (hash64 (hist_builder a) v :: hist_hashes a ++ hist_hashes b) ->
  exists sa sb s s1 c, run_pf e a = Ret sa /\ run_pf e b = Ret sb /\
    pf_merge e sa sb = Ret (s, ROk tt) /\ pf_insert e s v = Ret s1 /\
    pf_count_est e s1 = Ret c /\ count_pf e w = Ret c.
Proof.
  intros V W X e a b w v Hb Va Vb Vw Na Nb Nw Eab Ew Es.
  pose proof (proj1 Hb) as He.
  destruct (run_pf_ok V e a Hb Va Na) as (sa & E1 & H1).
  destruct (run_pf_ok W e b Hb Vb Nb) as (sb & E2 & H2). rewrite <- Eab in H2.
  pose proof (hist_prec _ _ _ Va) as Hp. unfold MAX_PF in Hp.
  destruct (pf_merge_ok V W e _ _ _ _ _ sa sb Hp H1 H2) as (s & E3 & H3).
  destruct (pf_insert_hash_ok V e _ _ _ s (hash64 (hist_builder a) v) He Hp H3) as (s1 & E4 & H4).
  destruct (count_pf_ok X e w Hb Vw Nw) as (l & R & F & Ec).
  pose proof H4 as (_ & _ & _ & (_ & _ & _ & RF & _)).
  assert (reg_iter 5 (pf_registers s1) = l) as El.
  { rewrite Ew in R. eapply (is_register_file_unique 32); [|exact RF|]; [lia|].
    eapply register_file_same; [|exact R]. unfold low32. apply same_set_map.
    intros x. rewrite (Es x). cbn [In]. rewrite !in_app_iff. tauto. }
  destruct (pf_value_total e (hist_precision a) l (zero_count l)) as [c Ev].
  exists sa, sb, s, s1, c. split; [auto|split; [auto|split; [auto|split; [|split]]]].
  - unfold pf_insert, pf_insert_impl. destruct H3 as (-> & _). rewrite hash64_low. exact E4.
  - rewrite (pf_count_value V e _ _ _ s1 (narrow_prec _ _ _ Na) H4), El. exact Ev.
  - rewrite Ec, Ew. exact Ev.
Qed.

(** ** Canonical states *)
Lemma plus_canonical : forall (V : Type) e ord ord' (h h' : hist V),
  build_std e -> valid MAX_PLUS h -> valid MAX_PLUS h' ->
  narrow (usize_bits e) h -> narrow (usize_bits e) h' -> is_order ord -> is_order ord' ->
  hist_precision h = hist_precision h' -> hist_builder h = hist_builder h' ->
  same_set (hist_hashes h) (hist_hashes h') ->
  exists s, run_plus e (HCount ord h) = Ret s /\ run_plus e (HCount ord' h') = Ret s.
Proof.
  intros V e ord ord' h h' Hb Hv Hv' Hn Hn' Ho Ho' Ep Eb Es.
  destruct (count_plus_ok V e ord h Hb Hv Hn Ho) as (s & s1 & c & E & E1 & _ & Hd & Hf & _).
  destruct (count_plus_ok V e ord' h' Hb Hv' Hn' Ho') as (s' & s1' & c' & E' & E1' & _ & Hd' & Hf' & _).
  pose proof (hist_prec _ _ _ Hv) as Hp. unfold MAX_PLUS in Hp.
  exists s1. cbn [run_plus]. rewrite E, bind_ret, E1, bind_ret, E', bind_ret, E1', bind_ret.
  split; [auto|]. f_equal. rewrite <- Ep, <- Eb in *.
  eapply flushed_unique; [| |exact Hd|exact (flushed_ext _ _ _ _ _ (fun x => iff_sym (Es x)) Hf')|exact Hf];
    [lia|exact Hd'].
Qed.

(** ** Further consequences *)
Lemma pf_count_pure : forall (V : Type) e o (c : ctx V) h,
  build e -> valid MAX_PF (plug c h) -> narrow (usize_bits e) (plug c h) -> is_order o ->
  (exists s x, run_pf e h = Ret s /\ pf_count_est e s = Ret x /\ run_pf e (HCount o h) = Ret s) /\
  exists x, count_pf e (plug c (HCount o h)) = Ret x /\ count_pf e (plug c h) = Ret x.
Proof.
  intros V e o c h Hb Hv Hn Ho.
  pose proof (plug_valid_hole _ _ _ _ Hv) as Hh. pose proof (plug_narrow_hole _ _ _ _ Hn) as Hnh.
  split.
  - destruct (pf_no_panic V e h Hb Hh Hnh) as (s & x & E & E'). exists s, x.
    split; [auto|split; [auto|]]. cbn [run_pf]. rewrite E, bind_ret, E', bind_ret. reflexivity.
  - apply pf_observe; auto using same_platform_refl.
    + intros x. tauto.
    + apply (plug_valid V MAX_PF c h); auto. split; auto.
    + eapply plug_narrow; [|exact Hn]. exact Hnh.
Qed.

Lemma pf_without_serde : forall (V : Type) e (h : hist V),
  build e -> valid MAX_PF h -> narrow (usize_bits e) h ->
  exists x, count_pf e h = Ret x /\ count_pf e (without_serde h) = Ret x.
Proof.
  intros V e h Hb Hv Hn.
  destruct (without_serde_same V MAX_PF (usize_bits e) h Hv) as (A & B & C & D & E).
  apply count_pf_same; auto using same_platform_refl. rewrite E. apply same_set_refl.
Qed.

Lemma serde_kept : forall (V : Type) e ord ser_b de_b (s s' : plus V),
  de_plus e de_b (ser_plus ord ser_b s) = Some s' ->
  hp_precision s' = hp_precision s /\ is_sparse s' = is_sparse s.
Proof.
  intros V e ord ser_b de_b s s' H. unfold de_plus, ser_plus in H.
  cbn [field field_opt filter fst snd String.eqb Ascii.eqb Bool.eqb obind] in H.
  repeat match type of H with
    | obind ?o _ = Some _ => destruct o eqn:?; cbn [obind] in H; [|discriminate]
    | (let (_, _) := ?p in _) = Some _ => destruct p
    end.
  inv H. cbn [hp_precision]. unfold is_sparse. cbn [hp_registers]. split.
  - match goal with X : de_uint 8 _ = Some _ |- _ => unfold de_uint in X end.
    destruct (_ <? _) in *; congruence.
  - match goal with X : de_option _ _ = Some _ |- _ => revert X end.
    destruct (hp_registers s); cbn [de_option].
    + destruct (de_registers e (ser_registers r)); cbn [obind]; intros X; inv X; reflexivity.
    + intros X. inv X. reflexivity.
Qed.

Lemma plus_canonical_serde : forall (V : Type) e ord ord' o o' ser_b (h h' : hist V),
  build_std e -> valid MAX_PLUS h -> valid MAX_PLUS h' ->
  narrow (usize_bits e) h -> narrow (usize_bits e) h' ->
  is_order ord -> is_order ord' -> is_order o -> is_order o' ->
  hist_precision h = hist_precision h' -> hist_builder h = hist_builder h' ->
  same_set (hist_hashes h) (hist_hashes h') ->
  exists s, run_plus e (HCount ord h) = Ret s /\ run_plus e (HCount ord' h') = Ret s /\
    ser_plus o ser_b s = ser_plus o' ser_b s.
Proof.
  intros V e ord ord' o o' ser_b h h' Hb Hv Hv' Hn Hn' Ho Ho' Hoo Hoo' Ep Eb Es.
  destruct (plus_canonical V e ord ord' h h' Hb Hv Hv' Hn Hn' Ho Ho' Ep Eb Es) as (s & E & E').
  exists s. split; [auto|split; [auto|]].
  destruct (count_plus_ok V e ord h Hb Hv Hn Ho) as (s0 & s1 & c & E0 & E1 & _ & _ & (T & _) & _).
  assert (s1 = s) as ->.
  { cbn [run_plus] in E. rewrite E0, bind_ret, E1, bind_ret in E. congruence. }
  unfold ser_plus. rewrite T.
  assert (HE : forall q, is_order q -> q [] = []).
  { intros q Hq. apply Permutation_nil, Permutation_sym, Hq. }
  rewrite (HE o Hoo), (HE o' Hoo'). reflexivity.
Qed.

(** Later states contain at least what earlier ones did, so stay normal. *)
Lemma normal_stays : forall (V : Type) e ord (h h' : hist V) s,
  build_std e -> valid MAX_PLUS h -> valid MAX_PLUS h' ->
  narrow (usize_bits e) h -> narrow (usize_bits e) h' -> is_order ord ->
  hist_precision h = hist_precision h' -> incl (hist_hashes h) (hist_hashes h') ->
  run_plus e h = Ret s -> is_sparse s = false ->
  exists s', run_plus e (HCount ord h') = Ret s' /\ is_sparse s' = false.
Proof.
  intros V e ord h h' s Hb Hv Hv' Hn Hn' Ho Ep Hi E Es.
  destruct (run_plus_ok V e h Hb Hv Hn) as (s0 & E0 & _ & _ & HB). rewrite E in E0. inv E0.
  unfold is_sparse in Es. unfold body_ok in HB. destruct (hp_registers s0) as [r|]; [|discriminate].
  destruct HB as (_ & _ & _ & BC).
  destruct (count_plus_ok V e ord h' Hb Hv' Hn' Ho) as (s1 & s' & c & E1 & E1' & _ & _ & (_ & Hf) & _).
  exists s'. cbn [run_plus]. rewrite E1, bind_ret, E1', bind_ret. split; [auto|].
  unfold is_sparse. destruct (hp_registers s'); auto. exfalso.
  destruct Hf as (L & HL & _ & HG).
  destruct (big_codes_incl _ _ _ Hi BC) as (L' & HL' & HG').
  rewrite Ep in HL', HG'. rewrite (code_list_unique _ _ _ _ HL HL') in HG. lia.
Qed.

(** ** Statements in the form of the properties *)
Lemma plus_builds_agree : forall (V : Type) e e' ord (h : hist V),
  build_std e -> build_std e' -> same_platform e e' -> valid MAX_PLUS h ->
  narrow (usize_bits e) h -> narrow (usize_bits e') h -> is_order ord ->
  exists c, count_plus e ord h = Ret c /\ count_plus e' ord h = Ret c.
Proof. intros. apply count_plus_same; auto using same_set_refl. Qed.

Lemma pf_builds_agree : forall (V : Type) e e' (h : hist V),
  build e -> build e' -> same_platform e e' -> valid MAX_PF h ->
  narrow (usize_bits e) h -> narrow (usize_bits e') h ->
  exists c, count_pf e h = Ret c /\ count_pf e' h = Ret c.
Proof. intros. apply count_pf_same; auto using same_set_refl. Qed.

Lemma plus_merge_result : forall (V W : Type) e ord (s s' : plus V) (t : plus W) r,
  (hp_precision s <> hp_precision t -> hp_merge e ord s t = Ret (s, RErr IncompatiblePrecision)) /\
  (hp_merge e ord s t = Ret (s', r) ->
   hp_precision s' = hp_precision s /\ hp_builder s' = hp_builder s /\
   (r = RErr IncompatiblePrecision /\ hp_precision s <> hp_precision t /\ s' = s \/
    r = ROk tt /\ hp_precision s = hp_precision t)).
Proof.
  intros. split; [apply hp_merge_mismatch|]. intros H. apply merge_kept in H.
  destruct H as ((A & B & _) & C). auto.
Qed.

Lemma pf_merge_result : forall (V W : Type) e (s s' : pf V) (t : pf W) r,
  (pf_precision s <> pf_precision t -> pf_merge e s t = Ret (s, RErr IncompatiblePrecision)) /\
  (pf_merge e s t = Ret (s', r) ->
   pf_precision s' = pf_precision s /\ pf_builder s' = pf_builder s /\
   (r = RErr IncompatiblePrecision /\ pf_precision s <> pf_precision t /\ s' = s \/
    r = ROk tt /\ pf_precision s = pf_precision t)).
Proof.
  intros. split; [apply pf_merge_mismatch|]. intros H. apply pf_merge_kept in H.
  destruct H as (A & B & _ & C). auto.
Qed.

Lemma plus_fixed : forall (V : Type) e ord (s s' : plus V) v x,
  (hp_insert e ord s v = Ret s' ->
   hp_precision s' = hp_precision s /\ hp_builder s' = hp_builder s) /\
  (hp_count e ord s = Ret (s', x) ->
   hp_precision s' = hp_precision s /\ hp_builder s' = hp_builder s).
Proof.
  intros. split; intros H.
  - apply insert_kept in H. destruct H as (A & B & _). auto.
  - apply count_kept in H. destruct H as (A & B & _). auto.
Qed.

Lemma pf_fixed : forall (V : Type) e (s s' : pf V) v,
  pf_insert e s v = Ret s' -> pf_precision s' = pf_precision s /\ pf_builder s' = pf_builder s.
Proof. intros V e s s' v H. apply pf_insert_kept in H. tauto. Qed.

Lemma code_list_exists_unique : forall p H, exists L, is_code_list p H L /\
  forall L', is_code_list p H L' -> L' = L.
Proof.
  intros p H. destruct (code_list_exists p H) as (L & HL). exists L. split; [auto|].
  intros L' HL'. eapply code_list_unique; eauto.
Qed.

Lemma plus_one_way : forall (V W : Type) e ord (s s' : plus V) (t : plus W) v x r ser_b de_b,
  is_sparse s = false ->
  (hp_insert e ord s v = Ret s' -> is_sparse s' = false) /\
  (hp_merge e ord s t = Ret (s', r) -> is_sparse s' = false) /\
  (hp_count e ord s = Ret (s', x) -> is_sparse s' = false) /\
  (de_plus e de_b (ser_plus ord ser_b s) = Some s' -> is_sparse s' = false).
Proof.
  intros. split; [|split; [|split]]; intros E.
  - apply insert_kept in E. now apply E.
  - apply merge_kept in E. now apply E.
  - apply count_kept in E. now apply E.
  - apply serde_kept in E. now rewrite (proj2 E).
Qed.

Lemma pf_zeros_exact : forall (V : Type) e (h : hist V) s,
  build e -> valid MAX_PF h -> narrow (usize_bits e) h -> run_pf e h = Ret s ->
  reg_zeros (pf_registers s) = zero_count (reg_iter SIZE_PF (pf_registers s)).
Proof.
  intros V e h s Hb Hv Hn E. destruct (pf_registers_max V e h Hb Hv Hn) as (s' & E' & _ & _ & Z).
  congruence.
Qed.

Lemma plus_zeros_exact : forall (V : Type) e (h : hist V) s r,
  build_std e -> valid MAX_PLUS h -> narrow (usize_bits e) h -> run_plus e h = Ret s ->
  hp_registers s = Some r -> reg_zeros r = zero_count (reg_iter SIZE_PLUS r).
Proof.
  intros V e h s r Hb Hv Hn E Er. destruct (plus_registers_max V e h Hb Hv Hn) as (s' & E' & H).
  rewrite E in E'. inv E'. now apply H.
Qed.

Definition with_const_loop (b : bool) (e : env) : env :=
  Env (usize_bits e) (overflow_checks e) (feat_std e) b (sum_init e) (std_ln e) (std_bsearch e).

Lemma plus_const_loop : forall (V : Type) e b ord (h : hist V),
  build_std e -> valid MAX_PLUS h -> narrow (usize_bits e) h -> is_order ord ->
  exists c, count_plus e ord h = Ret c /\ count_plus (with_const_loop b e) ord h = Ret c.
Proof.
  intros V e b ord h Hb Hv Hn Ho. apply plus_builds_agree; auto.
  split; [|split; [|split]]; reflexivity.
Qed.

Lemma pf_const_loop : forall (V : Type) e b (h : hist V),
  build e -> valid MAX_PF h -> narrow (usize_bits e) h ->
  exists c, count_pf e h = Ret c /\ count_pf (with_const_loop b e) h = Ret c.
Proof.
  intros V e b h Hb Hv Hn. apply pf_builds_agree; auto.
  split; [|split; [|split]]; reflexivity.
Qed.

Lemma plus_entry_points :
  forall (V W : Type) e ord (b : V -> N) (b' : W -> N) p c0 c1 c2 t d r v w,
  hash64 b v = hash64 b' w ->
  hp_add e ord (Plus b p c0 c1 c2 t d r) v = hp_insert e ord (Plus b p c0 c1 c2 t d r) v /\
  hp_insert_any e ord (Plus b p c0 c1 c2 t d r) v = hp_insert e ord (Plus b p c0 c1 c2 t d r) v /\
  hp_insert e ord (Plus b' p c0 c1 c2 t d r) w =
    match hp_insert e ord (Plus b p c0 c1 c2 t d r) v with
    | Ret s => Ret (Plus b' (hp_precision s) (hp_counts0 s) (hp_counts1 s) (hp_counts2 s)
                      (hp_tmpset s) (hp_sparse s) (hp_registers s))
    | Panic => Panic
    | OutOfFuel => OutOfFuel
    end.
Proof.
  intros. destruct (plus_hash_only V W e ord (Plus b p c0 c1 c2 t d r) b' v w H) as (A & B & C).
  split; [exact B|split; [exact C|exact A]].
Qed.

Lemma pf_entry_points : forall (V W : Type) e (b : V -> N) (b' : W -> N) c p r v w,
  hash64 b v mod 2 ^ 32 = hash64 b' w mod 2 ^ 32 ->
  pf_add e (PF b c p r) v = pf_insert e (PF b c p r) v /\
  pf_insert_any e (PF b c p r) v = pf_insert e (PF b c p r) v /\
  pf_insert e (PF b' c p r) w =
    match pf_insert e (PF b c p r) v with
    | Ret s => Ret (PF b' (pf_count s) (pf_precision s) (pf_registers s))
    | Panic => Panic
    | OutOfFuel => OutOfFuel
    end.
Proof.
  intros. destruct (pf_hash_only V W e (PF b c p r) b' v w H) as (A & B & C).
  split; [exact B|split; [exact C|exact A]].
Qed.

Lemma dif_overflow_iff : forall e l d x, Forall (fun y => y < 2 ^ 32) l -> StronglySorted N.le l ->
  for_each l (dif_push e) dif_new = Ret d -> x < 2 ^ 32 ->
  (overflow_checks e = true -> (dif_push e d x = Panic <-> x < last l 0)) /\
  (last l 0 <= x -> exists d', dif_push e d x = Ret d').
Proof.
  intros e l d x HF HS E Hx.
  destruct (dif_pushes e l [] dif_new dif_repr_new HF HS) as (d0 & E0 & Hd).
  rewrite E in E0. inv E0. cbn [app] in Hd. split.
  - intros Hc. now apply dif_push_overflow.
  - intros H. destruct (dif_push_ok e d0 l x Hd H Hx) as (d' & E' & _). eauto.
Qed.

Lemma varint_len_size : forall v, varint_len v = N.max 1 ((N.size v + 6) / 7).
Proof.
  intros v. unfold varint_len. destruct (N.eqb_spec v 0) as [->|H]; [reflexivity|].
  rewrite (N.size_log2 v H).
  replace (N.succ (N.log2 v) + 6) with (N.log2 v + 1 * 7) by lia.
  rewrite N.div_add by discriminate. generalize (N.log2 v / 7). intros. lia.
Qed.
