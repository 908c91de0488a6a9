(** * C81: programs whose panics are caught *)
From Coq Require Import NArith Lia List Bool.
From Verif Require Import ModelRust ModelF64 ModelEnv ModelRegisters ModelEncoding ModelCommon ModelPF ModelPlus
  ModelSerde ModelHistory ModelUnwind Spec SpecBuild SpecWide SpecUnwind BitFacts RegFacts EncFacts CodeFacts AbsorbFacts
  PFInv PlusInv ClaimFloat MonoFacts ObsFacts WideFacts UnwindFacts.
Import ListNotations.
Local Open Scope N_scope.

Lemma uncaught_unit_ret : forall (S : Type) (u : exit S unit) s, uncaught_unit u = Ret s -> fst u = s.
Proof. intros S [s0 [[]| |]] s; cbn; congruence. Qed.
Lemma uncaught_ret : forall (S A : Type) (u : exit S A) s a, uncaught u = Ret (s, a) -> fst u = s.
Proof. intros S A [s0 [a0| |]] s a; cbn; congruence. Qed.

(** ** The configuration is never touched *)
Lemma setup_refl : forall (V : Type) (s : plus V), same_setup s s.
Proof. repeat split. Qed.
Lemma setup_trans : forall (V : Type) (s s1 s2 : plus V), same_setup s s1 -> same_setup s1 s2 -> same_setup s s2.
Proof. intros V s s1 s2 (A & B & C & D & E) (A' & B' & C' & D' & E'). repeat split; congruence. Qed.

Lemma setup_do : forall (V A B : Type) (s : plus V) (u : exit (plus V) A) (k : plus V -> A -> exit (plus V) B),
  same_setup s (fst u) -> (forall a, same_setup (fst u) (fst (k (fst u) a))) -> same_setup s (fst (then_do u k)).
Proof.
  intros V A B s [s1 [a| |]] k X Y; unfold then_do; cbn [fst snd] in *; auto.
  eapply setup_trans; eauto.
Qed.

Ltac setup := repeat (first [apply setup_refl | apply setup_do; [|intros ?] | progress cbn [fst snd pure field]]).

Lemma setup_normal : forall (V : Type) e (s : plus V), same_setup s (fst (sparse_to_normal_x e s)).
Proof. intros V e s. unfold sparse_to_normal_x. setup. repeat split. Qed.

Lemma setup_merge_sparse : forall (V : Type) e ord (s : plus V), same_setup s (fst (merge_sparse_x e ord s)).
Proof.
  intros V e ord s. unfold merge_sparse_x. cbv zeta. destruct (set_next _) as [so si].
  apply setup_do; [setup|]. intros [bo bi]. setup.
  match goal with |- context [if ?c then _ else _] => destruct c end; [|repeat split].
  eapply setup_trans; [|apply setup_normal]. repeat split.
Qed.

Lemma setup_flush : forall (V : Type) e ord (s : plus V), same_setup s (fst (flush_if_full_x e ord s)).
Proof.
  intros V e ord s. unfold flush_if_full_x. setup.
  destruct (_ <? _); [apply setup_merge_sparse|setup].
Qed.

Lemma setup_on : forall (V : Type) (s : plus V) body, same_setup s (fst (on_registers s body)).
Proof. intros V s body. unfold on_registers. destruct (hp_registers s); [|setup]. unfold field. cbn [fst]. repeat split. Qed.

Theorem insert_setup : forall (V : Type) e ord (s : plus V) m, same_setup s (fst (hp_insert_x e ord s m)).
Proof.
  intros V e ord s m. unfold hp_insert_x. cbv zeta. apply setup_do; [setup|]. intros h. cbn [fst snd pure].
  destruct (hp_registers s) as [r|].
  - setup. repeat split.
  - apply setup_do; [setup|]. intros c. cbn [fst snd pure].
    eapply setup_trans; [|apply setup_flush]. repeat split.
Qed.

Theorem count_setup : forall (V : Type) e ord (s : plus V), same_setup s (fst (hp_count_x e ord s)).
Proof.
  intros V e ord s. unfold hp_count_x. apply setup_do.
  - destruct (is_sparse s); [apply setup_merge_sparse|setup].
  - intros _. set (s1 := fst _). clearbody s1. unfold hp_value_x. destruct (hp_registers s1) as [r|].
    + cbv zeta. destruct (negb _); setup. destruct (fle _ _); setup.
    + setup.
Qed.

Theorem merge_setup : forall (V W : Type) e ord (s : plus V) (o : plus W), same_setup s (fst (hp_merge_x e ord s o)).
Proof.
  intros V W e ord s o. unfold hp_merge_x. destruct (negb _); [setup|].
  apply setup_do; [|intros; setup]. destruct (is_sparse o).
  - destruct (is_sparse s).
    + rewrite pend_for. unfold then_do at 1. cbn [fst snd]. set (s1 := set_tmpset s _).
      destruct (pend_dif V e (hp_sparse o) s1) as (t & m & E & _). rewrite E. unfold then_do.
      destruct m as [[]| |]; cbn [fst snd]; try (repeat split; fail).
      eapply setup_trans; [|apply setup_flush]. repeat split.
    + apply setup_do; [apply setup_on|]. intros _. apply setup_on.
  - apply setup_do.
    + destruct (is_sparse s); [|setup]. apply setup_do; [apply setup_merge_sparse|]. intros _.
      destruct (is_sparse _); [apply setup_normal|setup].
    + intros _. setup. apply setup_on.
Qed.

(** ** A program in which nothing else panics *)
Theorem calm_pf : forall (V : Type) e (w : wild V) s, run_pf e (calm w) = Ret s -> caught_pf e w = Ret s.
Proof.
  intros V e w. induction w as [p b|k ord w IH v|k ord w IH|ord w1 IH1 w2 IH2|ord w IH|ord ser_b de_b w IH];
    cbn [calm run_pf caught_pf]; intros s E; auto.
  - apply bind_inv in E. destruct E as (s0 & E0 & E). rewrite (IH _ E0), bind_ret.
    assert (E' : pf_insert_impl e s0 v = Ret s) by (destruct k; exact E).
    rewrite <- pf_insert_same in E'. now rewrite (uncaught_unit_ret _ _ _ E').
  - rewrite (IH _ E). reflexivity.
  - apply bind_inv in E. destruct E as (s1 & E1 & E). apply bind_inv in E. destruct E as (s2 & E2 & E).
    rewrite (IH1 _ E1), bind_ret, (IH2 _ E2), bind_ret. apply bind_inv in E. destruct E as ([s' x] & E & F).
    injection F as <-. rewrite <- pf_merge_same in E. now rewrite (uncaught_ret _ _ _ _ _ E).
  - apply bind_inv in E. destruct E as (s0 & E0 & E). apply bind_inv in E. destruct E as (c & E & F).
    injection F as <-. rewrite (IH _ E0). reflexivity.
  - apply bind_inv in E. destruct E as (s0 & E0 & E). rewrite (IH _ E0). exact E.
Qed.

Theorem calm_plus : forall (V : Type) e (w : wild V) s, run_plus e (calm w) = Ret s -> caught_plus e w = Ret s.
Proof.
  intros V e w. induction w as [p b|k ord w IH v|k ord w IH|ord w1 IH1 w2 IH2|ord w IH|ord ser_b de_b w IH];
    cbn [calm run_plus caught_plus]; intros s E; auto.
  - apply bind_inv in E. destruct E as (s0 & E0 & E). rewrite (IH _ E0), bind_ret.
    assert (E' : hp_insert_impl e ord s0 v = Ret s) by (destruct k; exact E).
    rewrite <- hp_insert_same in E'. now rewrite (uncaught_unit_ret _ _ _ E').
  - rewrite (IH _ E). reflexivity.
  - apply bind_inv in E. destruct E as (s1 & E1 & E). apply bind_inv in E. destruct E as (s2 & E2 & E).
    rewrite (IH1 _ E1), bind_ret, (IH2 _ E2), bind_ret. apply bind_inv in E. destruct E as ([s' x] & E & F).
    injection F as <-. rewrite <- hp_merge_same in E. now rewrite (uncaught_ret _ _ _ _ _ E).
  - apply bind_inv in E. destruct E as (s0 & E0 & E). apply bind_inv in E. destruct E as ([s' c] & E & F).
    injection F as <-. rewrite (IH _ E0), bind_ret. rewrite <- hp_count_same in E.
    now rewrite (uncaught_ret _ _ _ _ _ E).
  - apply bind_inv in E. destruct E as (s0 & E0 & E). rewrite (IH _ E0). exact E.
Qed.

(** ** Programs in which [count] panics as well *)
Lemma caught_pf_ok : forall (V : Type) e (w : wild V), build e -> valid MAX_PF (calm w) ->
  exists s, caught_pf e w = Ret s /\
    pf_ok (hist_precision (calm w)) (hist_builder (calm w)) (hist_hashes (calm w)) s.
Proof.
  intros V e w Hb. pose proof (proj1 Hb) as He.
  induction w as [p b|k ord w IH v|k ord w IH|ord w1 IH1 w2 IH2|ord w IH|ord ser_b de_b w IH];
    cbn [calm valid hist_precision hist_builder hist_hashes caught_pf]; intros Hv.
  - destruct (pf_new_ok V e p b He Hv) as (s & E & Hs). rewrite E, bind_ret. exists s. auto.
  - destruct Hv as [_ Hv]. destruct (IH Hv) as (s & E & Hs). rewrite E, bind_ret.
    pose proof (hist_prec V _ _ Hv) as Hp. unfold MAX_PF in Hp.
    destruct (pf_insert_hash_ok V e _ _ _ s (hash64 (hist_builder (calm w)) v) He Hp Hs) as (s' & E' & Hs').
    eexists. split; [reflexivity|]. pose proof Hs as (HB & _).
    rewrite (uncaught_unit_ret _ _ s'); [exact Hs'|]. rewrite pf_insert_same. unfold pf_insert_impl.
    rewrite HB, hash64_low. exact E'.
  - destruct (IH Hv) as (s & E & Hs). rewrite E, bind_ret. exists s. split; auto.
  - destruct Hv as (_ & Hv1 & Hv2). destruct (IH1 Hv1) as (s1 & E1 & Hs1), (IH2 Hv2) as (s2 & E2 & Hs2).
    rewrite E1, bind_ret, E2, bind_ret. pose proof (hist_prec V _ _ Hv1) as Hp. unfold MAX_PF in Hp.
    eexists. split; [reflexivity|].
    destruct (N.eqb_spec (hist_precision (calm w1)) (hist_precision (calm w2))) as [E|E].
    + rewrite <- E in Hs2.
      destruct (pf_merge_ok V V e _ _ _ _ _ s1 s2 Hp Hs1 Hs2) as (s & E' & Hs).
      rewrite <- pf_merge_same in E'. now rewrite (uncaught_ret _ _ _ _ _ E').
    + assert (E' : pf_merge e s1 s2 = Ret (s1, RErr IncompatiblePrecision))
        by (apply pf_merge_mismatch; destruct Hs1 as (_ & -> & _), Hs2 as (_ & -> & _); auto).
      rewrite <- pf_merge_same in E'. now rewrite (uncaught_ret _ _ _ _ _ E').
  - destruct Hv as [_ Hv]. destruct (IH Hv) as (s & E & Hs). rewrite E, bind_ret. exists s. auto.
  - destruct Hv as (_ & Hv & b & Eb & Hbv). destruct (IH Hv) as (s & E & Hs). rewrite E, bind_ret.
    rewrite Eb. pose proof (hist_prec V _ _ Hv) as Hp. unfold MAX_PF in Hp.
    destruct (pf_serde_ok V e _ _ _ s ser_b de_b b He Hp Hs Eb) as (s' & E' & Hs').
    rewrite E'. cbn [ModelPlus.unwrap]. eauto.
Qed.

Lemma count_leaves : forall (V : Type) e ord p (b : V -> N) H s,
  build_std e -> 4 <= p <= 18 -> is_order ord -> plus_ok p b H s ->
  header p b (fst (hp_count_x e ord s)) /\ flushed p H (fst (hp_count_x e ord s)).
Proof.
  intros V e ord p b H s Hb Hp Ho (Hd & HF & HB). pose proof (proj1 (proj1 Hb)) as He.
  assert (VAL : forall s1 : plus V, fst (hp_value_x e s1) = s1).
  { intros s1. unfold hp_value_x, then_do, pure. cbv zeta. destruct (hp_registers s1) as [r|].
    - destruct (negb _); cbn [fst snd]; auto. destruct (linear_count _ _ _); cbn [fst snd]; auto.
      destruct (threshold _); cbn [fst snd]; auto. destruct (fle _ _); auto.
    - destruct (usub _ _ _ _); reflexivity. }
  assert (HS : exists s', uncaught_unit (if is_sparse s then merge_sparse_x e ord s else (s, Ret tt)) = Ret s' /\
    header p b s' /\ flushed p H s').
  { unfold is_sparse. unfold body_ok in HB. destruct (hp_registers s) as [r|] eqn:Er.
    - exists s. split; [auto|split; [auto|]]. unfold flushed. rewrite Er. tauto.
    - destruct HB as [Hs _].
      destruct (merge_sparse_ok V e ord p b H s He Hp Ho Hd HF Er Hs) as (s' & E & Hx).
      exists s'. rewrite merge_sparse_same. auto. }
  destruct HS as (s' & E & Hd' & Hf). pose proof (uncaught_unit_ret _ _ _ E) as F.
  assert (G : fst (hp_count_x e ord s) = s').
  { unfold hp_count_x, then_do. set (u := if is_sparse s then merge_sparse_x e ord s else (s, Ret tt)) in *.
    destruct (snd u); cbn [fst]; rewrite ?VAL; exact F. }
  rewrite G. auto.
Qed.

Lemma caught_plus_ok : forall (V : Type) e (w : wild V), build_std e -> valid MAX_PLUS (calm w) ->
  exists s, caught_plus e w = Ret s /\
    plus_ok (hist_precision (calm w)) (hist_builder (calm w)) (hist_hashes (calm w)) s.
Proof.
  intros V e w Hb. pose proof (proj1 (proj1 Hb)) as He.
  induction w as [p b|k ord w IH v|k ord w IH|ord w1 IH1 w2 IH2|ord w IH|ord ser_b de_b w IH];
    cbn [calm valid hist_precision hist_builder hist_hashes caught_plus]; intros Hv.
  - destruct (hp_new_ok V e p b He Hv) as (s & E & Hs & _). rewrite E, bind_ret. exists s. auto.
  - destruct Hv as [Ho Hv]. destruct (IH Hv) as (s & E & Hs). rewrite E, bind_ret.
    pose proof (hist_prec V _ _ Hv) as Hp. unfold MAX_PLUS in Hp.
    destruct (hp_insert_hash_ok V e ord _ _ _ s (hash64 (hist_builder (calm w)) v) He Hp Ho
      (hash64_lt _ _ _) Hs) as (s' & E' & Hs').
    eexists. split; [reflexivity|]. pose proof Hs as ((HB & _) & _).
    rewrite (uncaught_unit_ret _ _ s'); [exact Hs'|]. rewrite hp_insert_same. unfold hp_insert_impl.
    rewrite HB. exact E'.
  - destruct (IH Hv) as (s & E & Hs). rewrite E, bind_ret. exists s. split; auto.
  - destruct Hv as (Ho & Hv1 & Hv2). destruct (IH1 Hv1) as (s1 & E1 & Hs1), (IH2 Hv2) as (s2 & E2 & Hs2).
    rewrite E1, bind_ret, E2, bind_ret. pose proof (hist_prec V _ _ Hv1) as Hp. unfold MAX_PLUS in Hp.
    eexists. split; [reflexivity|].
    destruct (N.eqb_spec (hist_precision (calm w1)) (hist_precision (calm w2))) as [E|E].
    + rewrite <- E in Hs2.
      destruct (hp_merge_ok V V e ord _ _ _ _ _ s1 s2 He Hp Ho Hs1 Hs2) as (s & E' & Hs).
      rewrite <- hp_merge_same in E'. now rewrite (uncaught_ret _ _ _ _ _ E').
    + assert (E' : hp_merge e ord s1 s2 = Ret (s1, RErr IncompatiblePrecision))
        by (apply hp_merge_mismatch; destruct Hs1 as ((_ & -> & _) & _), Hs2 as ((_ & -> & _) & _); auto).
      rewrite <- hp_merge_same in E'. now rewrite (uncaught_ret _ _ _ _ _ E').
  - destruct Hv as [Ho Hv]. destruct (IH Hv) as (s & E & Hs). rewrite E, bind_ret.
    pose proof (hist_prec V _ _ Hv) as Hp. unfold MAX_PLUS in Hp.
    destruct (count_leaves V e ord _ _ _ s Hb Hp Ho Hs) as [Hd Hf].
    eexists. split; [reflexivity|]. split; [auto|]. split; [apply Hs|]. apply flushed_body; auto. lia.
  - destruct Hv as (Ho & Hv & b & Eb & Hbv). destruct (IH Hv) as (s & E & Hs). rewrite E, bind_ret.
    rewrite Eb. pose proof (hist_prec V _ _ Hv) as Hp. unfold MAX_PLUS in Hp.
    destruct (plus_serde_ok V e ord _ _ _ s ser_b de_b b He Hp Ho Hs Eb) as (s' & E' & Hs' & _).
    rewrite E'. cbn [unwrap]. eauto.
Qed.

Theorem programs_pf : forall (V : Type) e e' (w : wild V), build e -> build e' -> valid MAX_PF (calm w) ->
  (exists s, caught_pf e w = Ret s) /\
  (forall s, run_pf e' (calm w) = Ret s -> caught_pf e w = Ret s).
Proof.
  intros V e e' w Hb Hb' Hv. destruct (caught_pf_ok V e w Hb Hv) as (s & E & Hs). split; [eauto|].
  intros s' E'. pose proof (run_pf_ret V e' _ s' Hb' Hv E') as Hs'.
  rewrite E. f_equal. pose proof (hist_prec V _ _ Hv) as Hp. unfold MAX_PF in Hp.
  eapply (pf_ok_inj V (hist_precision (calm w))); eauto. lia.
Qed.

Theorem programs_plus : forall (V : Type) e e' ord ord' (w : wild V), build_std e -> build_std e' ->
  is_order ord -> is_order ord' -> valid MAX_PLUS (calm w) ->
  exists s, caught_plus e w = Ret s /\
    forall s', run_plus e' (HCount ord' (calm w)) = Ret s' -> fst (hp_count_x e ord s) = s'.
Proof.
  intros V e e' ord ord' w Hb Hb' Ho Ho' Hv. destruct (caught_plus_ok V e w Hb Hv) as (s & E & Hs).
  exists s. split; [auto|]. intros s' E'. pose proof (hist_prec V _ _ Hv) as Hp. unfold MAX_PLUS in Hp.
  destruct (count_leaves V e ord _ _ _ s Hb Hp Ho Hs) as [Hd Hf].
  cbn [run_plus] in E'. apply bind_inv in E'. destruct E' as (s0 & E0 & E').
  pose proof (run_plus_ret V e' _ s0 Hb' Hv E0) as Hs0.
  destruct (hp_count_any V e' ord' _ _ _ s0 Hb' Hp Ho' Hs0) as (s1 & Hd1 & Hf1 & Ec).
  rewrite Ec in E'. apply bind_inv in E'. destruct E' as ([s2 c] & E2 & E3). apply bind_inv in E2.
  destruct E2 as (c' & _ & E2). injection E2 as <- _. injection E3 as <-.
  eapply (flushed_unique V (hist_precision (calm w))); eauto. lia.
Qed.

Theorem same_pf : forall (V W : Type) e (s : pf V) (o : pf W) v,
  uncaught_unit (pf_insert_x e s (Ret (pf_builder s v))) = pf_insert_impl e s v /\
  uncaught (pf_merge_x e s o) = pf_merge e s o /\
  uncaught (pf_count_x e s) = (let* c := pf_count_est e s in Ret (s, c)).
Proof. intros. split; [apply pf_insert_same|split; [apply pf_merge_same|apply pf_count_same]]. Qed.

Theorem same_plus : forall (V W : Type) e ord (s : plus V) (o : plus W) v,
  uncaught_unit (hp_insert_x e ord s (Ret (hp_builder s v))) = hp_insert_impl e ord s v /\
  uncaught (hp_merge_x e ord s o) = hp_merge e ord s o /\
  uncaught (hp_count_x e ord s) = hp_count e ord s.
Proof. intros. split; [apply hp_insert_same|split; [apply hp_merge_same|apply hp_count_same]]. Qed.

Theorem count_pf_leaves : forall (V : Type) e (s : pf V), fst (pf_count_x e s) = s.
Proof. reflexivity. Qed.

Theorem setup_all : forall (V W : Type) e ord (s : plus V) (o : plus W) m,
  same_setup s (fst (hp_insert_x e ord s m)) /\
  same_setup s (fst (hp_merge_x e ord s o)) /\
  same_setup s (fst (hp_count_x e ord s)).
Proof. intros. split; [apply insert_setup|split; [apply merge_setup|apply count_setup]]. Qed.
