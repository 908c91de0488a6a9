(** * Facts for C81: what a call that panics leaves behind *)
From Coq Require Import NArith Lia List Bool.
From Verif Require Import ModelRust ModelF64 ModelEnv ModelRegisters ModelEncoding ModelCommon ModelPF ModelPlus
  ModelSerde ModelHistory ModelUnwind Spec SpecBuild SpecWide SpecUnwind BitFacts RegFacts EncFacts CodeFacts AbsorbFacts
  PFInv PlusInv WideFacts.
Import ListNotations.
Local Open Scope N_scope.

(** ** The outcome of a sequence *)
Lemma uncaught_do : forall (S A B : Type) (u : exit S A) (k : S -> A -> exit S B),
  uncaught (then_do u k) = let* (s, a) := uncaught u in uncaught (k s a).
Proof. intros S A B [s [a| |]] k; reflexivity. Qed.

Lemma uncaught_unit_do : forall (S A : Type) (u : exit S A) (k : S -> A -> exit S unit),
  uncaught_unit (then_do u k) = let* (s, a) := uncaught u in uncaught_unit (k s a).
Proof. intros S A [s [a| |]] k; reflexivity. Qed.

Lemma uncaught_as_unit : forall (S : Type) (u : exit S unit),
  uncaught u = let* s := uncaught_unit u in Ret (s, tt).
Proof. intros S [s [[]| |]]; reflexivity. Qed.

Lemma uncaught_pure : forall (S A : Type) (s : S) (m : M A), uncaught (pure s m) = let* a := m in Ret (s, a).
Proof. intros S A s [a| |]; reflexivity. Qed.

Lemma uncaught_unit_field : forall (S F : Type) (set : F -> S) (u : exit F unit),
  uncaught_unit (field set u) = let* r := uncaught_unit u in Ret (set r).
Proof. intros S F set [r [[]| |]]; reflexivity. Qed.

(** ** The functions without the receiver of a panic are those of the model *)
Lemma set_greater_same : forall e sz r i v,
  uncaught_unit (set_greater_x e sz r i v) = set_greater e sz r i v.
Proof.
  intros e sz r i v. unfold set_greater_x, set_greater, then_do, pure; cbn [fst snd].
  destruct (index (r_buf r) (i / count_per_word sz)) as [w| |] eqn:E; cbn [fst snd bind]; try reflexivity.
  destruct (_ <? v); [|reflexivity]. destruct (_ =? 0).
  - destruct (usub _ _ _ _) as [z| |]; cbn [fst snd r_buf r_zeros r_count bind]; try reflexivity. rewrite E. reflexivity.
  - reflexivity.
Qed.

(** A [set_greater] that does not return has written nothing. *)
Lemma set_greater_stopped : forall e sz r i v,
  stopped (set_greater_x e sz r i v) -> fst (set_greater_x e sz r i v) = r.
Proof.
  intros e sz r i v. unfold stopped, set_greater_x, then_do, pure; cbn [fst snd].
  destruct (index (r_buf r) (i / count_per_word sz)) as [w| |] eqn:E; cbn [fst snd]; try reflexivity.
  destruct (_ <? v); [|reflexivity]. destruct (_ =? 0).
  - destruct (usub _ _ _ _) as [z| |]; cbn [fst snd r_buf r_zeros r_count]; try reflexivity.
    rewrite E. cbn. intros X. now destruct (X tt).
  - cbn. intros X. now destruct (X tt).
Qed.

Lemma for_same : forall (A S : Type) (l : list A) (bx : S -> A -> exit S unit) (b : S -> A -> M S),
  (forall s x, uncaught_unit (bx s x) = b s x) ->
  forall s, uncaught_unit (for_x l bx s) = for_each l b s.
Proof.
  intros A S l bx b Hb. induction l as [|x l IH]; intros s; [reflexivity|].
  cbn [for_x for_each]. rewrite uncaught_unit_do, uncaught_as_unit, Hb.
  destruct (b s x); cbn [bind]; auto.
Qed.

Lemma for_enum_same : forall (A S : Type) (l : list A) (bx : S -> N -> A -> exit S unit) (b : S -> N -> A -> M S),
  (forall s i x, uncaught_unit (bx s i x) = b s i x) ->
  forall i s, uncaught_unit (for_enum_x i l bx s) = for_each_enum i l b s.
Proof.
  intros A S l bx b Hb. induction l as [|x l IH]; intros i s; [reflexivity|].
  cbn [for_enum_x for_each_enum]. rewrite uncaught_unit_do, uncaught_as_unit, Hb.
  destruct (b s i x); cbn [bind]; auto.
Qed.

Lemma dif_for_same : forall (S : Type) e d (bx : S -> N -> exit S unit) (b : S -> N -> M S),
  (forall s x, uncaught_unit (bx s x) = b s x) ->
  forall s, uncaught_unit (dif_for_x e d bx s) = dif_for e d b s.
Proof.
  intros S e d bx b Hb s. unfold dif_for_x, dif_for. generalize (dif_into_iter d).
  revert s. induction (Datatypes.S (length (d_buf d))) as [|n IH]; intros s it; [reflexivity|].
  cbn [dif_loop_x dif_for_loop]. rewrite uncaught_unit_do, uncaught_pure.
  destruct (dif_next e it) as [[[c|] it']| |]; cbn [bind]; try reflexivity.
  rewrite uncaught_unit_do, uncaught_as_unit, Hb. destruct (b s c); cbn [bind]; auto.
Qed.

Lemma absorb_same : forall e p r c, uncaught_unit (absorb_x e p r c) = absorb_code e p r c.
Proof.
  intros e p r c. unfold absorb_x, absorb_code. rewrite uncaught_unit_do, uncaught_pure.
  destruct (decode_hash e p c) as [[z i]| |]; cbn [bind]; try reflexivity. apply set_greater_same.
Qed.

Lemma absorb_stopped : forall e p r c, stopped (absorb_x e p r c) -> fst (absorb_x e p r c) = r.
Proof.
  intros e p r c. unfold absorb_x, then_do, pure, stopped; cbn [fst snd].
  destruct (decode_hash e p c) as [[z i]| |]; cbn [fst snd]; try reflexivity.
  intros X. now apply set_greater_stopped.
Qed.

Ltac chase := repeat (match goal with
  | |- context [uncaught_unit (then_do (pure ?s ?m) _)] =>
      rewrite uncaught_unit_do, uncaught_pure; destruct m; cbn [bind]; try reflexivity
  | |- context [uncaught (then_do (pure ?s ?m) _)] =>
      rewrite uncaught_do, uncaught_pure; destruct m; cbn [bind]; try reflexivity
  end).

Theorem pf_insert_same : forall (V : Type) e (s : pf V) v,
  uncaught_unit (pf_insert_x e s (Ret (pf_builder s v))) = pf_insert_impl e s v.
Proof.
  intros V e s v. unfold pf_insert_x, pf_insert_impl, pf_insert_hash. cbv zeta.
  rewrite uncaught_unit_do, uncaught_pure. cbn [bind]. chase.
  rewrite uncaught_unit_field, set_greater_same. reflexivity.
Qed.

Theorem pf_merge_same : forall (V W : Type) e (s : pf V) (o : pf W),
  uncaught (pf_merge_x e s o) = pf_merge e s o.
Proof.
  intros V W e s o. unfold pf_merge_x, pf_merge. destruct (negb _); [reflexivity|].
  rewrite uncaught_do, uncaught_as_unit, uncaught_unit_field.
  rewrite (for_enum_same _ _ _ _ (fun r i val => set_greater e SIZE_PF r i val))
    by (intros; apply set_greater_same).
  destruct (for_each_enum _ _ _ _); reflexivity.
Qed.

Theorem pf_count_same : forall (V : Type) e (s : pf V),
  uncaught (pf_count_x e s) = let* c := pf_count_est e s in Ret (s, c).
Proof. intros. apply uncaught_pure. Qed.

Lemma sparse_to_normal_same : forall (V : Type) e (s : plus V),
  uncaught_unit (sparse_to_normal_x e s) = sparse_to_normal e s.
Proof. intros V e s. unfold sparse_to_normal_x, sparse_to_normal. chase. Qed.

Lemma merge_sparse_same : forall (V : Type) e ord (s : plus V),
  uncaught_unit (merge_sparse_x e ord s) = merge_sparse e ord s.
Proof.
  intros V e ord s. unfold merge_sparse_x, merge_sparse. cbv zeta.
  destruct (set_next _) as [so si]. rewrite uncaught_unit_do, uncaught_pure.
  destruct (dif_next e _) as [[bo bi]| |]; cbn [bind]; try reflexivity. chase.
  destruct (_ <? _); [apply sparse_to_normal_same|reflexivity].
Qed.

Lemma flush_same : forall (V : Type) e ord (s : plus V),
  uncaught_unit (flush_if_full_x e ord s) = flush_if_full e ord s.
Proof.
  intros V e ord s. unfold flush_if_full_x, flush_if_full. chase.
  destruct (_ <? _); [apply merge_sparse_same|reflexivity].
Qed.

Theorem hp_insert_same : forall (V : Type) e ord (s : plus V) v,
  uncaught_unit (hp_insert_x e ord s (Ret (hp_builder s v))) = hp_insert_impl e ord s v.
Proof.
  intros V e ord s v. unfold hp_insert_x, hp_insert_impl, hp_insert_hash. cbv zeta.
  rewrite uncaught_unit_do, uncaught_pure. cbn [bind]. destruct (hp_registers s) as [r|].
  - chase. rewrite uncaught_unit_field, set_greater_same. reflexivity.
  - chase. apply flush_same.
Qed.

Lemma set_tmpset_twice : forall (V : Type) (s : plus V) t t', set_tmpset (set_tmpset s t) t' = set_tmpset s t'.
Proof. reflexivity. Qed.
Lemma set_tmpset_self : forall (V : Type) (s : plus V), set_tmpset s (hp_tmpset s) = s.
Proof. intros V []. reflexivity. Qed.
Lemma set_registers_self : forall (V : Type) (s : plus V) r, hp_registers s = Some r -> set_registers s (Some r) = s.
Proof. intros V [] r E. cbn in E. subst. reflexivity. Qed.

Lemma pend_for : forall (V : Type) l (s : plus V),
  for_x l pend_x s = (set_tmpset s (fold_left hset_insert l (hp_tmpset s)), Ret tt).
Proof.
  intros V l. induction l as [|c l IH]; intros s; cbn [for_x fold_left].
  - now rewrite set_tmpset_self.
  - unfold then_do, pend_x at 1; cbn [fst snd]. rewrite IH. reflexivity.
Qed.

Lemma pend_for_each : forall l t, for_each l (fun t c => Ret (hset_insert t c)) t = Ret (fold_left hset_insert l t).
Proof. intros l. induction l as [|c l IH]; intros t; cbn; auto. Qed.

Lemma pend_dif : forall (V : Type) e d (s : plus V),
  exists t m, dif_for_x e d pend_x s = (set_tmpset s t, m) /\ incl (hp_tmpset s) t /\
    (exists l, reads e (dif_into_iter d) l /\ t = fold_left hset_insert l (hp_tmpset s)) /\
    dif_for e d (fun t c => Ret (hset_insert t c)) (hp_tmpset s) = (let* _ := m in Ret t).
Proof.
  intros V e d s. unfold dif_for_x, dif_for. generalize (dif_into_iter d). revert s.
  induction (Datatypes.S (length (d_buf d))) as [|n IH]; intros s it.
  - exists (hp_tmpset s), OutOfFuel. rewrite set_tmpset_self. cbn. repeat split; auto using incl_refl.
    exists []. split; [constructor|auto].
  - cbn [dif_loop_x dif_for_loop]. unfold then_do, pure; cbn [fst snd].
    destruct (dif_next e it) as [[[c|] it']| |] eqn:E; cbn [fst snd bind].
    + destruct (IH (set_tmpset s (hset_insert (hp_tmpset s) c)) it') as (t & m & E1 & I & (l & R & Et) & E2).
      exists t, m. split; [exact E1|].
      cbn [set_tmpset hp_tmpset] in *. split; [|split; [|exact E2]].
      * intros x Hx. apply I. unfold hset_insert. destruct (existsb _ _); [auto|]. now right.
      * exists (c :: l). split; [econstructor; eauto|exact Et].
    + exists (hp_tmpset s), (Ret tt). rewrite set_tmpset_self. repeat split; auto using incl_refl.
      exists []. split; [constructor|auto].
    + exists (hp_tmpset s), Panic. rewrite set_tmpset_self. repeat split; auto using incl_refl.
      exists []. split; [constructor|auto].
    + exists (hp_tmpset s), OutOfFuel. rewrite set_tmpset_self. repeat split; auto using incl_refl.
      exists []. split; [constructor|auto].
Qed.

Lemma on_registers_same : forall (V : Type) (s : plus V) r bx b, hp_registers s = Some r ->
  uncaught_unit (bx r) = b -> uncaught_unit (on_registers s bx) = let* r' := b in Ret (set_registers s (Some r')).
Proof. intros V s r bx b E <-. unfold on_registers. rewrite E. apply uncaught_unit_field. Qed.

Theorem hp_merge_same : forall (V W : Type) e ord (s : plus V) (o : plus W),
  uncaught (hp_merge_x e ord s o) = hp_merge e ord s o.
Proof.
  intros V W e ord s o. unfold hp_merge_x, hp_merge. destruct (negb _); [reflexivity|].
  rewrite uncaught_do, uncaught_as_unit. destruct (is_sparse o).
  - destruct (is_sparse s) eqn:Es.
    + rewrite pend_for, pend_for_each. cbn [bind]. unfold then_do at 1; cbn [fst snd].
      destruct (pend_dif V e (hp_sparse o) (set_tmpset s (fold_left hset_insert (ord (hp_tmpset o)) (hp_tmpset s))))
        as (t & m & E1 & _ & _ & E2).
      cbn [set_tmpset hp_tmpset] in E2. rewrite E1, E2. unfold then_do; cbn [fst snd].
      destruct m as [[]| |]; cbn [bind fst snd]; try reflexivity.
      change (set_tmpset (set_tmpset s (fold_left hset_insert (ord (hp_tmpset o)) (hp_tmpset s))) t) with (set_tmpset s t).
      rewrite flush_same. destruct (flush_if_full e ord (set_tmpset s t)); reflexivity.
    + unfold is_sparse in Es. destruct (hp_registers s) as [r|] eqn:Er; [|discriminate]. cbn [unwrap bind].
      rewrite uncaught_unit_do, uncaught_as_unit.
      rewrite (on_registers_same V s r _ (for_each (ord (hp_tmpset o)) (absorb_code e (hp_precision o)) r)); auto.
      2:{ apply for_same. intros. apply absorb_same. }
      destruct (for_each _ _ r) as [r1| |]; cbn [bind]; try reflexivity.
      rewrite (on_registers_same V (set_registers s (Some r1)) r1 _ (dif_for e (hp_sparse o) (absorb_code e (hp_precision o)) r1)); auto.
      2:{ apply dif_for_same. intros. apply absorb_same. }
      destruct (dif_for _ _ _ r1) as [r2| |]; reflexivity.
  - rewrite uncaught_unit_do, uncaught_as_unit.
    match goal with |- context [uncaught_unit (if ?b then ?x else ?y)] =>
      assert (X : uncaught_unit (if b then x else y) =
        if is_sparse s then let* s1 := merge_sparse e ord s in
          if is_sparse s1 then sparse_to_normal e s1 else Ret s1 else Ret s) end.
    { destruct (is_sparse s); [|reflexivity].
      rewrite uncaught_unit_do, uncaught_as_unit, merge_sparse_same.
      destruct (merge_sparse e ord s) as [s1| |]; cbn [bind]; try reflexivity.
      destruct (is_sparse s1); [apply sparse_to_normal_same|reflexivity]. }
    rewrite X. clear X. match goal with |- context [bind (if is_sparse s then ?a else ?b) _] =>
      destruct (if is_sparse s then a else b) as [s1| |] end;
      cbn [bind]; try reflexivity.
    rewrite uncaught_unit_do, uncaught_pure.
    destruct (hp_registers s1) as [r|] eqn:Er; cbn [unwrap bind]; [|reflexivity].
    rewrite uncaught_unit_do, uncaught_pure. destruct (unwrap (registers_iter o)) as [l| |]; cbn [bind]; try reflexivity.
    rewrite (on_registers_same V s1 r _ (for_each_enum 0 l (fun r i val => set_greater e SIZE_PLUS r i val) r)); auto.
    2:{ apply for_enum_same. intros. apply set_greater_same. }
    destruct (for_each_enum _ _ _ r); reflexivity.
Qed.

Theorem hp_count_same : forall (V : Type) e ord (s : plus V),
  uncaught (hp_count_x e ord s) = hp_count e ord s.
Proof.
  intros V e ord s. unfold hp_count_x, hp_count. rewrite uncaught_do, uncaught_as_unit.
  assert (X : uncaught_unit (if is_sparse s then merge_sparse_x e ord s else (s, Ret tt)) =
              if is_sparse s then merge_sparse e ord s else Ret s).
  { destruct (is_sparse s); [apply merge_sparse_same|reflexivity]. }
  rewrite X. clear X.
  match goal with |- context [bind (if is_sparse s then ?a else ?b) _] =>
      destruct (if is_sparse s then a else b) as [s1| |] end; cbn [bind]; try reflexivity.
  unfold hp_value_x. destruct (hp_registers s1) as [r|].
  - cbv zeta. destruct (negb _).
    + chase. destruct (fle _ _); [reflexivity|]. rewrite uncaught_pure. reflexivity.
    + rewrite uncaught_pure. reflexivity.
  - chase.
Qed.

(** ** What is left when a call does not return *)
Lemma stopped_unit : forall (S : Type) (u : exit S unit), stopped u \/ snd u = Ret tt.
Proof. intros S [s [[]| |]]; auto; left; intros a; discriminate. Qed.

Lemma stopped_do : forall (S A B : Type) (u : exit S A) (k : S -> A -> exit S B), stopped (then_do u k) ->
  (stopped u /\ fst (then_do u k) = fst u) \/
  (exists a, snd u = Ret a /\ stopped (k (fst u) a) /\ fst (then_do u k) = fst (k (fst u) a)).
Proof.
  intros S A B [s [a| |]] k X; unfold then_do in *; cbn [fst snd] in *.
  - right. eauto.
  - left. split; auto. intros a. discriminate.
  - left. split; auto. intros a. discriminate.
Qed.

Lemma stopped_pure : forall (S A B : Type) (s : S) (m : M A) (k : S -> A -> exit S B),
  stopped (then_do (pure s m) k) ->
  fst (then_do (pure s m) k) = s \/
  (exists a, m = Ret a /\ stopped (k s a) /\ fst (then_do (pure s m) k) = fst (k s a)).
Proof.
  intros S A B s m k X. destruct (stopped_do _ _ _ _ _ X) as [(_ & E)|(a & E & Y & F)]; [auto|].
  right. exists a. auto.
Qed.

Lemma pf_set_self : forall (V : Type) (s : pf V), pf_set_registers s (pf_registers s) = s.
Proof. intros V []. reflexivity. Qed.

Ltac walk X := repeat (match type of X with stopped (then_do (pure _ _) _) =>
  let a := fresh "a" in let E := fresh "E" in let Y := fresh "Y" in let F := fresh "F" in
  apply stopped_pure in X; destruct X as [X|(a & E & Y & F)];
  [|rewrite F; clear F; rename Y into X] end).

Theorem pf_insert_stopped : forall (V : Type) e (s : pf V) m,
  stopped (pf_insert_x e s m) -> fst (pf_insert_x e s m) = s.
Proof.
  intros V e s m X. unfold pf_insert_x in *. cbv zeta in *. walk X; auto.
  unfold field in *. cbn [fst]. rewrite set_greater_stopped; [apply pf_set_self|exact X].
Qed.

Lemma for_enum_stopped : forall (A S : Type) (bx : S -> N -> A -> exit S unit) (b : S -> N -> A -> M S),
  (forall s i x, uncaught_unit (bx s i x) = b s i x) ->
  (forall s i x, stopped (bx s i x) -> fst (bx s i x) = s) ->
  forall l i s, exists k, for_each_enum i (firstn k l) b s = Ret (fst (for_enum_x i l bx s)).
Proof.
  intros A S bx b Hb Hs l. induction l as [|x l IH]; intros i s.
  - exists 0%nat. reflexivity.
  - cbn [for_enum_x]. unfold then_do. pose proof (Hb s i x) as E. pose proof (Hs s i x) as Fs. unfold uncaught_unit in E.
    destruct (snd (bx s i x)) as [[]| |] eqn:Ex; cbn [fst].
    + destruct (IH (i + 1) (fst (bx s i x))) as [k Hk]. exists (Datatypes.S k).
      cbn [firstn for_each_enum]. rewrite <- E. exact Hk.
    + exists 0%nat. cbn. rewrite Fs; auto. intros a. rewrite Ex. discriminate.
    + exists 0%nat. cbn. rewrite Fs; auto. intros a. rewrite Ex. discriminate.
Qed.

Lemma for_stopped : forall (A S : Type) (bx : S -> A -> exit S unit) (b : S -> A -> M S),
  (forall s x, uncaught_unit (bx s x) = b s x) ->
  (forall s x, stopped (bx s x) -> fst (bx s x) = s) ->
  forall l s, exists k, for_each (firstn k l) b s = Ret (fst (for_x l bx s)) /\
    (snd (for_x l bx s) = Ret tt -> firstn k l = l).
Proof.
  intros A S bx b Hb Hs l. induction l as [|x l IH]; intros s.
  - exists 0%nat. split; reflexivity.
  - cbn [for_x]. unfold then_do. pose proof (Hb s x) as E. pose proof (Hs s x) as Fs. unfold uncaught_unit in E.
    destruct (snd (bx s x)) as [[]| |] eqn:Ex; cbn [fst snd].
    + destruct (IH (fst (bx s x))) as (k & Hk & Hl). exists (Datatypes.S k).
      cbn [firstn for_each]. rewrite <- E. split; [exact Hk|]. intros R. now rewrite (Hl R).
    + exists 0%nat. cbn. rewrite Fs; [split; [auto|discriminate]|]. intros a. rewrite Ex. discriminate.
    + exists 0%nat. cbn. rewrite Fs; [split; [auto|discriminate]|]. intros a. rewrite Ex. discriminate.
Qed.

Lemma dif_for_stopped : forall (S : Type) e d (bx : S -> N -> exit S unit) (b : S -> N -> M S),
  (forall s x, uncaught_unit (bx s x) = b s x) ->
  (forall s x, stopped (bx s x) -> fst (bx s x) = s) ->
  forall s, exists l, reads e (dif_into_iter d) l /\ for_each l b s = Ret (fst (dif_for_x e d bx s)).
Proof.
  intros S e d bx b Hb Hs s. unfold dif_for_x. generalize (dif_into_iter d). revert s.
  induction (Datatypes.S (length (d_buf d))) as [|n IH]; intros s it.
  - exists []. split; [constructor|reflexivity].
  - cbn [dif_loop_x]. unfold then_do, pure; cbn [fst snd].
    destruct (dif_next e it) as [[[c|] it']| |] eqn:En; cbn [fst snd];
      try (exists []; split; [constructor|reflexivity]).
    pose proof (Hb s c) as E. pose proof (Hs s c) as Fs. unfold uncaught_unit in E.
    destruct (snd (bx s c)) as [[]| |] eqn:Ex; cbn [fst].
    + destruct (IH (fst (bx s c)) it') as (l & R & Hl). exists (c :: l). split; [econstructor; eauto|].
      cbn [for_each]. rewrite <- E. exact Hl.
    + exists []. split; [constructor|]. cbn. rewrite Fs; auto. intros a. rewrite Ex. discriminate.
    + exists []. split; [constructor|]. cbn. rewrite Fs; auto. intros a. rewrite Ex. discriminate.
Qed.

Theorem pf_merge_stopped : forall (V W : Type) e (s : pf V) (o : pf W),
  exists k r, for_each_enum 0 (firstn k (reg_iter SIZE_PF (pf_registers o)))
      (fun r i val => set_greater e SIZE_PF r i val) (pf_registers s) = Ret r /\
    fst (pf_merge_x e s o) = pf_set_registers s r.
Proof.
  intros V W e s o. unfold pf_merge_x. destruct (negb _).
  - exists 0%nat, (pf_registers s). split; [reflexivity|]. cbn. now rewrite pf_set_self.
  - destruct (for_enum_stopped N registers _ (fun r i val => set_greater e SIZE_PF r i val)
      (fun s i x => set_greater_same e SIZE_PF s i x) (fun s i x => set_greater_stopped e SIZE_PF s i x)
      (reg_iter SIZE_PF (pf_registers o)) 0 (pf_registers s)) as [k Hk].
    exists k. eexists. split; [exact Hk|]. unfold then_do, field; cbn [fst snd].
    destruct (snd (for_enum_x _ _ _ _)); reflexivity.
Qed.

Lemma sparse_to_normal_stopped : forall (V : Type) e (s : plus V),
  stopped (sparse_to_normal_x e s) -> fst (sparse_to_normal_x e s) = s.
Proof.
  intros V e s X. unfold sparse_to_normal_x in *. walk X; auto.
  exfalso. now apply (X tt).
Qed.

Lemma merge_sparse_stopped : forall (V : Type) e ord (s : plus V),
  stopped (merge_sparse_x e ord s) -> flush_stopped s (fst (merge_sparse_x e ord s)).
Proof.
  intros V e ord s X. unfold merge_sparse_x in *. cbv zeta in *. destruct (set_next _) as [so si].
  apply stopped_pure in X. destruct X as [X|([bo bi] & E & X & F)]; [left; exact X|]. rewrite F. clear F.
  walk X; [left; exact X|].
  match goal with |- context [if ?c then _ else _] => destruct c eqn:L end.
  - rewrite sparse_to_normal_stopped by exact X. right. apply N.ltb_lt in L. repeat split; auto.
  - exfalso. now apply (X tt).
Qed.

Lemma flush_if_stopped : forall (V : Type) e ord (s : plus V),
  stopped (flush_if_full_x e ord s) -> flush_stopped s (fst (flush_if_full_x e ord s)).
Proof.
  intros V e ord s X. unfold flush_if_full_x in *. walk X; [left; exact X|].
  destruct (_ <? _); [now apply merge_sparse_stopped|]. left. reflexivity.
Qed.

Theorem hp_insert_stopped : forall (V : Type) e ord (s : plus V) m,
  stopped (hp_insert_x e ord s m) ->
  fst (hp_insert_x e ord s m) = s \/
  (hp_registers s = None /\ exists h c, m = Ret h /\ encode_hash e (hp_precision s) (cast 64 h) = Ret c /\
     flush_stopped (set_tmpset s (hset_insert (hp_tmpset s) c)) (fst (hp_insert_x e ord s m))).
Proof.
  intros V e ord s m X. unfold hp_insert_x in *. cbv zeta in *. apply stopped_pure in X.
  destruct X as [X|(h & E & X & F)]; [auto|]. rewrite F. clear F.
  destruct (hp_registers s) as [r|] eqn:Er.
  - left. walk X; auto. unfold field in *. cbn [fst].
    rewrite set_greater_stopped; [now apply set_registers_self|exact X].
  - walk X; auto. right. split; auto. exists h, a. repeat split; auto. now apply flush_if_stopped.
Qed.

Theorem hp_count_stopped : forall (V : Type) e ord (s : plus V),
  stopped (hp_count_x e ord s) ->
  fst (hp_count_x e ord s) = s \/
  (hp_registers s = None /\
   (flush_stopped s (fst (hp_count_x e ord s)) \/ merge_sparse e ord s = Ret (fst (hp_count_x e ord s)))).
Proof.
  intros V e ord s X. unfold hp_count_x in *. apply stopped_do in X.
  assert (T : forall s1 : plus V, stopped (hp_value_x e s1) -> fst (hp_value_x e s1) = s1).
  { intros s1 Y. unfold hp_value_x in *. cbv zeta in *. destruct (hp_registers s1) as [r|].
    - destruct (negb _); [|reflexivity]. walk Y; auto. destruct (fle _ _); reflexivity.
    - walk Y; auto. }
  destruct X as [(X & F)|(a & E & X & F)]; rewrite F; clear F.
  - unfold is_sparse in *. destruct (hp_registers s); [left; reflexivity|].
    right. split; auto. left. now apply merge_sparse_stopped.
  - rewrite (T _ X). unfold is_sparse in *. destruct (hp_registers s); [left; reflexivity|].
    right. split; auto. right. rewrite <- merge_sparse_same. unfold uncaught_unit. now rewrite E.
Qed.

Theorem hp_merge_stopped : forall (V W : Type) e ord (s : plus V) (o : plus W),
  stopped (hp_merge_x e ord s o) ->
  match hp_registers o, hp_registers s with
  | None, None =>
      exists t, incl (hp_tmpset s) t /\ flush_stopped (set_tmpset s t) (fst (hp_merge_x e ord s o))
  | None, Some r =>
      exists k l r', reads e (dif_into_iter (hp_sparse o)) l /\
        for_each (firstn k (ord (hp_tmpset o)) ++ l) (absorb_code e (hp_precision o)) r = Ret r' /\
        fst (hp_merge_x e ord s o) = set_registers s (Some r')
  | Some ro, None =>
      flush_stopped s (fst (hp_merge_x e ord s o)) \/
      exists s1, merge_sparse e ord s = Ret s1 /\
        (fst (hp_merge_x e ord s o) = s1 \/
         exists s2 r k r', (s2 = s1 \/ sparse_to_normal e s1 = Ret s2) /\ hp_registers s2 = Some r /\
           for_each_enum 0 (firstn k (reg_iter SIZE_PLUS ro)) (fun r i v => set_greater e SIZE_PLUS r i v) r = Ret r' /\
           fst (hp_merge_x e ord s o) = set_registers s2 (Some r'))
  | Some ro, Some r =>
      exists k r',
        for_each_enum 0 (firstn k (reg_iter SIZE_PLUS ro)) (fun r i v => set_greater e SIZE_PLUS r i v) r = Ret r' /\
        fst (hp_merge_x e ord s o) = set_registers s (Some r')
  end.
Proof.
  intros V W e ord s o X. unfold hp_merge_x in *. destruct (negb _).
  { exfalso. now apply (X (RErr IncompatiblePrecision)). }
  apply stopped_do in X. destruct X as [(X & F)|(a & E & X & F)]; [|now destruct (X (ROk tt))].
  rewrite F. clear F.
  assert (Io : is_sparse o = match hp_registers o with None => true | Some _ => false end) by reflexivity.
  assert (Is : is_sparse s = match hp_registers s with None => true | Some _ => false end) by reflexivity.
  rewrite Io in X |- *. rewrite Is in X |- *. clear Io Is.
  destruct (hp_registers o) as [ro|] eqn:Ero.
  - assert (LAST : forall (s2 : plus V) r, hp_registers s2 = Some r ->
      stopped (do s, _ := pure s2 (unwrap (hp_registers s2)) in
        do s, others := pure s (unwrap (registers_iter o)) in
        on_registers s (for_enum_x 0 others (fun r i val => set_greater_x e SIZE_PLUS r i val))) ->
      exists k r',
        for_each_enum 0 (firstn k (reg_iter SIZE_PLUS ro)) (fun r i v => set_greater e SIZE_PLUS r i v) r = Ret r' /\
        fst (do s, _ := pure s2 (unwrap (hp_registers s2)) in
        do s, others := pure s (unwrap (registers_iter o)) in
        on_registers s (for_enum_x 0 others (fun r i val => set_greater_x e SIZE_PLUS r i val)))
        = set_registers s2 (Some r')).
    { intros s2 r Er Y. unfold registers_iter in *. rewrite Ero, Er in *. cbn [unwrap] in *.
      unfold then_do, pure in *; cbn [fst snd] in *. unfold on_registers in *. rewrite Er in *.
      destruct (for_enum_stopped N registers _ (fun r i val => set_greater e SIZE_PLUS r i val)
        (fun s i x => set_greater_same e SIZE_PLUS s i x) (fun s i x => set_greater_stopped e SIZE_PLUS s i x)
        (reg_iter SIZE_PLUS ro) 0 r) as [k Hk].
      exists k. eexists. split; [exact Hk|]. reflexivity. }
    destruct (hp_registers s) as [r|] eqn:Ers.
    + apply (LAST s r Ers X).
    + apply stopped_do in X. destruct X as [(X & F)|(a & E & X & F)]; rewrite F; clear F.
      * apply stopped_do in X. destruct X as [(X & F)|(a & E & X & F)]; rewrite F; clear F.
        -- left. now apply merge_sparse_stopped.
        -- right. exists (fst (merge_sparse_x e ord s)).
           split; [rewrite <- merge_sparse_same; unfold uncaught_unit; now rewrite E|]. left.
           destruct (is_sparse _); [now apply sparse_to_normal_stopped|reflexivity].
      * right. match type of E with snd ?u0 = _ => set (u := u0) in * end.
        assert (Q : exists s1, merge_sparse e ord s = Ret s1 /\
          (fst u = s1 \/ sparse_to_normal e s1 = Ret (fst u)) /\ exists r, hp_registers (fst u) = Some r).
        { clear X. unfold u in E |- *. unfold then_do in E |- *.
          pose proof (merge_sparse_same V e ord s) as M1. unfold uncaught_unit in M1.
          destruct (snd (merge_sparse_x e ord s)) as [[]| |] eqn:E1; try discriminate.
          exists (fst (merge_sparse_x e ord s)). split; [auto|]. set (s1 := fst (merge_sparse_x e ord s)) in *.
          destruct (is_sparse s1) eqn:Es1.
          - pose proof (sparse_to_normal_same V e s1) as M2. unfold uncaught_unit in M2. rewrite E in M2.
            split; [auto|]. symmetry in M2. unfold sparse_to_normal in M2. apply bind_inv in M2.
            destruct M2 as (r0 & _ & M2). apply bind_inv in M2. destruct M2 as (r & _ & M2).
            injection M2 as M2. rewrite <- M2. cbn. eauto.
          - cbn [fst]. split; [auto|]. unfold is_sparse in Es1. destruct (hp_registers s1) as [r|]; [eauto|discriminate]. }
        clearbody u. destruct Q as (s1 & Q1 & Q2 & r & Er). exists s1. split; [auto|]. right.
        destruct (LAST (fst u) r Er X) as (k & r' & L1 & L2). exists (fst u), r, k, r'. auto.
  - destruct (hp_registers s) as [r|] eqn:Ers.
    + unfold on_registers at 1 in X. unfold on_registers at 1. rewrite Ers in *.
      destruct (for_stopped N registers _ (absorb_code e (hp_precision o)) (absorb_same e (hp_precision o))
        (absorb_stopped e (hp_precision o)) (ord (hp_tmpset o)) r) as (k & Hk & _).
      unfold then_do at 1 in X. unfold then_do at 1. unfold field in X at 1 |- * at 1. cbn [fst snd] in *.
      set (u := for_x (ord (hp_tmpset o)) (absorb_x e (hp_precision o)) r) in *.
      destruct (dif_for_stopped registers e (hp_sparse o) _ (absorb_code e (hp_precision o)) (absorb_same e (hp_precision o))
        (absorb_stopped e (hp_precision o)) (fst u)) as (l & Rl & Hl).
      destruct (snd u) as [[]| |] eqn:Eu; cbn [fst snd] in *.
      * exists k, l. eexists. split; [exact Rl|].
        assert (FA : forall l1 l2 r, for_each (l1 ++ l2) (absorb_code e (hp_precision o)) r =
          let* r' := for_each l1 (absorb_code e (hp_precision o)) r in for_each l2 (absorb_code e (hp_precision o)) r').
        { clear. intros l1 l2. induction l1 as [|x l1 IH]; intros r; cbn [app for_each]; [reflexivity|].
          destruct (absorb_code e (hp_precision o) r x) as [y| |]; [|reflexivity|reflexivity]. exact (IH y). }
        rewrite FA, Hk, bind_ret, Hl. split; [reflexivity|]. unfold on_registers. cbn [set_registers hp_registers].
        reflexivity.
      * exists k, []. eexists. split; [constructor|]. rewrite app_nil_r. split; [exact Hk|reflexivity].
      * exists k, []. eexists. split; [constructor|]. rewrite app_nil_r. split; [exact Hk|reflexivity].
    + rewrite pend_for in *. unfold then_do at 1 in X. unfold then_do at 1. cbn [fst snd] in *.
      set (s1 := set_tmpset s _) in *.
      assert (I1 : incl (hp_tmpset s) (hp_tmpset s1)).
      { clear X. unfold s1. clear s1. cbn [set_tmpset hp_tmpset]. generalize (hp_tmpset s). generalize (ord (hp_tmpset o)).
        intros l0. induction l0 as [|c l IH]; intros t; cbn [fold_left]; [apply incl_refl|].
        eapply incl_tran; [|apply IH]. intros x Hx. unfold hset_insert.
        destruct (existsb _ _); [auto|]. now right. }
      destruct (pend_dif V e (hp_sparse o) s1) as (t & m & E1 & I & _ & _). rewrite E1 in *.
      exists t. split; [eapply incl_tran; eauto|]. unfold then_do in *. cbn [fst snd] in *.
      change (set_tmpset s1 t) with (set_tmpset s t) in *.
      destruct m as [[]| |]; cbn [fst snd] in *; [now apply flush_if_stopped|left; reflexivity|left; reflexivity].
Qed.
