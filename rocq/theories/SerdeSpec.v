(** * Deserialization meets its specification *)
From Coq Require Import NArith List Bool String Lia.
From Verif Require Import ModelRust ModelEnv ModelEncoding ModelRegisters ModelPF ModelPlus ModelSerde SpecSerde RustFacts.
Import ListNotations.
Local Open Scope N_scope.

Lemma bind_some : forall (A B : Type) (o : option A) (k : A -> option B) b,
  obind o k = Some b <-> exists a, o = Some a /\ k a = Some b.
Proof.
  intros A B [a|] k b; cbn; split.
  - intros H. now exists a.
  - intros (a' & [= <-] & H). exact H.
  - discriminate.
  - now intros (a & H & _).
Qed.

Lemma uint_spec : forall w v n, de_uint w v = Some n <-> reads_uint w v n.
Proof.
  intros w v n. split.
  - destruct v; try discriminate. cbn. destruct (N.ltb_spec n0 (2 ^ w)); [|discriminate]. intros [= <-]. now constructor.
  - intros [m H]. cbn. apply N.ltb_lt in H. now rewrite H.
Qed.

Lemma list_spec : forall w l ns, de_list (de_uint w) l = Some ns <-> Forall2 (reads_uint w) l ns.
Proof.
  intros w l. induction l as [|v l IH]; intros ns; cbn [de_list].
  - split; [intros [= <-]; constructor|]. intros H. now inversion H.
  - rewrite bind_some. split.
    + intros (a & Ha & H). apply bind_some in H. destruct H as (r & Hr & [= <-]).
      constructor; [now apply uint_spec|now apply IH].
    + intros H. inversion H as [|? n ? ns' H1 H2]; subst. exists n. split; [now apply uint_spec|].
      apply bind_some. exists ns'. split; [now apply IH|reflexivity].
Qed.

Lemma seq_spec : forall w v ns, de_seq (de_uint w) v = Some ns <-> reads_list w v ns.
Proof.
  intros w v ns. split.
  - intros H. destruct v; try discriminate; cbn in H; apply list_spec in H; eexists; (split; [constructor|exact H]).
  - intros (vs & E & H). apply list_spec in H. destruct E; exact H.
Qed.

Lemma filter_none : forall (name : string) (fs : list (string * sval)),
  filter (fun f => String.eqb (fst f) name) fs = [] <-> forall x, ~ In (name, x) fs.
Proof.
  intros name fs. induction fs as [|[n v] fs IH]; cbn [filter fst]; [split; auto|].
  destruct (String.eqb_spec n name) as [->|D].
  - split; [discriminate|]. intros H. now destruct (H v (or_introl eq_refl)).
  - rewrite IH. split; intros H x; specialize (H x).
    + intros [[= E _]|K]; auto.
    + intros K. apply H. now right.
Qed.

Lemma filter_one : forall (name : string) (fs : list (string * sval)) f,
  filter (fun f => String.eqb (fst f) name) fs = [f] ->
  exists l r, fs = l ++ (name, snd f) :: r /\ forall x, ~ In (name, x) (l ++ r).
Proof.
  intros name fs f. induction fs as [|[n v] fs IH]; cbn [filter fst]; [discriminate|].
  destruct (String.eqb_spec n name) as [->|D].
  - intros [= <- H]. exists [], fs. split; [reflexivity|]. now apply filter_none.
  - intros H. destruct (IH H) as (l & r & -> & N0). exists ((n, v) :: l), r. split; [reflexivity|].
    intros x [[= E _]|K]; [congruence|]. now apply (N0 x).
Qed.

Lemma filter_mid : forall (name : string) l w r, (forall x, ~ In (name, x) (l ++ r)) ->
  filter (fun f : string * sval => String.eqb (fst f) name) (l ++ (name, w) :: r) = [(name, w)].
Proof.
  intros name l w r H. rewrite filter_app. cbn [filter fst]. rewrite String.eqb_refl.
  replace (filter (fun f : string * sval => String.eqb (fst f) name) l) with (@nil (string * sval)).
  - cbn [app]. f_equal. apply filter_none. intros x K. apply (H x), in_or_app. now right.
  - symmetry. apply filter_none. intros x K. apply (H x), in_or_app. now left.
Qed.

Lemma field_spec : forall i name v w, field i name v = Some w <-> has_field i name v w.
Proof.
  intros i name v w. split.
  - destruct v; try discriminate; cbn [field]; intros H.
    + apply (ByPosition i name _ l); [constructor|exact H].
    + apply (ByPosition i name _ l); [constructor|exact H].
    + destruct (filter _ fields) as [|f [|g fs]] eqn:E; try discriminate. injection H as <-.
      apply filter_one in E. destruct E as (l & r & -> & N0). now constructor.
  - intros [l w' r H|v' vs w' E H].
    + cbn [field]. now rewrite filter_mid.
    + destruct E; exact H.
Qed.

Lemma unit_spec : forall v u, de_unit v = Some u <-> v = SUnit.
Proof. intros v []. split; [destruct v; try discriminate; reflexivity|now intros ->]. Qed.

Lemma registers_spec : forall e v r, de_registers e v = Some r <-> reads_registers (usize_bits e) v r.
Proof.
  intros e v r. unfold de_registers, reads_registers. split.
  - intros H. repeat (apply bind_some in H; destruct H as (? & ? & H)). injection H as <-. cbn [r_buf r_count r_zeros].
    do 3 eexists. rewrite <- !field_spec, <- seq_spec, <- !uint_spec. repeat split; eassumption.
  - intros (b & c & z & H). rewrite <- !field_spec, <- seq_spec, <- !uint_spec in H. destruct H as (-> & -> & -> & A & B & C).
    cbn [obind]. rewrite A. cbn [obind]. rewrite B. cbn [obind]. rewrite C. cbn [obind]. now destruct r.
Qed.

Lemma dif_spec : forall e v d, de_dif e v = Some d <-> reads_dif (usize_bits e) v d.
Proof.
  intros e v d. unfold de_dif, reads_dif. split.
  - intros H. repeat (apply bind_some in H; destruct H as (? & ? & H)). injection H as <-. cbn [d_buf d_count d_last].
    match goal with X : de_varint ?b = _ |- _ => destruct b; try discriminate X; cbn [de_varint] in X end.
    do 3 eexists. rewrite <- !field_spec, <- seq_spec, <- !uint_spec. repeat split; eassumption.
  - intros (c & l & b & H). rewrite <- !field_spec, <- seq_spec, <- !uint_spec in H. destruct H as (-> & -> & -> & A & B & C).
    cbn [obind de_varint]. rewrite A. cbn [obind]. rewrite B. cbn [obind]. rewrite C. cbn [obind]. now destruct d.
Qed.

Lemma pf_spec : forall (V : Type) e de_b v (s : pf V), de_pf e de_b v = Some s <-> reads_pf (usize_bits e) de_b v s.
Proof.
  intros V e de_b v s. unfold de_pf, reads_pf. split.
  - intros H. repeat (apply bind_some in H; destruct H as (? & ? & H)). injection H as <-.
    cbn [pf_builder pf_count pf_precision pf_registers].
    match goal with X : de_unit _ = Some _ |- _ => apply unit_spec in X; subst end.
    do 4 eexists. rewrite <- !field_spec, <- registers_spec, <- !uint_spec. repeat split; eassumption.
  - intros (b & c & p & r & H). rewrite <- !field_spec, <- registers_spec, <- !uint_spec in H.
    destruct H as (-> & -> & -> & -> & -> & A & B & C & D).
    cbn [obind]. rewrite A. cbn [obind]. rewrite B. cbn [obind]. rewrite C. cbn [obind]. rewrite D. cbn [obind de_unit].
    now destruct s.
Qed.

Lemma triple_spec : forall e v a b c, de_triple e v = Some (a, b, c) <-> reads_list (usize_bits e) v [a; b; c].
Proof.
  intros e v a b c. rewrite <- seq_spec. unfold de_triple, de_seq.
  assert (W : forall l, match l with
    | [x; y; z] => obind (de_uint (usize_bits e) x) (fun a => obind (de_uint (usize_bits e) y) (fun b =>
        obind (de_uint (usize_bits e) z) (fun c => Some (a, b, c))))
    | _ => None end = Some (a, b, c) <-> de_list (de_uint (usize_bits e)) l = Some [a; b; c]).
  { intros l. rewrite list_spec. split.
    - destruct l as [|x [|y [|z [|]]]]; try discriminate. intros H.
      repeat (apply bind_some in H; destruct H as (? & ? & H)). injection H as -> -> ->.
      repeat constructor; now apply uint_spec.
    - intros H. inversion H as [|x ? l1 ? H1 K1]; subst. inversion K1 as [|y ? l2 ? H2 K2]; subst.
      inversion K2 as [|z ? l3 ? H3 K3]; subst. inversion K3; subst.
      apply uint_spec in H1, H2, H3. rewrite H1, H2, H3. reflexivity. }
  destruct v; try (split; discriminate); apply W.
Qed.

Lemma option_spec : forall e v o,
  obind (field_opt 5 "registers" v) (de_option (de_registers e)) = Some o <-> reads_option (usize_bits e) v o.
Proof.
  intros e v o. rewrite bind_some. split.
  - intros (x & Hx & Ho).
    assert (C : lacks "registers" v /\ x = SNone \/ has_field 5 "registers" v x).
    { destruct v; cbn [field_opt] in Hx; try discriminate Hx; try (right; now apply field_spec).
      destruct (filter _ fields) as [|f [|g fs]] eqn:E; try discriminate.
      - left. split; [|congruence]. exists fields. split; [reflexivity|]. now apply filter_none.
      - right. apply field_spec. cbn [field]. now rewrite E. }
    destruct C as [[L ->]|C].
    + injection Ho as <-. now apply Missing.
    + destruct x; try discriminate Ho; cbn [de_option] in Ho.
      * injection Ho as <-. now apply IsNone.
      * apply bind_some in Ho. destruct Ho as (r & Hr & [= <-]). eapply IsSome; eauto. now apply registers_spec.
      * injection Ho as <-. now apply IsUnit.
  - assert (F : forall x, has_field 5 "registers" v x -> field_opt 5 "registers" v = Some x).
    { intros x H. apply field_spec in H. destruct v; cbn [field_opt]; try exact H. cbn [field] in H.
      destruct (filter _ fields) as [|f [|g fs]]; try discriminate. exact H. }
    intros [L|H|H|x r H R].
    + destruct L as (fs & -> & L). exists SNone. split; [|reflexivity]. cbn [field_opt]. apply filter_none in L. now rewrite L.
    + exists SNone. split; [auto|reflexivity].
    + exists SUnit. split; [auto|reflexivity].
    + exists (SSome x). split; [auto|]. cbn [de_option]. apply registers_spec in R. now rewrite R.
Qed.

Lemma fold_set : forall l T, NoDup T -> NoDup (fold_left hset_insert l T) /\
  forall x, In x (fold_left hset_insert l T) <-> In x T \/ In x l.
Proof.
  intros l. induction l as [|c l IH]; intros T HT; cbn [fold_left]; [split; [exact HT|intros x; cbn; tauto]|].
  destruct (hset_spec T c HT) as (D & I & _). destruct (IH _ D) as [D' I']. split; [exact D'|].
  intros x. rewrite I', I. cbn [In]. split; intuition.
Qed.

Lemma plus_spec : forall (V : Type) e de_b v (s : plus V), de_plus e de_b v = Some s -> reads_plus (usize_bits e) de_b v s.
Proof.
  intros V e de_b v s H. unfold de_plus in H.
  repeat (apply bind_some in H; destruct H as (? & ? & H)).
  match type of H with context [let (_, _) := ?x in _] => destruct x as [[? ?] ?] end.
  repeat (apply bind_some in H; destruct H as (? & ? & H)). injection H as <-. unfold reads_plus.
  cbn [hp_builder hp_precision hp_counts0 hp_counts1 hp_counts2 hp_tmpset hp_sparse hp_registers].
  match goal with X : de_unit _ = Some _ |- _ => apply unit_spec in X; subst end.
  do 6 eexists. rewrite <- !field_spec, <- triple_spec, <- seq_spec, <- dif_spec, <- option_spec, <- uint_spec.
  match goal with |- context [fold_left hset_insert ?t []] => destruct (fold_set t [] (NoDup_nil _)) as [D I] end.
  do 9 (split; [eassumption|]). split; [eassumption|]. split; [exact D|].
  split; [intros z; rewrite I; cbn [In]; tauto|]. split; [eassumption|]. apply bind_some. eauto.
Qed.

Lemma plus_complete : forall (V : Type) e de_b v (s : plus V), reads_plus (usize_bits e) de_b v s ->
  exists t, NoDup t /\ (forall x, In x t <-> In x (hp_tmpset s)) /\
  de_plus e de_b v = Some {| hp_builder := hp_builder s; hp_precision := hp_precision s; hp_counts0 := hp_counts0 s;
    hp_counts1 := hp_counts1 s; hp_counts2 := hp_counts2 s; hp_tmpset := t; hp_sparse := hp_sparse s;
    hp_registers := hp_registers s |}.
Proof.
  intros V e de_b v s (b & p & c & t & d & l & H).
  rewrite <- !field_spec, <- triple_spec, <- seq_spec, <- dif_spec, <- option_spec, <- uint_spec in H.
  destruct H as (F0 & F1 & F2 & F3 & F4 & F6 & B & P & C & T & D & I & S & O).
  destruct (fold_set l [] (NoDup_nil _)) as [D' I']. exists (fold_left hset_insert l []).
  split; [exact D'|]. split; [intros x; rewrite I', I; cbn [In]; tauto|].
  unfold de_plus. rewrite F0, F1, F2, F3, F4, F6. cbn [obind]. rewrite B. cbn [obind]. rewrite P. cbn [obind].
  rewrite C. cbn [obind]. rewrite T. cbn [obind]. rewrite S. cbn [obind].
  apply bind_some in O. destruct O as (x & -> & O). cbn [obind]. rewrite O. reflexivity.
Qed.

(** ** Data for the examples *)
Local Open Scope string_scope.
Definition idle_builder (v : sval) : option (N -> N) := match v with SUnit => Some (fun x => x) | _ => None end.

(** Fields in another order with one that is not known; the count as large as the width allows. *)
Definition named_data (n : N) : sval :=
  SStruct [("phantom", SUnit); ("registers", SStruct [("zeros", SInt 3); ("buf", STuple [SInt 7]); ("count", SInt 0)]);
    ("colour", SInt 5); ("precision", SInt 255); ("count", SInt n); ("builder", SUnit)].

(** Codes twice, registers missing, a triple as a sequence, no names inside. *)
Definition mixed_data : sval :=
  SStruct [("builder", SUnit); ("counts", SSeq [SInt 1; SInt 2; SInt 3]); ("precision", SInt 9);
    ("tmpset", SSeq [SInt 4; SInt 5; SInt 4]); ("sparse", SSeq [SInt 2; SInt 8; SNewtype (SSeq [SInt 130; SInt 1])]);
    ("phantom", SUnit)].
