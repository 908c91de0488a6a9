(** * Programs that write sketches as JSON, and texts from elsewhere *)
From Coq Require Import String.
From Coq Require Import NArith Arith List Bool Lia Permutation.
From Verif Require Import ModelRust ModelEnv ModelRegisters ModelEncoding ModelPF ModelPlus ModelSerde ModelFiles ModelJson ModelHistory
  Spec SpecBuild SpecFiles SpecJson BitFacts TextFacts SerdeFacts MergeFacts PFInv PlusInv ObsFacts ClaimFacts ModelTests Witness RefuteFacts JsonGrammar JsonRead JsonFacts.
Import ListNotations.
Local Open Scope N_scope.

(** ** Writing and reading back *)
Lemma pf_written : forall (V : Type) e other ser_b (de_b : json -> option (V -> N)) (s : pf V),
  proper (json_of other (ser_b (pf_builder s))) ->
  pf_of_text e de_b (to_text other (ser_pf ser_b s)) = de_pf e (fun v => de_b (json_of other v)) (ser_pf ser_b s).
Proof.
  intros V e other ser_b de_b s P. unfold pf_of_text, to_text. rewrite parse_write by (apply proper_pf; exact P). apply jde_ser_pf.
Qed.
Lemma plus_written : forall (V : Type) e other ord ser_b (de_b : json -> option (V -> N)) (s : plus V),
  proper (json_of other (ser_b (hp_builder s))) ->
  plus_of_text e de_b (to_text other (ser_plus ord ser_b s)) = de_plus e (fun v => de_b (json_of other v)) (ser_plus ord ser_b s).
Proof.
  intros V e other ord ser_b de_b s P. unfold plus_of_text, to_text. rewrite parse_write by (apply proper_plus; exact P). apply jde_ser_plus.
Qed.

Lemma plus_json_round : forall (V : Type) e ord ord' o other ser_b (de_b : json -> option (V -> N)) (c : ctx V) h,
  let back := HSerde o ser_b (fun v => de_b (json_of other v)) h in
  build_std e -> is_order ord -> is_order ord' -> proper (json_of other (ser_b (hist_builder h))) ->
  valid MAX_PLUS (plug c back) -> valid MAX_PLUS (plug c h) -> narrow (usize_bits e) (plug c h) ->
  (exists s s', run_plus e h = Ret s /\ plus_of_text e de_b (to_text other (ser_plus o ser_b s)) = Some s' /\ run_plus e back = Ret s') /\
  exists x, count_plus e ord (plug c back) = Ret x /\ count_plus e ord' (plug c h) = Ret x.
Proof.
  intros V e ord ord' o other ser_b de_b c h back Hb Ho Ho' P Hv Hv' Hn.
  destruct (plus_serde_round V e ord ord' o ser_b _ c h Hb Ho Ho' Hv Hv' Hn) as [(s & s' & E & E') C]. split; [|exact C].
  pose proof (plug_valid_hole _ _ _ _ Hv) as (Hoo & Hh & _). pose proof (plug_narrow_hole _ _ _ _ Hn) as Hnh.
  destruct (run_plus_ok V e h Hb Hh Hnh) as (s0 & E0 & (Hd & _)). assert (s0 = s) by congruence. subst s0.
  destruct Hd as (B & _). exists s, s'. split; [exact E|]. split.
  - rewrite plus_written by (rewrite B; exact P). exact E'.
  - unfold back. cbn [run_plus]. rewrite E. cbn [bind]. rewrite E'. reflexivity.
Qed.

Lemma pf_json_round : forall (V : Type) e o other ser_b (de_b : json -> option (V -> N)) (c : ctx V) h,
  let back := HSerde o ser_b (fun v => de_b (json_of other v)) h in
  build e -> proper (json_of other (ser_b (hist_builder h))) ->
  valid MAX_PF (plug c back) -> valid MAX_PF (plug c h) -> narrow (usize_bits e) (plug c h) ->
  (exists s s', run_pf e h = Ret s /\ pf_of_text e de_b (to_text other (ser_pf ser_b s)) = Some s' /\ run_pf e back = Ret s') /\
  exists x, count_pf e (plug c back) = Ret x /\ count_pf e (plug c h) = Ret x.
Proof.
  intros V e o other ser_b de_b c h back Hb P Hv Hv' Hn.
  destruct (pf_serde_round V e o ser_b _ c h Hb Hv Hv' Hn) as [(s & s' & E & E' & _) C]. split; [|exact C].
  pose proof (plug_valid_hole _ _ _ _ Hv) as (Hoo & Hh & _). pose proof (plug_narrow_hole _ _ _ _ Hn) as Hnh.
  destruct (run_pf_ok V e h Hb Hh Hnh) as (s0 & E0 & (B & _)). assert (s0 = s) by congruence. subst s0.
  exists s, s'. split; [exact E|]. split.
  - rewrite pf_written by (rewrite B; exact P). exact E'.
  - unfold back. cbn [run_pf]. rewrite E. cbn [bind]. rewrite E'. reflexivity.
Qed.

(** Whatever hash builder is read back, the rest is the same. *)
Lemma plus_json_builder : forall (V : Type) e o other ser_b (de_b : json -> option (V -> N)) (h : hist V) b,
  build_std e -> is_order o -> valid MAX_PLUS h -> narrow (usize_bits e) h ->
  proper (json_of other (ser_b (hist_builder h))) -> de_b (json_of other (ser_b (hist_builder h))) = Some b ->
  exists s s' : plus V, run_plus e h = Ret s /\ plus_of_text e de_b (to_text other (ser_plus o ser_b s)) = Some s' /\
    hp_builder s' = b /\ hp_precision s' = hp_precision s /\ hp_counts0 s' = hp_counts0 s /\ hp_counts1 s' = hp_counts1 s /\
    hp_counts2 s' = hp_counts2 s /\ hp_sparse s' = hp_sparse s /\ hp_registers s' = hp_registers s /\
    NoDup (hp_tmpset s') /\ (forall x, In x (hp_tmpset s') <-> In x (hp_tmpset s)).
Proof.
  intros V e o other ser_b de_b h b Hb Ho Hh Hn P D.
  destruct (run_plus_ok V e h Hb Hh Hn) as (s & E & Hs). pose proof (hist_prec _ _ _ Hh) as Hp. unfold MAX_PLUS in Hp.
  pose proof Hs as (Hd & _). pose proof Hd as (B & _).
  destruct (plus_serde_ok V e o _ _ _ s ser_b (fun v => de_b (json_of other v)) b (proj1 (proj1 Hb)) Hp Ho Hs D) as (s' & E' & (Hd' & _) & _).
  exists s, s'. split; [exact E|]. split; [rewrite plus_written by (rewrite B; exact P); exact E'|]. split; [apply Hd'|].
  revert E'. unfold de_plus, ser_plus, field, field_opt.
  cbn -[de_uint de_list de_registers ser_registers de_dif ser_dif de_option fold_left hset_insert].
  intros E'. apply some_in in E'. destruct E' as (b' & _ & E'). apply some_in in E'. destruct E' as (p & Ep & E').
  apply some_in in E'. destruct E' as ([[c0 c1] c2] & Ec & E').
  apply some_in in Ec. destruct Ec as (x0 & X0 & Ec). apply some_in in Ec. destruct Ec as (x1 & X1 & Ec).
  apply some_in in Ec. destruct Ec as (x2 & X2 & Ec). injection Ec as -> -> ->.
  apply some_in in E'. destruct E' as (t & Et & E'). apply some_in in E'. destruct E' as (d & Ed & E').
  apply some_in in E'. destruct E' as (r & Er & E'). apply some_inj in E'. subst s'.
  assert (U : forall w n m, de_uint w (SInt n) = Some m -> m = n).
  { intros w n m H. cbn in H. destruct (n <? 2 ^ w); congruence. }
  assert (UL : forall w l m, de_list (de_uint w) (map SInt l) = Some m -> m = l).
  { intros w. induction l as [|n l IH]; intros m H; cbn [map de_list] in H; [congruence|].
    apply some_in in H. destruct H as (a & A & H). apply some_in in H. destruct H as (q & Q & H). injection H as <-.
    f_equal; [exact (U _ _ _ A)|exact (IH _ Q)]. }
  assert (UR : forall g m, de_registers e (ser_registers g) = Some m -> m = g).
  { intros g m H. revert H. unfold de_registers, ser_registers, field. cbn -[de_uint de_list]. intros H.
    apply some_in in H. destruct H as (a & A & H). apply some_in in H. destruct H as (q & Q & H). apply some_in in H. destruct H as (z & Z & H).
    injection H as <-. destruct g. f_equal; [exact (UL _ _ _ A)|exact (U _ _ _ Q)|exact (U _ _ _ Z)]. }
  cbn [hp_precision hp_counts0 hp_counts1 hp_counts2 hp_sparse hp_registers hp_tmpset].
  split; [exact (U _ _ _ Ep)|]. split; [exact (U _ _ _ X0)|]. split; [exact (U _ _ _ X1)|]. split; [exact (U _ _ _ X2)|].
  split.
  { revert Ed. unfold de_dif, ser_dif, field, de_varint. cbn -[de_uint de_list]. intros H.
    apply some_in in H. destruct H as (a & A & H). apply some_in in H. destruct H as (q & Q & H). apply some_in in H. destruct H as (z & Z & H).
    injection H as <-. destruct (hp_sparse s) as [sa sb sc]. cbn [d_count d_last d_buf] in *. f_equal; [exact (U _ _ _ A)|exact (U _ _ _ Q)|exact (UL _ _ _ Z)]. }
  split.
  { destruct (hp_registers s) as [g|]; [|injection Er as <-; reflexivity]. cbn [de_option] in Er. apply some_in in Er.
    destruct Er as (m & M & Er). injection Er as <-. f_equal. exact (UR _ _ M). }
  apply UL in Et. subst t. destruct (hset_inserts (o (hp_tmpset s)) [] (NoDup_nil _)) as [N I]. split; [exact N|].
  intros x. rewrite (I x), app_nil_r. pose proof (Ho (hp_tmpset s)) as PM.
  split; intros H; eauto using Permutation_in, Permutation_sym.
Qed.

Lemma pf_json_builder : forall (V : Type) e other ser_b (de_b : json -> option (V -> N)) (h : hist V) b,
  build e -> valid MAX_PF h -> narrow (usize_bits e) h ->
  proper (json_of other (ser_b (hist_builder h))) -> de_b (json_of other (ser_b (hist_builder h))) = Some b ->
  exists s : pf V, run_pf e h = Ret s /\
    pf_of_text e de_b (to_text other (ser_pf ser_b s)) =
    Some {| pf_builder := b; pf_count := pf_count s; pf_precision := pf_precision s; pf_registers := pf_registers s |}.
Proof.
  intros V e other ser_b de_b h b Hb Hh Hn P D.
  destruct (run_pf_ok V e h Hb Hh Hn) as (s & E & Hs). pose proof (hist_prec _ _ _ Hh) as Hp. unfold MAX_PF in Hp.
  pose proof Hs as (B & A & C & R). pose proof (proj1 Hb) as W. pose proof (pow2_le _ _ W).
  exists s. split; [exact E|]. rewrite pf_written by (rewrite B; exact P). apply de_ser_pf.
  - rewrite B. exact D.
  - rewrite C. apply pow2_lt. lia.
  - rewrite A. change (2 ^ 8) with 256. lia.
  - eapply holds_fit; [| |exact R]; [now left|lia].
Qed.

(** ** The text *)
Lemma numerals_joined : forall other l, numerals l (joined (map write (map (json_of other) (map SInt l)))).
Proof.
  intros other. induction l as [|n l IH]; [constructor|]. destruct l as [|m l].
  - cbn. constructor. apply display_numeral.
  - cbn [map joined] in *. constructor; [apply display_numeral|exact IH].
Qed.

Lemma write_registers : forall other r, registers_text r (write (json_of other (ser_registers r))).
Proof.
  intros other r. exists (joined (map write (map (json_of other) (map SInt (r_buf r))))), (display_uint (r_count r)), (display_uint (r_zeros r)).
  split; [apply numerals_joined|]. split; [apply display_numeral|]. split; [apply display_numeral|].
  unfold ser_registers. cbn -[display_uint]. repeat (rewrite <- !app_assoc; cbn -[display_uint]). reflexivity.
Qed.
Lemma write_dif : forall other d, list_text d (write (json_of other (ser_dif d))).
Proof.
  intros other d. exists (display_uint (d_count d)), (display_uint (d_last d)), (joined (map write (map (json_of other) (map SInt (d_buf d))))).
  split; [apply display_numeral|]. split; [apply display_numeral|]. split; [apply numerals_joined|].
  unfold ser_dif. cbn -[display_uint]. repeat (rewrite <- !app_assoc; cbn -[display_uint]). reflexivity.
Qed.

Lemma write_pf : forall (V : Type) other ser_b (s : pf V),
  pf_text (write (json_of other (ser_b (pf_builder s)))) s (to_text other (ser_pf ser_b s)).
Proof.
  intros V other ser_b s. unfold pf_text, to_text.
  exists (display_uint (pf_count s)), (display_uint (pf_precision s)), (write (json_of other (ser_registers (pf_registers s)))).
  split; [apply display_numeral|]. split; [apply display_numeral|]. split; [apply write_registers|].
  unfold ser_pf. cbn -[display_uint ser_registers]. generalize (write (json_of other (ser_registers (pf_registers s)))). intros r.
  generalize (display_uint (pf_count s)) (display_uint (pf_precision s)) (write (json_of other (ser_b (pf_builder s)))). intros c p b.
  repeat (rewrite <- !app_assoc; cbn). reflexivity.
Qed.

Lemma write_plus : forall (V : Type) other ord ser_b (s : plus V),
  plus_text (write (json_of other (ser_b (hp_builder s)))) (ord (hp_tmpset s)) s (to_text other (ser_plus ord ser_b s)).
Proof.
  intros V other ord ser_b s. unfold plus_text, to_text.
  set (R := match hp_registers s with Some g => SSome (ser_registers g) | None => SNone end).
  exists (display_uint (hp_precision s)), (joined (map write (map (json_of other) (map SInt [hp_counts0 s; hp_counts1 s; hp_counts2 s])))),
    (joined (map write (map (json_of other) (map SInt (ord (hp_tmpset s)))))), (write (json_of other (ser_dif (hp_sparse s)))), (write (json_of other R)).
  split; [apply display_numeral|]. split; [apply numerals_joined|]. split; [apply numerals_joined|]. split; [apply write_dif|].
  split; [unfold R; destruct (hp_registers s); [apply write_registers|reflexivity]|].
  unfold ser_plus. fold R. cbn -[display_uint ser_dif R]. repeat (rewrite <- !app_assoc; cbn -[display_uint ser_dif R]). reflexivity.
Qed.

(** ** Texts from elsewhere *)
Lemma blank_irrelevant : forall (V : Type) e (de_b : json -> option (V -> N)) s t, same_tokens s t ->
  pf_of_text e de_b s = pf_of_text e de_b t /\ plus_of_text e de_b s = plus_of_text e de_b t.
Proof.
  intros V e de_b s t (v & A & B). apply parse_spec in A, B. unfold pf_of_text, plus_of_text. rewrite A, B. auto.
Qed.

Lemma pairs_perm : forall l l', Permutation l l' ->
  match pairs l, pairs l' with Some a, Some b => Permutation a b | None, None => True | _, _ => False end.
Proof.
  intros l l' H. induction H as [|[k v] l l' H IH|[k v] [k' v'] l|l1 l2 l3 H1 IH1 H2 IH2]; cbn [pairs].
  - constructor.
  - destruct (unescape k); cbn [obind]; [|exact I]. destruct (pairs l), (pairs l'); cbn [obind]; try contradiction; [|exact I].
    constructor. exact IH.
  - destruct (unescape k), (unescape k'); cbn [obind]; try exact I; destruct (pairs l); cbn [obind]; try exact I. constructor.
  - destruct (pairs l1), (pairs l2), (pairs l3); try contradiction; try exact I. eapply Permutation_trans; eauto.
Qed.
Lemma filter_perm : forall (A : Type) (f : A -> bool) l l', Permutation l l' -> Permutation (filter f l) (filter f l').
Proof.
  intros A f l l' H. induction H as [|x l l' H IH|x y l|l1 l2 l3 H1 IH1 H2 IH2]; cbn [filter].
  - constructor.
  - destruct (f x); [constructor|]; exact IH.
  - destruct (f x), (f y); try apply Permutation_refl; constructor.
  - eapply Permutation_trans; eauto.
Qed.
Lemma lookups_perm : forall l l', Permutation l l' -> forall names, lookups l names = lookups l' names.
Proof.
  intros l l' H. induction names as [|n names IH]; [reflexivity|]. cbn [lookups]. rewrite IH. f_equal.
  unfold lookup. pose proof (filter_perm _ (fun f => eqb_bytes (fst f) (str n)) _ _ H) as P.
  destruct (filter _ l) as [|a [|b t]].
  - apply Permutation_nil in P. rewrite P. reflexivity.
  - apply Permutation_length_1_inv in P. rewrite P. reflexivity.
  - apply Permutation_length in P. destruct (filter _ l') as [|a' [|b' t']]; try discriminate P. reflexivity.
Qed.
Lemma jfields_perm : forall names l l', Permutation l l' -> jfields names (JObj l) = jfields names (JObj l').
Proof.
  intros names l l' H. cbn [jfields]. pose proof (pairs_perm _ _ H) as P.
  destruct (pairs l), (pairs l'); try contradiction; [|reflexivity]. cbn [obind]. apply lookups_perm. exact P.
Qed.

Lemma jde_same : forall (V : Type) e (de_b : json -> option (V -> N)) v w,
  (jfields pf_fields v = jfields pf_fields w -> jde_pf e de_b v = jde_pf e de_b w) /\
  (jfields plus_fields v = jfields plus_fields w -> jde_plus e de_b v = jde_plus e de_b w).
Proof.
  intros V e de_b v w. unfold jde_pf, jde_plus, pf_fields, plus_fields. split; intros ->; reflexivity.
Qed.

Lemma order_irrelevant : forall (V : Type) e (de_b : json -> option (V -> N)) l l' s t, document (JObj l) s -> document (JObj l') t ->
  Permutation l l' -> pf_of_text e de_b s = pf_of_text e de_b t /\ plus_of_text e de_b s = plus_of_text e de_b t.
Proof.
  intros V e de_b l l' s t A B P. apply parse_spec in A, B. unfold pf_of_text, plus_of_text. rewrite A, B. cbn [obind].
  split; apply (jde_same V e de_b (JObj l) (JObj l')); apply jfields_perm; exact P.
Qed.

Lemma lookups_skip : forall k v l names, ~ In k (map str names) -> lookups ((k, v) :: l) names = lookups l names.
Proof.
  intros k v l. induction names as [|n names IH]; intros H; [reflexivity|]. cbn [lookups]. cbn [map In] in H.
  rewrite IH by tauto. f_equal. unfold lookup. cbn [filter fst]. destruct (eqb_bytes k (str n)) eqn:E; [|reflexivity].
  apply eqb_bytes_spec in E. destruct H. left. congruence.
Qed.
Lemma ascii_names : forall names, map str names = map ascii names.
Proof. intros names. apply map_ext. exact str_ascii. Qed.

Lemma jfields_skip : forall names k k' v l, spells k k' -> ~ In k' (map ascii names) -> jfields names (JObj ((k, v) :: l)) = jfields names (JObj l).
Proof.
  intros names k k' v l S N. apply unescape_spec in S. cbn [jfields pairs]. rewrite S. cbn [obind]. destruct (pairs l); [|reflexivity].
  cbn [obind]. apply lookups_skip. rewrite ascii_names. exact N.
Qed.

Lemma unknown_ignored : forall (V : Type) e (de_b : json -> option (V -> N)) k k' v l l' s t,
  document (JObj l) s -> document (JObj l') t -> Permutation l ((k, v) :: l') -> spells k k' ->
  (~ In k' (map ascii pf_fields) -> pf_of_text e de_b s = pf_of_text e de_b t) /\
  (~ In k' (map ascii plus_fields) -> plus_of_text e de_b s = plus_of_text e de_b t).
Proof.
  intros V e de_b k k' v l l' s t A B P S. apply parse_spec in A, B. unfold pf_of_text, plus_of_text. rewrite A, B. cbn [obind].
  split; intros N; apply (jde_same V e de_b (JObj l) (JObj l')); rewrite (jfields_perm _ _ _ P); eapply jfields_skip; eauto.
Qed.

(** Keys that cannot be decoded, fields given twice and missing fields. *)
Lemma object_fields : forall names l os, record names (JObj l) os ->
  exists keys, Forall2 (fun f k => spells (fst f) k) l keys /\ Forall2 (the_field l keys) names os.
Proof. intros names l os [(l0 & keys & E & F & G)|(l0 & E & _)]; [injection E as <-; eauto|discriminate]. Qed.

Lemma Forall2_nth : forall (A B : Type) (P : A -> B -> Prop) l m i a, Forall2 P l m -> nth_error l i = Some a ->
  exists b, nth_error m i = Some b /\ P a b.
Proof.
  intros A B P l m i a F. revert i. induction F as [|x y l m H F IH]; intros [|i] E; cbn in *; try discriminate; [injection E as ->; eauto|auto].
Qed.

Lemma twice_record : forall names l os name i j k k', In name names -> i <> j ->
  nth_error (map fst l) i = Some k -> nth_error (map fst l) j = Some k' -> spells k (ascii name) -> spells k' (ascii name) ->
  ~ record names (JObj l) os.
Proof.
  intros names l os name i j k k' I NE Ki Kj Si Sj R. apply object_fields in R. destruct R as (keys & F & G).
  apply In_nth_error in I. destruct I as (n & I). destruct (Forall2_nth _ _ _ _ _ _ _ G I) as (o & _ & T).
  assert (Q : forall i k, nth_error (map fst l) i = Some k -> spells k (ascii name) -> nth_error keys i = Some (ascii name)).
  { clear - F. intros i k E S. rewrite nth_error_map in E. destruct (nth_error l i) as [f|] eqn:L; [|discriminate]. injection E as <-.
    destruct (Forall2_nth _ _ _ _ _ _ _ F L) as (y & Y & SY). rewrite Y. f_equal. apply unescape_spec in S, SY. congruence. }
  pose proof (Q _ _ Ki Si) as A. pose proof (Q _ _ Kj Sj) as B. destruct o as [v|]; cbn in T.
  - destruct T as (m & _ & U). apply NE. rewrite (U _ A), (U _ B). reflexivity.
  - apply T. eapply nth_error_In. exact A.
Qed.

Lemma missing_record : forall names l os name n, nth_error names n = Some name ->
  (forall f, In f l -> ~ spells (fst f) (ascii name)) -> record names (JObj l) os -> nth_error os n = Some None.
Proof.
  intros names l os name n I M R. apply object_fields in R. destruct R as (keys & F & G).
  destruct (Forall2_nth _ _ _ _ _ _ _ G I) as (o & O & T). rewrite O. f_equal. destruct o as [v|]; [|reflexivity]. exfalso.
  cbn in T. destruct T as (i & E & _).
  assert (K : In (ascii name) keys).
  { apply nth_error_In in E. apply in_combine_l in E. exact E. }
  apply In_nth_error in K. destruct K as (j & K). clear E.
  assert (H : exists f, nth_error l j = Some f /\ spells (fst f) (ascii name)).
  { revert j K. clear - F. induction F as [|f k l keys S F IH]; intros [|j] K; cbn in *; try discriminate; [injection K as ->; eauto|auto]. }
  destruct H as (f & L & S). exact (M f (nth_error_In _ _ L) S).
Qed.

Lemma twice_refused : forall (V : Type) e (de_b : json -> option (V -> N)) l s name i j k k', document (JObj l) s -> i <> j ->
  nth_error (map fst l) i = Some k -> nth_error (map fst l) j = Some k' -> spells k (ascii name) -> spells k' (ascii name) ->
  (In name pf_fields -> pf_of_text e de_b s = None) /\ (In name plus_fields -> plus_of_text e de_b s = None).
Proof.
  intros V e de_b l s name i j k k' D NE Ki Kj Si Sj. split; intros I.
  - destruct (pf_of_text e de_b s) as [x|] eqn:X; [|reflexivity]. exfalso. apply pf_text_spec in X. destruct X as (v & D' & X).
    assert (v = JObj l) as -> by (eapply document_unique; eauto). destruct X as (b & c & p & r & R & _).
    exact (twice_record _ _ _ _ _ _ _ _ I NE Ki Kj Si Sj R).
  - destruct (plus_of_text e de_b s) as [x|] eqn:X; [|reflexivity]. exfalso. apply plus_text_spec in X. destruct X as (v & D' & X).
    assert (v = JObj l) as -> by (eapply document_unique; eauto). destruct X as (b & p & c & t & d & r & codes & R & _).
    exact (twice_record _ _ _ _ _ _ _ _ I NE Ki Kj Si Sj R).
Qed.

Lemma missing_refused : forall (V : Type) e (de_b : json -> option (V -> N)) l s name, document (JObj l) s ->
  (forall f, In f l -> ~ spells (fst f) (ascii name)) ->
  (In name pf_fields -> pf_of_text e de_b s = None) /\
  (In name plus_fields -> name <> "registers"%string -> plus_of_text e de_b s = None).
Proof.
  intros V e de_b l s name D M. split; intros I.
  - destruct (pf_of_text e de_b s) as [x|] eqn:X; [|reflexivity]. exfalso. apply pf_text_spec in X. destruct X as (v & D' & X).
    assert (v = JObj l) as -> by (eapply document_unique; eauto). destruct X as (b & c & p & r & R & _).
    apply In_nth_error in I. destruct I as (n & I). pose proof (missing_record _ _ _ _ _ I M R) as E.
    apply nth_error_In in E. cbn [In] in E. repeat (destruct E as [E|E]; [discriminate E|]). exact E.
  - intros NR. destruct (plus_of_text e de_b s) as [x|] eqn:X; [|reflexivity]. exfalso. apply plus_text_spec in X. destruct X as (v & D' & X).
    assert (v = JObj l) as -> by (eapply document_unique; eauto). destruct X as (b & p & c & t & d & r & codes & R & _).
    apply In_nth_error in I. destruct I as (n & I). pose proof (missing_record _ _ _ _ _ I M R) as E.
    do 5 (destruct n as [|n]; [discriminate E|]). destruct n as [|n]; [injection I as <-; congruence|].
    destruct n as [|n]; [discriminate E|]. destruct n; discriminate E.
Qed.

(** Without the field "registers" the sketch is sparse. *)
Lemma missing_registers : forall (V : Type) e (de_b : json -> option (V -> N)) l s x, document (JObj l) s ->
  (forall f, In f l -> ~ spells (fst f) (ascii "registers")) -> plus_of_text e de_b s = Some x -> hp_registers x = None.
Proof.
  intros V e de_b l s x D M X. apply plus_text_spec in X. destruct X as (v & D' & X).
  assert (v = JObj l) as -> by (eapply document_unique; eauto). destruct X as (b & p & c & t & d & r & codes & R & _ & _ & _ & _ & _ & _ & G).
  pose proof (missing_record plus_fields l _ "registers"%string 5 eq_refl M R) as E. cbn in E. injection E as ->.
  destruct G as [(G & _)|(v & y & _ & G & _)]; [exact G|discriminate].
Qed.

(** The values alone, in an array. *)
Lemma array_record : forall names l os, NoDup (map ascii names) -> (forall n, In n (map ascii names) -> spells n n) -> length l = length names ->
  (record names (JArr l) os <-> record names (JObj (combine (map ascii names) l)) os).
Proof.
  intros names l os ND SP L.
  assert (K : map fst (combine (map ascii names) l) = map ascii names) by (apply combine_fst; rewrite map_length; congruence).
  assert (S : map snd (combine (map ascii names) l) = l).
  { revert L. clear. revert l. induction names as [|n names IH]; intros [|v l] L; try discriminate L; [reflexivity|].
    cbn. f_equal. apply IH. cbn in L. lia. }
  assert (F : Forall2 (fun f k => spells (fst f) k) (combine (map ascii names) l) (map ascii names)).
  { revert SP L. clear. revert l. induction names as [|n names IH]; intros [|v l] SP L; try discriminate L; cbn in *; constructor.
    - apply SP. auto.
    - apply IH; [auto|lia]. }
  assert (G : Forall2 (the_field (combine (map ascii names) l) (map ascii names)) names (map Some l)).
  { assert (Q : forall i n v, nth_error names i = Some n -> nth_error l i = Some v -> the_field (combine (map ascii names) l) (map ascii names) n (Some v)).
    { intros i n v En Ev. cbn [the_field]. rewrite S. exists i. split.
      - clear - En Ev. revert names i En Ev. induction l as [|w l IH]; intros [|m names] [|i] En Ev; cbn in *; try discriminate; [congruence|].
        apply IH; assumption.
      - intros k E. assert (En' : nth_error (map ascii names) i = Some (ascii n)) by (rewrite nth_error_map, En; reflexivity).
        rewrite NoDup_nth_error in ND. apply ND; [apply nth_error_Some; congruence|congruence]. }
    revert Q L. generalize (the_field (combine (map ascii names) l) (map ascii names)). clear. intros T Q L. revert l Q L.
    induction names as [|n names IH]; intros [|v l] Q L; try discriminate L; cbn; constructor; [apply (Q 0%nat); reflexivity|].
    apply IH; [intros i; apply (Q (Datatypes.S i))|cbn in L; lia]. }
  split.
  - intros [(? & ? & E & _)|(l0 & E & _ & ->)]; [discriminate|]. injection E as <-. left. eauto.
  - intros R. apply jfields_spec in R. right. exists l. split; [reflexivity|]. split; [exact L|].
    assert (R' : record names (JObj (combine (map ascii names) l)) (map Some l)) by (left; eauto).
    apply jfields_spec in R'. congruence.
Qed.
Lemma plain_spells : forall s, ~ In 92 s -> spells s s.
Proof. induction s as [|c s IH]; intros H; [constructor|]. cbn [In] in H. constructor; [intros ->; tauto|apply IH; tauto]. Qed.

Lemma array_accepted : forall (V : Type) e (de_b : json -> option (V -> N)) l s t, document (JArr l) s ->
  (document (JObj (combine (map ascii pf_fields) l)) t -> length l = 5%nat -> pf_of_text e de_b s = pf_of_text e de_b t) /\
  (document (JObj (combine (map ascii plus_fields) l)) t -> length l = 7%nat -> plus_of_text e de_b s = plus_of_text e de_b t) /\
  (length l <> 5%nat -> pf_of_text e de_b s = None) /\ (length l <> 7%nat -> plus_of_text e de_b s = None).
Proof.
  intros V e de_b l s t A. apply parse_spec in A. unfold pf_of_text, plus_of_text. rewrite A. cbn [obind].
  assert (X : forall names, NoDup (map ascii names) -> (forall n, In n (map ascii names) -> spells n n) -> length l = length names ->
    jfields names (JArr l) = jfields names (JObj (combine (map ascii names) l))).
  { intros names ND SP L. pose proof (array_record names l) as H.
    destruct (jfields names (JArr l)) as [os|] eqn:Q.
    - symmetry. apply jfields_spec. apply H; auto. apply jfields_spec. exact Q.
    - destruct (jfields names (JObj _)) as [os|] eqn:Q'; [|reflexivity]. apply jfields_spec in Q'. apply H in Q'; auto.
      apply jfields_spec in Q'. congruence. }
  split; [|split; [|split]].
  - intros B L. apply parse_spec in B. rewrite B. cbn [obind]. apply jde_same. apply X; [| |exact L].
    + repeat (constructor; [cbn; intuition discriminate|]). constructor.
    + intros n I. cbn in I. repeat (destruct I as [<-|I]; [apply plain_spells; cbn; intuition discriminate|]). destruct I.
  - intros B L. apply parse_spec in B. rewrite B. cbn [obind]. apply jde_same. apply X; [| |exact L].
    + repeat (constructor; [cbn; intuition discriminate|]). constructor.
    + intros n I. cbn in I. repeat (destruct I as [<-|I]; [apply plain_spells; cbn; intuition discriminate|]). destruct I.
  - intros L. unfold jde_pf. cbn [jfields]. destruct (Nat.eqb_spec (length l) (length ["builder"; "count"; "precision"; "registers"; "phantom"]%string)); [contradiction|reflexivity].
  - intros L. unfold jde_plus. cbn [jfields].
    destruct (Nat.eqb_spec (length l) (length ["builder"; "precision"; "counts"; "tmpset"; "sparse"; "registers"; "phantom"]%string)); [contradiction|reflexivity].
Qed.

(** What is read is in range, as if it had come through any other format. *)
Lemma unsigned_lt : forall w v n, unsigned w v n -> n < 2 ^ w.
Proof. intros w v n (ds & _ & _ & _ & H). exact H. Qed.
Lemma array_lt : forall w v l, array (unsigned w) v l -> Forall (fun n => n < 2 ^ w) l.
Proof. intros w v l (vs & _ & F). induction F; constructor; eauto using unsigned_lt. Qed.

Lemma registers_in_range : forall e v r, is_registers e v r -> registers_fit e r.
Proof. intros e v r (b & c & z & _ & B & C & Z). split; [eapply array_lt; eauto|]. split; eapply unsigned_lt; eauto. Qed.

Lemma pf_from_elsewhere : forall (V : Type) e (de_b : json -> option (V -> N)) t s, pf_of_text e de_b t = Some s ->
  exists v, de_pf e (fun _ => Some (pf_builder s)) v = Some s.
Proof.
  intros V e de_b t s H. apply pf_text_spec in H. destruct H as (v & _ & b & c & p & r & _ & _ & C & P & R).
  exists (ser_pf (fun _ => SUnit) s). rewrite (de_ser_pf V e _ _ s (pf_builder s)); [destruct s; reflexivity|reflexivity| | |].
  - eapply unsigned_lt; eauto.
  - eapply unsigned_lt; eauto.
  - eapply registers_in_range; eauto.
Qed.

Lemma plus_from_elsewhere : forall (V : Type) e (de_b : json -> option (V -> N)) t s, plus_of_text e de_b t = Some s ->
  exists v, de_plus e (fun _ => Some (hp_builder s)) v = Some s.
Proof.
  intros V e de_b t s H. apply plus_text_spec in H. destruct H as (v & _ & b & p & c & x & d & r & codes & _ & _ & P & C & X & T & D & R).
  exists (ser_plus (fun _ => codes) (fun _ => SUnit) s).
  apply array_lt in C. inversion C as [|? ? C0 C']; subst. inversion C' as [|? ? C1 C'']; subst. inversion C'' as [|? ? C2 _]; subst.
  rewrite (de_ser_plus V e _ _ _ s (hp_builder s)); try assumption; try reflexivity.
  - rewrite <- T. destruct s; reflexivity.
  - eapply unsigned_lt; eauto.
  - eapply array_lt; eauto.
  - destruct D as (c' & l' & b' & _ & A & B & E). split; [eapply array_lt; eauto|]. split; eapply unsigned_lt; eauto.
  - intros g G. destruct R as [(R & _)|(w & y & R & _ & Y)]; [congruence|]. assert (g = y) by congruence. subst. eapply registers_in_range; eauto.
Qed.

(** ** Texts whose sketches cannot be counted *)
Definition precision_200 : string :=
  "{""builder"":null,""precision"":200,""counts"":[16,16777216,12],""tmpset"":[],""sparse"":{""count"":0,""last"":0,""buf"":[]},""registers"":{""buf"":[0,0,0,0],""count"":16,""zeros"":16},""phantom"":null}"%string.
Definition truncated_varint : string :=
  "{""builder"":null,""precision"":10,""counts"":[1024,16777216,819],""tmpset"":[5],""sparse"":{""count"":1,""last"":0,""buf"":[128]},""registers"":null,""phantom"":null}"%string.
Definition count_2_40 : string :=
  "{""builder"":null,""count"":1099511627776,""precision"":4,""registers"":{""buf"":[0,0,0],""count"":16,""zeros"":16},""phantom"":null}"%string.

Lemma precision_200_read : forall V (b : V -> N), plus_of_text test_env (fun _ => Some b) (ascii precision_200) = de_plus test_env (fun _ => Some b) bad_plus.
Proof. intros V b. lazy. reflexivity. Qed.
Lemma truncated_varint_read : forall V (b : V -> N), plus_of_text test_env (fun _ => Some b) (ascii truncated_varint) = de_plus test_env (fun _ => Some b) bad_sparse.
Proof. intros V b. lazy. reflexivity. Qed.
Lemma count_2_40_read : forall V (b : V -> N), pf_of_text test_env (fun _ => Some b) (ascii count_2_40) = de_pf test_env (fun _ => Some b) bad_pf.
Proof. intros V b. lazy. reflexivity. Qed.

Lemma texts_panic :
  (exists s, plus_of_text test_env (fun _ => Some mix) (ascii precision_200) = Some s /\ hp_count test_env keep s = Panic) /\
  (exists s, plus_of_text test_env (fun _ => Some mix) (ascii truncated_varint) = Some s /\ hp_count test_env keep s = Panic) /\
  (exists s, pf_of_text test_env (fun _ => Some mix) (ascii count_2_40) = Some s /\ pf_count_est test_env s = Panic).
Proof.
  destruct bad_values as (A & _ & B & _ & C). rewrite precision_200_read, truncated_varint_read, count_2_40_read.
  split; [exact (plus_panics_spec _ _ A)|]. split; [exact (plus_panics_spec _ _ B)|exact (pf_panics_spec _ _ C)].
Qed.
