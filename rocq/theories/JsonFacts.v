(** * Sketches written as JSON and read back *)
From Coq Require Import String.
From Coq Require Import NArith Arith List Bool Lia Permutation.
From Verif Require Import ModelRust ModelEnv ModelRegisters ModelEncoding ModelPF ModelPlus ModelSerde ModelFiles ModelJson ModelHistory
  Spec SpecFiles SpecJson TextFacts SerdeFacts ClaimFacts JsonGrammar JsonRead.
Import ListNotations.
Local Open Scope N_scope.

(** ** What is written is in the grammar *)
Definition json_deep (P : json -> Prop) (Hn : P JNull) (Hb : forall b, P (JBool b)) (Hd : forall t, P (JNum t)) (Hs : forall r, P (JStr r))
  (Ha : forall l, Forall P l -> P (JArr l)) (Ho : forall l, Forall (fun f => P (snd f)) l -> P (JObj l)) : forall v, P v :=
  fix deep (v : json) : P v :=
    match v with
    | JNull => Hn
    | JBool b => Hb b
    | JNum t => Hd t
    | JStr r => Hs r
    | JArr l => Ha l ((fix go (l : list json) : Forall P l :=
                         match l with [] => Forall_nil _ | v :: l' => Forall_cons _ (deep v) (go l') end) l)
    | JObj l => Ho l ((fix go (l : list (bytes * json)) : Forall (fun f => P (snd f)) l :=
                         match l with [] => Forall_nil _ | f :: l' => Forall_cons _ (deep (snd f)) (go l') end) l)
    end.

Lemma blank_nil : blank [].
Proof. constructor. Qed.

Lemma elements_write : forall l, l <> [] -> Forall (fun v => value v (write v)) l -> elements l (joined (map write l)).
Proof.
  induction l as [|v l IH]; intros N F; [congruence|]. inversion F; subst. destruct l as [|w l].
  - cbn [map joined]. pose proof (Elements_one v [] (write v) [] blank_nil H1 blank_nil) as E. cbn [app] in E. rewrite app_nil_r in E. exact E.
  - pose proof (Elements_more v [] (write v) [] (w :: l) _ blank_nil H1 blank_nil (IH ltac:(discriminate) H2)) as E. exact E.
Qed.
Definition member (f : bytes * json) : bytes := quoted (fst f) ++ [58] ++ write (snd f).
Lemma members_write : forall l, l <> [] -> Forall (fun f => chars (fst f)) l -> Forall (fun f => value (snd f) (write (snd f))) l ->
  members l (joined (map member l)).
Proof.
  induction l as [|[k v] l IH]; intros N C F; [congruence|]. inversion F; inversion C; subst. cbn [fst snd] in *. destruct l as [|w l].
  - cbn [map joined]. pose proof (Members_one k v [] [] [] (write v) [] blank_nil H5 blank_nil blank_nil H1 blank_nil) as E.
    cbn [app] in E. rewrite app_nil_r in E. exact E.
  - pose proof (Members_more k v [] [] [] (write v) [] (w :: l) _ blank_nil H5 blank_nil blank_nil H1 blank_nil (IH ltac:(discriminate) H6 H2)) as E.
    assert (J : forall a b t, joined (a :: b :: t) = a ++ [44] ++ joined (b :: t)) by reflexivity.
    cbn [map] in *. rewrite J. unfold member at 1, quoted. cbn [fst snd]. cbn [app] in *. repeat (rewrite <- !app_assoc; cbn [app]).
    repeat (rewrite <- !app_assoc in E; cbn [app] in E). exact E.
Qed.

Lemma write_value : forall v, proper v -> value v (write v).
Proof.
  induction v as [|b|t|r|l IH|l IH] using json_deep; intros H; inversion H; subst; cbn [write].
  - constructor.
  - destruct b; constructor.
  - constructor. assumption.
  - constructor. assumption.
  - destruct l as [|v l]; [exact (Value_array0 [] blank_nil)|]. apply Value_array. apply elements_write; [discriminate|].
    rewrite Forall_forall in *. auto.
  - destruct l as [|f l]; [exact (Value_object0 [] blank_nil)|]. apply Value_object. apply members_write; [discriminate|assumption|].
    rewrite Forall_forall in *. auto.
Qed.

Lemma write_document : forall v, proper v -> document v (write v).
Proof.
  intros v H. exists [], (write v), []. rewrite app_nil_r. repeat split; [constructor|apply write_value; exact H|constructor].
Qed.

Lemma parse_write : forall v, proper v -> parse (write v) = Some v.
Proof. intros v H. apply parse_spec, write_document, H. Qed.

(** Only those values have texts. *)
Lemma grammar_proper : (forall v t, value v t -> proper v) /\ (forall l t, elements l t -> Forall proper l) /\
  (forall l t, members l t -> Forall (fun f => chars (fst f)) l /\ Forall (fun f => proper (snd f)) l).
Proof.
  apply grammar_elim; intros; try (constructor; auto; fail); repeat (constructor; try tauto); tauto.
Qed.
Lemma document_proper : forall v t, document v t -> proper v.
Proof. intros v t (a & s & b & _ & _ & H & _). exact (proj1 grammar_proper _ _ H). Qed.

(** ** Escapes *)
Lemma escape_app : forall a b, escape (a ++ b) = escape a ++ escape b.
Proof. intros. unfold escape. apply flat_map_app. Qed.

Lemma hex_digit_value : forall n, n < 16 -> hex_value (hex_digit n) = Some n.
Proof.
  intros n H. unfold hex_digit. apply hex_value_spec. unfold hex_of. destruct (N.ltb_spec n 10); [left|right; right]; lia.
Qed.

Lemma escape_spells : forall s, spells (escape s) s.
Proof.
  induction s as [|c s IH]; [constructor|]. change (escape (c :: s)) with (escape_byte c ++ escape s). unfold escape_byte.
  repeat match goal with |- context [c =? ?k] => destruct (N.eqb_spec c k) as [->|];
    [apply Spells_short; [apply short_escape_spec; reflexivity|exact IH]|] end.
  destruct (N.ltb_spec c 32).
  - rewrite <- app_assoc. apply (Spells_code (ascii "00" ++ [hex_digit (c / 16); hex_digit (c mod 16)]) c [c]).
    + change (ascii "00") with [48; 48]. cbn [app]. apply hex4_spec. unfold hex4. change (hex_value 48) with (Some 0). cbn [obind].
      pose proof (N.div_mod c 16 ltac:(lia)) as D. pose proof (N.mod_lt c 16 ltac:(lia)) as M.
      rewrite !hex_digit_value; [cbn [obind]; f_equal; lia|exact M|]. apply N.div_lt_upper_bound; lia.
    + unfold high_surrogate. lia.
    + unfold low_surrogate. lia.
    + constructor. lia.
    + exact IH.
  - apply Spells_plain; [congruence|exact IH].
Qed.

Lemma escape_chars : forall s, chars (escape s).
Proof.
  induction s as [|c s IH]; [constructor|]. change (escape (c :: s)) with (escape_byte c ++ escape s). unfold escape_byte.
  repeat match goal with |- context [c =? ?k] => destruct (N.eqb_spec c k) as [->|];
    [apply Chars_short; [cbn; tauto|exact IH]|] end.
  destruct (N.ltb_spec c 32).
  - rewrite <- app_assoc.
    pose proof (N.mod_lt c 16 ltac:(lia)) as M. assert (D : c / 16 < 16) by (apply N.div_lt_upper_bound; lia).
    assert (X : forall n, n < 16 -> hexadecimal (hex_digit n)).
    { intros m L. apply hex_of_hexadecimal. exists m. apply hex_value_spec, hex_digit_value, L. }
    apply (Chars_code 48 48 (hex_digit (c / 16)) (hex_digit (c mod 16))); auto; left; lia.
  - apply Chars_plain; auto.
Qed.

(** ** What serde_json makes of a sketch *)
Lemma numeral_number : forall n s, numeral n s -> number s.
Proof.
  intros n s (ds & (NE & F) & -> & V & Z). destruct ds as [|d ds]; [congruence|]. inversion F; subst.
  assert (D : Forall digit (digit_text ds)).
  { apply Forall_forall. intros x I. unfold digit_text in I. apply in_map_iff in I. destruct I as (y & <- & I).
    rewrite Forall_forall in H2. specialize (H2 y I). unfold digit. lia. }
  exists [], (48 + d :: digit_text ds), [], []. rewrite app_nil_r. split; [reflexivity|]. split; [left; reflexivity|].
  split; [|auto]. destruct (N.eq_dec d 0) as [->|P].
  - left. rewrite (Z ds eq_refl). reflexivity.
  - right. exists (48 + d), (digit_text ds). split; [reflexivity|]. split; [lia|exact D].
Qed.

Lemma proper_int : forall n, proper (JNum (display_uint n)).
Proof. intros n. constructor. exact (numeral_number _ _ (display_numeral n)). Qed.

Lemma proper_ints : forall other l, Forall proper (map (json_of other) (map SInt l)).
Proof. intros other l. rewrite map_map. apply Forall_forall. intros v I. apply in_map_iff in I. destruct I as (n & <- & _). apply proper_int. Qed.

Lemma proper_struct : forall other fs, Forall (fun f => proper (json_of other (snd f))) fs -> proper (json_of other (SStruct fs)).
Proof.
  intros other fs F. cbn [json_of]. constructor; apply Forall_forall; intros f I; apply in_map_iff in I; destruct I as (g & <- & I); cbn [fst snd].
  - apply escape_chars.
  - rewrite Forall_forall in F. exact (F g I).
Qed.

Lemma proper_registers : forall other r, proper (json_of other (ser_registers r)).
Proof.
  intros other r. apply proper_struct. constructor; [constructor; apply proper_ints|].
  constructor; [apply proper_int|]. constructor; [apply proper_int|constructor].
Qed.
Lemma proper_dif : forall other d, proper (json_of other (ser_dif d)).
Proof.
  intros other d. apply proper_struct. constructor; [apply proper_int|]. constructor; [apply proper_int|].
  constructor; [constructor; apply proper_ints|constructor].
Qed.

Lemma proper_pf : forall (V : Type) other ser_b (s : pf V), proper (json_of other (ser_b (pf_builder s))) ->
  proper (json_of other (ser_pf ser_b s)).
Proof.
  intros V other ser_b s H. apply proper_struct. constructor; [exact H|]. constructor; [apply proper_int|].
  constructor; [apply proper_int|]. constructor; [apply proper_registers|]. repeat constructor.
Qed.
Lemma proper_plus : forall (V : Type) other ord ser_b (s : plus V), proper (json_of other (ser_b (hp_builder s))) ->
  proper (json_of other (ser_plus ord ser_b s)).
Proof.
  intros V other ord ser_b s H. apply proper_struct. constructor; [exact H|].
  constructor; [apply proper_int|]. constructor.
  { constructor. repeat (apply Forall_cons; [apply proper_int|]). constructor. }
 
  constructor; [constructor; apply proper_ints|]. constructor; [apply proper_dif|].
  constructor; [|repeat constructor]. cbn [snd]. destruct (hp_registers s); cbn [json_of]; [apply proper_registers|constructor].
Qed.

(** ** JSON hands back what it was given *)
Lemma jde_int : forall w n, jde_uint w (JNum (display_uint n)) = de_uint w (SInt n).
Proof.
  intros w n. cbn [de_uint]. destruct (display_numeral n) as (ds & D & E & V & _). rewrite E. destruct (N.ltb_spec n (2 ^ w)).
  - apply jde_uint_spec. exists ds. auto.
  - destruct (jde_uint w (JNum (digit_text ds))) as [m|] eqn:J; [|reflexivity]. exfalso. apply jde_uint_spec in J.
    destruct J as (ds' & Q & D' & V' & B). injection Q as Q.
    assert (ds = ds'). { unfold digit_text in Q. revert Q. clear. revert ds'. induction ds as [|x ds IH]; intros [|y ds'] Q; try discriminate Q; [reflexivity|].
      pose proof (f_equal (hd 0) Q) as Q1. pose proof (f_equal (@tl N) Q) as Q2. cbn [map hd tl] in Q1, Q2. f_equal; [lia|apply IH; exact Q2]. }
    subst ds'. lia.
Qed.

Lemma jde_ints : forall other w l, jde_list (jde_uint w) (map (json_of other) (map SInt l)) = de_list (de_uint w) (map SInt l).
Proof.
  intros other w. induction l as [|n l IH]; [reflexivity|]. cbn [map json_of jde_list de_list]. rewrite jde_int, IH. reflexivity.
Qed.

Lemma jde_ser_registers : forall e other r, jde_registers e (json_of other (ser_registers r)) = de_registers e (ser_registers r).
Proof.
  intros e other r. unfold jde_registers, de_registers, ser_registers, field.
  cbn -[jde_uint de_uint jde_list de_list display_uint]. rewrite jde_ints, !jde_int. reflexivity.
Qed.

Lemma jde_ser_dif : forall e other d, jde_dif e (json_of other (ser_dif d)) = de_dif e (ser_dif d).
Proof.
  intros e other d. unfold jde_dif, de_dif, ser_dif, field, de_varint.
  cbn -[jde_uint de_uint jde_list de_list display_uint]. rewrite jde_ints, !jde_int. reflexivity.
Qed.

Lemma jde_ser_pf : forall (V : Type) e other ser_b (de_b : json -> option (V -> N)) (s : pf V),
  jde_pf e de_b (json_of other (ser_pf ser_b s)) = de_pf e (fun v => de_b (json_of other v)) (ser_pf ser_b s).
Proof.
  intros V e other ser_b de_b s. unfold jde_pf, de_pf, field.
  cbn -[jde_uint de_uint jde_list de_list display_uint jde_registers de_registers ser_registers].
  rewrite !jde_int, jde_ser_registers. reflexivity.
Qed.

Lemma jde_ser_plus : forall (V : Type) e other ord ser_b (de_b : json -> option (V -> N)) (s : plus V),
  jde_plus e de_b (json_of other (ser_plus ord ser_b s)) = de_plus e (fun v => de_b (json_of other v)) (ser_plus ord ser_b s).
Proof.
  intros V e other ord ser_b de_b s. unfold jde_plus, de_plus, field, field_opt.
  cbn -[jde_uint de_uint jde_list de_list display_uint jde_registers de_registers ser_registers jde_dif de_dif ser_dif jde_option de_option fold_left hset_insert].
  rewrite !jde_int, jde_ints, jde_ser_dif.
  replace (jde_option (jde_registers e) (Some (json_of other match hp_registers s with Some r => SSome (ser_registers r) | None => SNone end)))
    with (de_option (de_registers e) match hp_registers s with Some r => SSome (ser_registers r) | None => SNone end).
  2:{ destruct (hp_registers s) as [r|]; [|reflexivity]. cbn [de_option]. rewrite <- (jde_ser_registers e other r). reflexivity. }
  destruct (de_b _) as [b|]; [|reflexivity]. cbn [obind].
  destruct (de_uint 8 _) as [p|]; [|reflexivity]. cbn [obind].
  unfold jde_triple, jde_seq, present. cbn [obind jde_list]. rewrite !jde_int.
  destruct (de_uint (usize_bits e) (SInt (hp_counts0 s))) as [c0|]; [|reflexivity]. cbn [obind].
  destruct (de_uint (usize_bits e) (SInt (hp_counts1 s))) as [c1|]; [|reflexivity]. cbn [obind].
  destruct (de_uint (usize_bits e) (SInt (hp_counts2 s))) as [c2|]; [|reflexivity]. cbn [obind]. reflexivity.
Qed.
