(** * Which JSON values are read as sketches *)
From Coq Require Import String.
From Coq Require Import NArith Arith List Bool Lia.
From Verif Require Import ModelRust ModelEnv ModelRegisters ModelEncoding ModelPF ModelPlus ModelSerde ModelFiles ModelJson
  SpecFiles SpecJson TextFacts JsonGrammar.
Import ListNotations.
Local Open Scope N_scope.

Lemma some_in : forall (A B : Type) (x : option A) (k : A -> option B) b, obind x k = Some b <-> exists a, x = Some a /\ k a = Some b.
Proof.
  intros A B [a|] k b; cbn; split.
  - intros E. eauto.
  - intros (a' & E & K). injection E as <-. exact K.
  - discriminate.
  - intros (a' & E & _). discriminate.
Qed.

(** ** Strings *)
Lemma utf8_spec : forall n u, n < 2 ^ 21 -> (encoded n u <-> u = utf8 n).
Proof.
  intros n u L. assert (D : forall x k, k <> 0 -> x = k * (x / k) + x mod k /\ x mod k < k)
    by (intros x k K; split; [apply N.div_mod; exact K|apply N.mod_lt; exact K]).
  assert (F : forall a b k, b < k -> (a * k + b) / k = a /\ (a * k + b) mod k = b).
  { intros a b k B. split; [rewrite N.div_add_l by lia; rewrite N.div_small by exact B; lia|].
    rewrite N.add_comm, N.mod_add by lia. apply N.mod_small. exact B. }
  unfold utf8. split.
  - intros H. inversion H as [m A|a b A B C|a b c A B C R|a b c d A B C E R]; subst.
    + destruct (N.ltb_spec n 128); [reflexivity|lia].
    + destruct (N.ltb_spec (a * 2 ^ 6 + b) 128); [lia|]. destruct (N.ltb_spec (a * 2 ^ 6 + b) 2048); [|lia].
      change (2 ^ 6) with 64 in *. destruct (F a b 64 B) as [-> ->]. reflexivity.
    + destruct (N.ltb_spec (a * 2 ^ 12 + b * 2 ^ 6 + c) 128); [lia|]. destruct (N.ltb_spec (a * 2 ^ 12 + b * 2 ^ 6 + c) 2048); [lia|].
      destruct (N.ltb_spec (a * 2 ^ 12 + b * 2 ^ 6 + c) 65536); [|lia].
      replace (a * 2 ^ 12 + b * 2 ^ 6 + c) with ((a * 64 + b) * 64 + c) by lia.
      change 4096 with (64 * 64). rewrite <- N.div_div by lia.
      destruct (F (a * 64 + b) c 64 C) as [-> ->]. destruct (F a b 64 B) as [-> ->]. reflexivity.
    + destruct (N.ltb_spec (a * 2 ^ 18 + b * 2 ^ 12 + c * 2 ^ 6 + d) 128); [lia|].
      destruct (N.ltb_spec (a * 2 ^ 18 + b * 2 ^ 12 + c * 2 ^ 6 + d) 2048); [lia|].
      destruct (N.ltb_spec (a * 2 ^ 18 + b * 2 ^ 12 + c * 2 ^ 6 + d) 65536); [lia|].
      replace (a * 2 ^ 18 + b * 2 ^ 12 + c * 2 ^ 6 + d) with (((a * 64 + b) * 64 + c) * 64 + d) by lia.
      change 262144 with (64 * 64 * 64). change 4096 with (64 * 64). rewrite <- !N.div_div by lia.
      destruct (F ((a * 64 + b) * 64 + c) d 64 E) as [-> ->]. destruct (F (a * 64 + b) c 64 C) as [-> ->].
      destruct (F a b 64 B) as [-> ->]. reflexivity.
  - intros ->. destruct (D n 64) as [D1 D2]; [lia|]. destruct (D (n / 64) 64) as [D3 D4]; [lia|]. destruct (D (n / 64 / 64) 64) as [D5 D6]; [lia|].
    replace (n / 4096) with (n / 64 / 64) by (rewrite N.div_div by lia; reflexivity).
    replace (n / 262144) with (n / 64 / 64 / 64) by (rewrite !N.div_div by lia; reflexivity).
    clear F D. revert D1 D2 D3 D4 D5 D6.
    generalize (n / 64 / 64 / 64) ((n / 64 / 64) mod 64). intros a b. generalize (n / 64 / 64) ((n / 64) mod 64). intros q c.
    generalize (n / 64) (n mod 64). intros p d D1 D2 D3 D4 D5 D6.
    destruct (N.ltb_spec n 128); [apply Encoded_1; lia|]. destruct (N.ltb_spec n 2048).
    { replace (encoded n) with (encoded (p * 2 ^ 6 + d)) by (f_equal; lia).
      change 192 with (128 + 64). apply Encoded_2; lia. }
    destruct (N.ltb_spec n 65536).
    { replace (encoded n) with (encoded (q * 2 ^ 12 + c * 2 ^ 6 + d)) by (apply f_equal; lia).
      change 224 with (128 + 64 + 32). apply Encoded_3; lia. }
    replace (encoded n) with (encoded (a * 2 ^ 18 + b * 2 ^ 12 + c * 2 ^ 6 + d)) by (f_equal; lia).
    change 240 with (128 + 64 + 32 + 16). apply Encoded_4; lia.
Qed.

Lemma pow2_pos : forall w, 0 < 2 ^ w.
Proof. intros w. apply N.neq_0_lt_0, N.pow_nonzero. discriminate. Qed.
Lemma some_inj : forall (A : Type) (x y : A), Some x = Some y -> x = y.
Proof. congruence. Qed.

Lemma hex_of_bound : forall c n, hex_of c n -> n <= 15.
Proof. intros c n [[A ->]|[[A ->]|[A ->]]]; lia. Qed.
Lemma hex4_bound : forall a b c d n, hex4 a b c d = Some n -> n < 65536.
Proof.
  intros a b c d n E. apply hex4_spec in E. destruct E as (? & ? & ? & ? & x & y & z & t & _ & A & B & C & D & ->).
  apply hex_of_bound in A, B, C, D. clear - A B C D. change (16 ^ 3) with 4096. change (16 ^ 2) with 256. lia.
Qed.

Lemma unescape_sound : forall k s t, (length s <= k)%nat -> unescape s = Some t -> spells s t.
Proof.
  induction k as [|k IH]; intros s t L E; (destruct s as [|c s]; [injection E as <-; constructor|]); cbn in L; [lia|].
  cbn [unescape] in E. destruct (N.eqb_spec c 92) as [->|C].
  - destruct s as [|c1 s]; [discriminate|]. destruct (N.eqb_spec c1 117) as [->|C1].
    + destruct s as [|h1 [|h2 [|h3 [|h4 s]]]]; try discriminate.
      apply some_in in E. destruct E as (n & H & E). cbn [length] in L.
      pose proof (hex4_bound _ _ _ _ _ H) as NB. apply hex4_spec in H.
      destruct ((56320 <=? n) && (n <=? 57343)) eqn:Q1; [discriminate|]. rewrite andb_false_iff, !N.leb_gt in Q1.
      destruct ((55296 <=? n) && (n <=? 56319)) eqn:Q2.
      * rewrite andb_true_iff, !N.leb_le in Q2. destruct s as [|b [|u [|l1 [|l2 [|l3 [|l4 s]]]]]]; try discriminate.
        destruct (N.eqb_spec b 92) as [->|]; [|discriminate]. destruct (N.eqb_spec u 117) as [->|]; [|discriminate].
        cbn [andb] in E. apply some_in in E. destruct E as (n2 & H2 & E). pose proof (hex4_bound _ _ _ _ _ H2) as NB2. apply hex4_spec in H2.
        destruct ((56320 <=? n2) && (n2 <=? 57343)) eqn:Q3; [|discriminate]. rewrite andb_true_iff, !N.leb_le in Q3.
        apply some_in in E. destruct E as (r & R & E). apply some_inj in E. rewrite <- E. cbn [length] in L. apply IH in R; [|lia].
        apply (Spells_pair _ _ _ _ _ _ _ H H2); [clear - Q2; unfold high_surrogate; lia|clear - Q3; unfold low_surrogate; lia| |exact R].
        apply utf8_spec; [|reflexivity]. clear - NB Q2 Q3 NB2. lia.
      * rewrite andb_false_iff, !N.leb_gt in Q2. apply some_in in E. destruct E as (r & R & E). apply some_inj in E. rewrite <- E. apply IH in R; [|lia].
        apply (Spells_code _ _ _ _ _ H); [clear - Q2; unfold high_surrogate; lia|clear - Q1; unfold low_surrogate; lia| |exact R].
        apply utf8_spec; [|reflexivity]. clear - NB. lia.
    + apply some_in in E. destruct E as (x & X & E). apply some_in in E. destruct E as (r & R & E). injection E as <-.
      cbn [length] in L. constructor; [apply short_escape_spec; exact X|]. apply IH; [lia|exact R].
  - apply some_in in E. destruct E as (r & R & E). injection E as <-. constructor; [exact C|]. apply IH; [lia|exact R].
Qed.

Lemma unescape_complete : forall s t, spells s t -> unescape s = Some t.
Proof.
  intros s t H. induction H as [|c s t C H IH|c x s t C H IH|h n u s t C A B U H IH|h n h' n' u s t C C' A B U H IH].
  - reflexivity.
  - cbn [unescape]. destruct (N.eqb_spec c 92); [congruence|]. rewrite IH. reflexivity.
  - cbn [unescape]. change (92 =? 92) with true. cbv iota. apply short_escape_spec in C.
    destruct (N.eqb_spec c 117) as [->|]; [discriminate C|]. rewrite C, IH. reflexivity.
  - pose proof C as C0. destruct C0 as (a & b & c & d & _ & _ & _ & _ & -> & _). apply hex4_spec in C. pose proof (hex4_bound _ _ _ _ _ C).
    change (unescape (92 :: 117 :: a :: b :: c :: d :: s) = Some (u ++ t)). cbn [unescape]. change (92 =? 92) with true.
    change (117 =? 117) with true. cbv iota. rewrite C. cbn [obind]. unfold high_surrogate, low_surrogate in *.
    destruct ((56320 <=? n) && (n <=? 57343)) eqn:Q1; [rewrite andb_true_iff, !N.leb_le in Q1; lia|].
    destruct ((55296 <=? n) && (n <=? 56319)) eqn:Q2; [rewrite andb_true_iff, !N.leb_le in Q2; lia|].
    rewrite IH. cbn [obind]. apply utf8_spec in U; [|lia]. subst u. reflexivity.
  - pose proof C as C0. destruct C0 as (a & b & c & d & _ & _ & _ & _ & -> & _). apply hex4_spec in C.
    pose proof C' as C0. destruct C0 as (a' & b' & c' & d' & _ & _ & _ & _ & -> & _). apply hex4_spec in C'.
    change (unescape (92 :: 117 :: a :: b :: c :: d :: 92 :: 117 :: a' :: b' :: c' :: d' :: s) = Some (u ++ t)).
    cbn [unescape]. change (92 =? 92) with true. change (117 =? 117) with true. cbv iota. rewrite C. cbn [obind].
    unfold high_surrogate, low_surrogate in *.
    destruct ((56320 <=? n) && (n <=? 57343)) eqn:Q1; [rewrite andb_true_iff, !N.leb_le in Q1; lia|].
    destruct ((55296 <=? n) && (n <=? 56319)) eqn:Q2; [|rewrite andb_false_iff, !N.leb_gt in Q2; lia]. cbn [andb].
    rewrite C'. cbn [obind].
    destruct ((56320 <=? n') && (n' <=? 57343)) eqn:Q3; [|rewrite andb_false_iff, !N.leb_gt in Q3; lia].
    rewrite IH. cbn [obind]. apply utf8_spec in U; [|lia]. subst u. reflexivity.
Qed.

Lemma unescape_spec : forall s t, unescape s = Some t <-> spells s t.
Proof. intros s t. split; [apply (unescape_sound _ _ _ (le_n _))|apply unescape_complete]. Qed.

(** ** Numbers and arrays *)
Lemma jde_uint_spec : forall w v n, jde_uint w v = Some n <-> unsigned w v n.
Proof.
  intros w v n. unfold unsigned. split.
  - intros E. destruct v as [| |[|c s]| | |]; try discriminate. cbn [jde_uint] in E.
    destruct (forallb is_digit (c :: s)); [|discriminate]. apply parse_digits_spec in E; [|apply pow2_pos].
    destruct E as (ds & F & S & V & B). exists ds. rewrite <- S. split; [reflexivity|].
    split; [split; [destruct ds; discriminate|exact F]|]. split; [lia|exact B].
  - intros (ds & -> & (NE & F) & V & B). cbn [jde_uint]. destruct (digit_text ds) as [|c s] eqn:S; [destruct ds; [congruence|discriminate]|].
    assert (D : forallb is_digit (c :: s) = true).
    { rewrite <- S. apply forallb_forall. intros x I. unfold digit_text in I. apply in_map_iff in I. destruct I as (y & <- & I).
      rewrite Forall_forall in F. specialize (F y I). apply is_digit_spec. unfold digit. lia. }
    rewrite D. apply parse_digits_spec; [apply pow2_pos|].
    exists ds. rewrite S. repeat split; auto; lia.
Qed.

Lemma jde_list_spec : forall (A : Type) f (P : json -> A -> Prop) vs l, (forall v a, f v = Some a <-> P v a) ->
  (jde_list f vs = Some l <-> Forall2 P vs l).
Proof.
  intros A f P. induction vs as [|v vs IH]; intros l H; cbn [jde_list].
  - split; [intros E; injection E as <-; constructor|]. intros F. inversion F. reflexivity.
  - split.
    + intros E. apply some_in in E. destruct E as (a & E1 & E). apply some_in in E. destruct E as (r & E2 & E). injection E as <-.
      constructor; [apply H; exact E1|]. apply IH; assumption.
    + intros F. inversion F; subst. apply some_in. exists y. split; [apply H; assumption|]. apply some_in. exists l'.
      split; [apply IH; assumption|reflexivity].
Qed.
Lemma jde_seq_spec : forall (A : Type) f (P : json -> A -> Prop) v l, (forall v a, f v = Some a <-> P v a) ->
  (jde_seq f v = Some l <-> array P v l).
Proof.
  intros A f P v l H. unfold array. split.
  - intros E. destruct v; try discriminate. exists l0. split; [reflexivity|]. eapply jde_list_spec; eauto.
  - intros (vs & -> & F). cbn. eapply jde_list_spec; eauto.
Qed.

(** ** Structs *)
Lemma eqb_bytes_spec : forall a b, eqb_bytes a b = true <-> a = b.
Proof. intros a b. unfold eqb_bytes. destruct (list_eq_dec N.eq_dec a b); intuition congruence. Qed.

Lemma pairs_spec : forall l l', pairs l = Some l' <->
  exists keys, Forall2 (fun f k => spells (fst f) k) l keys /\ l' = combine keys (map snd l).
Proof.
  induction l as [|[k v] l IH]; intros l'; cbn [pairs].
  - split; [intros E; injection E as <-; exists []; split; [constructor|reflexivity]|]. intros (keys & F & ->). inversion F. reflexivity.
  - split.
    + intros E. apply some_in in E. destruct E as (k' & K & E). apply some_in in E. destruct E as (r & R & E). injection E as <-.
      apply IH in R. destruct R as (keys & F & ->). exists (k' :: keys). split; [constructor; [apply unescape_spec; exact K|exact F]|reflexivity].
    + intros (keys & F & ->). inversion F as [|? k' ? ks K Ks]; subst. apply some_in. exists k'. split; [apply unescape_spec; exact K|].
      apply some_in. exists (combine ks (map snd l)). split; [apply IH; eauto|reflexivity].
Qed.

Lemma filter_none : forall (l : list (bytes * json)) name, filter (fun f => eqb_bytes (fst f) name) l = [] <-> ~ In name (map fst l).
Proof.
  induction l as [|[k v] l IH]; intros name; cbn [filter map fst]; [split; auto|].
  destruct (eqb_bytes k name) eqn:E.
  - apply eqb_bytes_spec in E. split; [discriminate|]. intros H. destruct H. left. exact E.
  - rewrite IH. assert (k <> name) by (intros H; apply eqb_bytes_spec in H; congruence). cbn [In]. tauto.
Qed.

Lemma not_in_nth : forall (A : Type) (l : list A) x, ~ In x l <-> forall k, nth_error l k <> Some x.
Proof.
  intros A l x. split; [intros H k E; apply H; eapply nth_error_In; eauto|].
  intros H I. apply In_nth_error in I. destruct I as (k & E). exact (H k E).
Qed.

Lemma filter_one : forall (l : list (bytes * json)) name v,
  (exists f, filter (fun f => eqb_bytes (fst f) name) l = [f] /\ snd f = v) <->
  exists i, nth_error l i = Some (name, v) /\ (forall k, nth_error (map fst l) k = Some name -> k = i).
Proof.
  induction l as [|[k w] l IH]; intros name v; cbn [filter map fst].
  - split; [intros (f & E & _); discriminate|]. intros ([|i] & E & _); discriminate.
  - destruct (eqb_bytes k name) eqn:E.
    + apply eqb_bytes_spec in E. subst k. split.
      * intros (f & F & S). injection F as <- F. cbn in S. subst w. exists 0%nat. split; [reflexivity|]. intros [|k] K; [reflexivity|].
        cbn in K. apply filter_none in F. apply nth_error_In in K. contradiction.
      * intros (i & I & U). assert (i = 0%nat) as -> by (symmetry; apply U; reflexivity). cbn in I. injection I as <-.
        exists (name, w). split; [f_equal|reflexivity]. apply filter_none. apply not_in_nth. intros k K. specialize (U (S k) K). discriminate.
    + assert (k <> name) by (intros H; apply eqb_bytes_spec in H; congruence). rewrite IH. split.
      * intros (i & I & U). exists (S i). split; [exact I|]. intros [|j] J; cbn in J; [congruence|]. f_equal. apply U. exact J.
      * intros ([|i] & I & U); cbn in I; [congruence|]. exists i. split; [exact I|]. intros j J. specialize (U (S j) J). lia.
Qed.

Lemma combine_fst : forall (A B : Type) (a : list A) (b : list B), length a = length b -> map fst (combine a b) = a.
Proof. intros A B. induction a; intros [|y b] L; try discriminate; cbn; [reflexivity|]. f_equal. apply IHa. cbn in L. lia. Qed.

Lemma lookup_spec : forall l keys name o, length keys = length l ->
  (lookup (combine keys (map snd l)) name = Some o <-> the_field l keys name o).
Proof.
  intros l keys name o L. unfold lookup. rewrite str_ascii. set (c := combine keys (map snd l)).
  assert (M : map fst c = keys) by (apply combine_fst; rewrite map_length; exact L).
  destruct o as [v|]; cbn [the_field].
  - pose proof (filter_one c (ascii name) v) as FO. rewrite M in FO. unfold c in FO at 2. rewrite <- FO. destruct (filter _ c) as [|f [|g t]].
    + split; [discriminate|]. intros (f & E & _). discriminate.
    + split; [intros E; injection E as <-; eauto|]. intros (f' & E & <-). injection E as ->. reflexivity.
    + split; [discriminate|]. intros (f' & E & _). discriminate.
  - pose proof (filter_none c (ascii name)) as FO. rewrite M in FO. rewrite <- FO. destruct (filter _ c) as [|f [|g t]]; split; congruence.
Qed.

Lemma lookups_spec : forall l keys, length keys = length l -> forall names os,
  lookups (combine keys (map snd l)) names = Some os <-> Forall2 (the_field l keys) names os.
Proof.
  intros l keys L. induction names as [|n names IH]; intros os; cbn [lookups].
  - split; [intros E; injection E as <-; constructor|]. intros F. inversion F. reflexivity.
  - split.
    + intros E. apply some_in in E. destruct E as (a & E1 & E). apply some_in in E. destruct E as (r & E2 & E). injection E as <-.
      constructor; [apply lookup_spec; assumption|apply IH; exact E2].
    + intros F. inversion F; subst. apply some_in. exists y. split; [apply lookup_spec; assumption|].
      apply some_in. exists l'. split; [apply IH; assumption|reflexivity].
Qed.

Lemma Forall2_length : forall (A B : Type) (P : A -> B -> Prop) l m, Forall2 P l m -> length l = length m.
Proof. intros A B P l m H. induction H; cbn; congruence. Qed.

Lemma jfields_spec : forall names v os, jfields names v = Some os <-> record names v os.
Proof.
  intros names v os. unfold record. split.
  - intros E. destruct v as [| | | |l|l]; try discriminate; cbn [jfields] in E.
    + right. destruct (Nat.eqb_spec (length l) (length names)) as [L|]; [|discriminate]. injection E as <-. eauto.
    + left. apply some_in in E. destruct E as (l' & P & E). apply pairs_spec in P. destruct P as (keys & F & ->).
      exists l, keys. split; [reflexivity|]. split; [exact F|]. apply lookups_spec; [|exact E]. symmetry. exact (Forall2_length _ _ _ _ _ F).
  - intros [(l & keys & -> & F & G)|(l & -> & L & ->)]; cbn [jfields].
    + apply some_in. exists (combine keys (map snd l)). split; [apply pairs_spec; eauto|].
      apply lookups_spec; [symmetry; exact (Forall2_length _ _ _ _ _ F)|exact G].
    + rewrite L, Nat.eqb_refl. reflexivity.
Qed.

Lemma record_length : forall names v os, record names v os -> length os = length names.
Proof.
  intros names v os [(l & keys & -> & F & G)|(l & -> & L & ->)]; [symmetry; exact (Forall2_length _ _ _ _ _ G)|].
  rewrite map_length. exact L.
Qed.

(** ** Sketches *)
Ltac some E x H := apply some_in in E; destruct E as (x & H & E).
Ltac here E o x H := some E x H; unfold present in H; destruct o as [o|]; [cbn [obind] in H|discriminate H].

Lemma jde_registers_spec : forall e v r, jde_registers e v = Some r <-> is_registers e v r.
Proof.
  intros e v r. unfold jde_registers, is_registers. split.
  - intros E. destruct (jfields _ v) as [os|] eqn:J; [|discriminate]. apply jfields_spec in J.
    destruct os as [|b [|c [|z [|? ?]]]]; try discriminate.
    here E b b' B. here E c c' C. here E z z' ZZ. injection E as <-. exists b, c, z. cbn.
    split; [exact J|]. rewrite <- !jde_uint_spec. split; [|tauto].
    revert B. apply jde_seq_spec. exact (jde_uint_spec 32).
  - intros (b & c & z & R & B & C & Z). apply jfields_spec in R. rewrite R. cbn [present obind].
    apply jde_uint_spec in C, Z. apply (jde_seq_spec _ _ _ _ _ (jde_uint_spec 32)) in B. rewrite B, C, Z. destruct r; reflexivity.
Qed.

Lemma jde_dif_spec : forall e v d, jde_dif e v = Some d <-> is_list e v d.
Proof.
  intros e v d. unfold jde_dif, is_list. split.
  - intros E. destruct (jfields _ v) as [os|] eqn:J; [|discriminate]. apply jfields_spec in J.
    destruct os as [|c [|l [|b [|? ?]]]]; try discriminate.
    here E c c' C. here E l l' L. here E b b' B. injection E as <-. exists c, l, b. cbn.
    split; [exact J|]. rewrite <- !jde_uint_spec. split; [exact C|]. split; [exact L|].
    revert B. apply jde_seq_spec. exact (jde_uint_spec 8).
  - intros (c & l & b & R & C & L & B). apply jfields_spec in R. rewrite R. cbn [present obind].
    apply jde_uint_spec in C, L. apply (jde_seq_spec _ _ _ _ _ (jde_uint_spec 8)) in B. rewrite B, C, L. destruct d; reflexivity.
Qed.

Lemma jde_pf_spec : forall (V : Type) e de_b v (s : pf V), jde_pf e de_b v = Some s <-> is_pf e de_b v s.
Proof.
  intros V e de_b v s. unfold jde_pf, is_pf. split.
  - intros E. destruct (jfields _ v) as [os|] eqn:J; [|discriminate]. apply jfields_spec in J.
    destruct os as [|b [|c [|p [|r [|u [|? ?]]]]]]; try discriminate.
    here E b b' B. here E c c' C. here E p p' P. here E r r' R. here E u u' U. injection E as <-.
    destruct u; try discriminate U. exists b, c, p, r. cbn. rewrite <- !jde_uint_spec, <- jde_registers_spec. tauto.
  - intros (b & c & p & r & R & B & C & P & G). apply jfields_spec in R. rewrite R. cbn [present obind].
    apply jde_uint_spec in C, P. apply jde_registers_spec in G. rewrite B. cbn [obind]. rewrite C, P, G. cbn. destruct s; reflexivity.
Qed.

Lemma jde_triple_spec : forall e v a b c, jde_triple e v = Some (a, b, c) <-> array (unsigned (usize_bits e)) v [a; b; c].
Proof.
  intros e v a b c. unfold jde_triple. rewrite <- (jde_seq_spec _ _ _ _ _ (jde_uint_spec (usize_bits e))).
  destruct (jde_seq _ v) as [[|x [|y [|z [|? ?]]]]|]; split; intros E; try discriminate; injection E as <- <- <-; reflexivity.
Qed.

Lemma jde_option_spec : forall (A : Type) f (P : json -> A -> Prop) o x, (forall v a, f v = Some a <-> P v a) -> (forall a, ~ P JNull a) ->
  (jde_option f o = Some x <-> x = None /\ (o = None \/ o = Some JNull) \/ exists v a, x = Some a /\ o = Some v /\ P v a).
Proof.
  intros A f P o x H N. split.
  - intros E. destruct o as [v|]; [|injection E as <-; tauto].
    destruct v; cbn [jde_option] in E; [injection E as <-; tauto| | | | |];
      some E a F; injection E as <-; right; eexists _, a; (split; [reflexivity|]); (split; [reflexivity|]); apply H; exact F.
  - intros [(-> & [->| ->])|(v & a & -> & -> & Q)]; try reflexivity. destruct v; [destruct (N a Q)| | | | |]; cbn [jde_option];
      apply some_in; exists a; (split; [apply H; exact Q|reflexivity]).
Qed.

Lemma jde_plus_spec : forall (V : Type) e de_b v (s : plus V), jde_plus e de_b v = Some s <-> is_plus e de_b v s.
Proof.
  intros V e de_b v s. unfold jde_plus, is_plus.
  assert (NULL : forall a, ~ is_registers e JNull a).
  { intros a (b & c & z & [(? & ? & E & _)|(? & E & _)] & _); discriminate. }
  split.
  - intros E. destruct (jfields _ v) as [os|] eqn:J; [|discriminate]. apply jfields_spec in J.
    destruct os as [|b [|p [|c [|t [|d [|r [|u [|? ?]]]]]]]]; try discriminate.
    here E b b' B. here E p p' P. here E c c' C. destruct c' as [[c0 c1] c2]. here E t t' T. here E d d' D.
    some E r' R. here E u u' U. injection E as <-. destruct u; try discriminate U.
    exists b, p, c, t, d, r, t'. cbn. rewrite <- jde_uint_spec, <- jde_dif_spec.
    apply jde_triple_spec in C. apply (jde_option_spec _ _ _ _ _ (jde_registers_spec e) NULL) in R.
    apply (jde_seq_spec _ _ _ _ _ (jde_uint_spec 32)) in T. tauto.
  - intros (b & p & c & t & d & r & codes & R & B & P & C & T & TT & D & G). apply jfields_spec in R. rewrite R. cbn [present obind].
    apply jde_uint_spec in P. apply jde_triple_spec in C. apply (jde_seq_spec _ _ _ _ _ (jde_uint_spec 32)) in T.
    apply jde_dif_spec in D. apply (jde_option_spec _ _ _ _ _ (jde_registers_spec e) NULL) in G.
    rewrite B. cbn [obind]. rewrite P, C, T, D, G. cbn -[fold_left hset_insert]. rewrite <- TT. destruct s; reflexivity.
Qed.

Lemma pf_text_spec : forall (V : Type) e de_b t (s : pf V), pf_of_text e de_b t = Some s <-> exists v, document v t /\ is_pf e de_b v s.
Proof.
  intros V e de_b t s. unfold pf_of_text. rewrite some_in. split; intros (v & D & S); exists v;
    [rewrite <- parse_spec, <- jde_pf_spec|rewrite parse_spec, jde_pf_spec]; tauto.
Qed.
Lemma plus_text_spec : forall (V : Type) e de_b t (s : plus V),
  plus_of_text e de_b t = Some s <-> exists v, document v t /\ is_plus e de_b v s.
Proof.
  intros V e de_b t s. unfold plus_of_text. rewrite some_in. split; intros (v & D & S); exists v;
    [rewrite <- parse_spec, <- jde_plus_spec|rewrite parse_spec, jde_plus_spec]; tauto.
Qed.
