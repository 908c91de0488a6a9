(** * The JSON reader accepts exactly the JSON grammar *)
From Coq Require Import String.
From Coq Require Import NArith List Bool Lia.
From Verif Require Import ModelRust ModelSerde ModelFiles ModelJson SpecFiles SpecJson.
Import ListNotations.
Local Open Scope N_scope.

Ltac beq := repeat match goal with
  | H : context [N.eqb ?a ?b] |- _ => destruct (N.eqb_spec a b); [subst|]; cbn [orb andb negb] in H
  | |- context [N.eqb ?a ?b] => destruct (N.eqb_spec a b); [subst|]; cbn [orb andb negb] end.

Lemma is_digit_spec : forall c, is_digit c = true <-> digit c.
Proof. intros c. unfold is_digit, digit. rewrite andb_true_iff, !N.leb_le. tauto. Qed.
Lemma is_digit_false : forall c, is_digit c = false <-> ~ digit c.
Proof. intros c. rewrite <- is_digit_spec. destruct (is_digit c); intuition congruence. Qed.

Lemma is_space_spec : forall c, is_space c = true <-> In c [32; 9; 10; 13].
Proof.
  intros c. unfold is_space. cbn [In]. rewrite !orb_true_iff, !N.eqb_eq. intuition congruence.
Qed.

(** White space. *)
Definition starts (P : N -> Prop) (s : bytes) : Prop := match s with [] => False | c :: _ => P c end.
Definition stops (P : N -> Prop) (s : bytes) : Prop := match s with [] => True | c :: _ => ~ P c end.

Lemma skip_spec : forall s, exists b, s = b ++ skip s /\ blank b /\ stops (fun c => is_space c = true) (skip s).
Proof.
  induction s as [|c s IH]; cbn [skip]; [exists []; repeat split; constructor|].
  destruct (is_space c) eqn:E.
  - destruct IH as (b & E1 & B & S). exists (c :: b). split; [cbn; congruence|]. split; [|exact S].
    constructor; [now apply is_space_spec|exact B].
  - exists []. repeat split; [constructor|]. cbn. congruence.
Qed.

Lemma skip_blank : forall b s, blank b -> stops (fun c => is_space c = true) s -> skip (b ++ s) = s.
Proof.
  induction b as [|c b IH]; intros s B S; cbn [app skip].
  - destruct s as [|c s]; [reflexivity|]. cbn in *. destruct (is_space c); [exfalso; auto|reflexivity].
  - inversion B; subst. apply is_space_spec in H1. cbn [skip]. rewrite H1. apply IH; assumption.
Qed.

(** Digits and numbers. *)
Lemma digits_sound : forall s d r, scan_digits s = (d, r) -> s = d ++ r /\ Forall digit d /\ stops digit r.
Proof.
  induction s as [|c s IH]; intros d r E; cbn in E; [injection E as <- <-; repeat split; constructor|].
  destruct (is_digit c) eqn:D.
  - destruct (scan_digits s) as [d' r']. injection E as <- <-. destruct (IH _ _ eq_refl) as (-> & F & S).
    repeat split; [constructor; [now apply is_digit_spec|exact F]|exact S].
  - injection E as <- <-. repeat split; [constructor|]. cbn. now apply is_digit_false.
Qed.
Lemma digits_complete : forall d r, Forall digit d -> stops digit r -> scan_digits (d ++ r) = (d, r).
Proof.
  induction d as [|c d IH]; intros r F S; cbn [app].
  - destruct r as [|c r]; [reflexivity|]. cbn in *. apply is_digit_false in S. rewrite S. reflexivity.
  - inversion F; subst. cbn [scan_digits]. apply is_digit_spec in H1. rewrite H1, IH by assumption. reflexivity.
Qed.

(** What can follow a value. *)
Definition closes (c : N) : Prop := In c [32; 9; 10; 13; 44; 93; 125].
Definition ends (s : bytes) : Prop := match s with [] => True | c :: _ => closes c end.

Lemma closes_not : forall c, closes c -> ~ digit c /\ c <> 46 /\ c <> 101 /\ c <> 69.
Proof. intros c H. unfold closes in H. cbn [In] in H. unfold digit. intuition lia. Qed.

Lemma number_sound : forall s t r, scan_number s = Some (t, r) -> s = t ++ r /\ number t.
Proof.
  intros s t r E. unfold scan_number in E.
  destruct (scan_minus s) as [g s1] eqn:E1.
  assert (A1 : s = g ++ s1 /\ In g [[]; ascii "-"]).
  { unfold scan_minus in E1. destruct s as [|c s']; [injection E1 as <- <-; split; [reflexivity|left; reflexivity]|].
    beq; injection E1 as <- <-; (split; [reflexivity|]); [right; left; reflexivity|left; reflexivity]. }
  destruct A1 as [-> M].
  destruct (scan_int s1) as [[i s2]|] eqn:E2; [cbn in E|discriminate].
  assert (A2 : s1 = i ++ s2 /\ (i = ascii "0" \/ exists c d, i = c :: d /\ 49 <= c <= 57 /\ Forall digit d)).
  { unfold scan_int in E2. destruct s1 as [|c s']; [discriminate|]. destruct (N.eqb_spec c 48) as [->|C].
    - injection E2 as <- <-. split; [reflexivity|left; reflexivity].
    - destruct (is_digit c) eqn:D; [|discriminate]. destruct (scan_digits s') as [d r'] eqn:DS.
      injection E2 as <- <-. destruct (digits_sound _ _ _ DS) as (-> & F & _). split; [reflexivity|]. right. exists c, d.
      apply is_digit_spec in D. unfold digit in D. repeat split; [lia|lia|exact F]. }
  destruct A2 as [-> I].
  destruct (scan_frac s2) as [[f s3]|] eqn:E3; [cbn in E|discriminate].
  assert (A3 : s2 = f ++ s3 /\ (f = [] \/ exists d, f = ascii "." ++ d /\ d <> [] /\ Forall digit d)).
  { unfold scan_frac in E3. destruct s2 as [|c s']; [injection E3 as <- <-; auto|]. destruct (N.eqb_spec c 46) as [->|C].
    - destruct (scan_digits s') as [d r'] eqn:DS. destruct d as [|x d]; [discriminate|]. injection E3 as <- <-.
      destruct (digits_sound _ _ _ DS) as (-> & F & _). split; [reflexivity|]. right. exists (x :: d).
      repeat split; [discriminate|exact F].
    - injection E3 as <- <-. auto. }
  destruct A3 as [-> Fr].
  destruct (scan_exp s3) as [[x s4]|] eqn:E4; [cbn in E|discriminate]. injection E as <- <-.
  assert (A4 : s3 = x ++ s4 /\ (x = [] \/ exists y g d, x = y ++ g ++ d /\ In y [ascii "e"; ascii "E"] /\ In g [[]; ascii "+"; ascii "-"] /\
                               d <> [] /\ Forall digit d)).
  { unfold scan_exp in E4. destruct s3 as [|c s']; [injection E4 as <- <-; auto|].
    destruct ((c =? 101) || (c =? 69)) eqn:C.
    - destruct (scan_sign s') as [h s''] eqn:SG. destruct (scan_digits s'') as [d r'] eqn:DS. destruct d as [|z d]; [discriminate|].
      injection E4 as <- <-. destruct (digits_sound _ _ _ DS) as (-> & F & _).
      assert (s' = h ++ (z :: d) ++ r' /\ In h [[]; ascii "+"; ascii "-"]) as [-> H].
      { unfold scan_sign in SG. destruct s' as [|c' s']; [injection SG as <- SG; discriminate|].
        destruct ((c' =? 43) || (c' =? 45)) eqn:Q; injection SG as <- SG; cbn [app] in *; (split; [congruence|]).
        - apply orb_true_iff in Q. rewrite !N.eqb_eq in Q. destruct Q as [->| ->]; cbn; auto.
        - cbn; auto. }
      split; [cbn; rewrite <- !app_assoc; reflexivity|]. right. exists [c], h, (z :: d). split; [reflexivity|].
      apply orb_true_iff in C. rewrite !N.eqb_eq in C. split; [destruct C as [->| ->]; cbn; auto|]. repeat split; auto; discriminate.
    - injection E4 as <- <-. auto. }
  destruct A4 as [-> X]. split; [rewrite <- !app_assoc; reflexivity|]. exists g, i, f, x. auto.
Qed.

Lemma number_complete : forall t r, number t -> ends r -> scan_number (t ++ r) = Some (t, r).
Proof.
  intros t r (g & i & f & x & -> & M & I & F & X) R.
  assert (X1 : exists z, scan_exp (x ++ r) = Some (x, z) /\ z = r).
  { exists r. split; [|reflexivity]. destruct X as [->|(y & h & d & -> & Y & H & N & D)].
    - destruct r as [|c r]; [reflexivity|]. cbn in R. apply closes_not in R. cbn [app scan_exp]. beq; intuition congruence.
    - assert (scan_digits (d ++ r) = (d, r)).
      { apply digits_complete; [exact D|]. destruct r as [|c r]; [constructor|]. cbn in *. now apply closes_not. }
      assert (S : scan_sign (h ++ d ++ r) = (h, d ++ r)).
      { destruct d as [|c d]; [congruence|]. pose proof (Forall_inv D) as DC. unfold digit in DC.
        destruct H as [<-|[<-|[<-|[]]]]; cbn [app ascii scan_sign]; beq; try reflexivity; lia. }
      assert (E : exists c, y = [c] /\ (c =? 101) || (c =? 69) = true).
      { destruct Y as [<-|[<-|[]]]; eexists; split; reflexivity. }
      destruct E as (c & -> & C). cbn [app scan_exp]. rewrite C. rewrite <- app_assoc, S, H0.
      destruct d; [congruence|]. reflexivity. }
  destruct X1 as (? & X1 & ->).
  assert (XS : stops (fun c => digit c \/ c = 46) (x ++ r)).
  { destruct X as [->|(y & h & d & -> & Y & _)].
    - destruct r as [|c r]; [constructor|]. cbn in *. apply closes_not in R. tauto.
    - destruct Y as [<-|[<-|[]]]; cbn; unfold digit; lia. }
  assert (F1 : scan_frac (f ++ x ++ r) = Some (f, x ++ r)).
  { destruct F as [->|(d & -> & N & D)].
    - cbn [app]. destruct (x ++ r) as [|c z]; [reflexivity|]. cbn [stops scan_frac] in *. beq; [exfalso; auto|reflexivity].
    - assert (H : scan_digits (d ++ x ++ r) = (d, x ++ r)).
      { apply digits_complete; [exact D|]. destruct (x ++ r); [constructor|]. cbn in *. tauto. }
      cbn. rewrite H. destruct d; [congruence|]. reflexivity. }
  assert (FS : stops digit (f ++ x ++ r)).
  { destruct F as [->|(d & -> & _)]; [|cbn; unfold digit; lia]. cbn. destruct (x ++ r); [constructor|]. cbn in *. tauto. }
  assert (I1 : scan_int (i ++ f ++ x ++ r) = Some (i, f ++ x ++ r)).
  { destruct I as [->|(c & d & -> & C & D)]; [reflexivity|]. cbn [app scan_int].
    destruct (N.eqb_spec c 48); [lia|]. assert (Q : is_digit c = true) by (apply is_digit_spec; unfold digit; lia). rewrite Q.
    rewrite digits_complete by assumption. reflexivity. }
  assert (G1 : scan_minus (g ++ i ++ f ++ x ++ r) = (g, i ++ f ++ x ++ r)).
  { destruct M as [<-|[<-|[]]]; [|reflexivity]. cbn [app].
    destruct I as [->|(c & d & -> & C & D)]; [reflexivity|]. cbn [app scan_minus]. beq; [lia|reflexivity]. }
  unfold scan_number. rewrite <- !app_assoc, G1, I1. cbn [obind]. rewrite F1. cbn [obind]. rewrite X1. cbn [obind].
  reflexivity.
Qed.

(** Strings. *)
Lemma hex_value_spec : forall c n, hex_value c = Some n <-> hex_of c n.
Proof.
  intros c n. unfold hex_value, hex_of. destruct (is_digit c) eqn:D.
  - apply is_digit_spec in D. unfold digit in D. split; [intros E; injection E as <-; left; lia|].
    intros [[_ ->]|[[H _]|[H _]]]; [reflexivity|lia|lia].
  - apply is_digit_false in D. unfold digit in D.
    destruct ((97 <=? c) && (c <=? 102)) eqn:A; rewrite ?andb_true_iff, ?andb_false_iff, ?N.leb_le, ?N.leb_gt in A.
    + split; [intros E; injection E as <-; right; right; lia|]. intros [[H _]|[[H _]|[_ ->]]]; [lia|lia|]. f_equal. lia.
    + destruct ((65 <=? c) && (c <=? 70)) eqn:B; rewrite ?andb_true_iff, ?andb_false_iff, ?N.leb_le, ?N.leb_gt in B.
      * split; [intros E; injection E as <-; right; left; lia|]. intros [[H _]|[[_ ->]|[H _]]]; [lia| |lia]. f_equal. lia.
      * split; [discriminate|]. intros [[H _]|[[H _]|[H _]]]; lia.
Qed.

Lemma hex_of_hexadecimal : forall c, hexadecimal c <-> exists n, hex_of c n.
Proof.
  intros c. unfold hexadecimal, hex_of. split.
  - intros [H|[H|H]]; [exists (c - 48)|exists (c - 65 + 10)|exists (c - 97 + 10)]; tauto.
  - intros (n & H). tauto.
Qed.

Lemma hex4_spec : forall a b c d n, hex4 a b c d = Some n <-> code_of [a; b; c; d] n.
Proof.
  intros a b c d n. unfold hex4, code_of. split.
  - intros E. destruct (hex_value a) as [x|] eqn:A; [cbn [obind] in E|discriminate].
    destruct (hex_value b) as [y|] eqn:B; [cbn [obind] in E|discriminate].
    destruct (hex_value c) as [z|] eqn:C; [cbn [obind] in E|discriminate].
    destruct (hex_value d) as [t|] eqn:D; [cbn [obind] in E|discriminate]. injection E as <-.
    exists a, b, c, d, x, y, z, t. rewrite <- !hex_value_spec. repeat split; auto. lia.
  - intros (a' & b' & c' & d' & x & y & z & t & E & A & B & C & D & ->). injection E as <- <- <- <-.
    apply hex_value_spec in A, B, C, D. rewrite A, B, C, D. cbn [obind]. f_equal. lia.
Qed.

Lemma code_hexadecimal : forall a b c d,
  (exists n, hex4 a b c d = Some n) <-> hexadecimal a /\ hexadecimal b /\ hexadecimal c /\ hexadecimal d.
Proof.
  intros a b c d. rewrite !hex_of_hexadecimal. split.
  - intros (n & E). apply hex4_spec in E. destruct E as (a' & b' & c' & d' & x & y & z & t & E & A & B & C & D & _).
    injection E as <- <- <- <-. eauto 10.
  - intros ((x & A) & (y & B) & (z & C) & (t & D)). apply hex_value_spec in A, B, C, D. unfold hex4. rewrite A, B, C, D. cbn. eauto.
Qed.

Lemma short_escape_spec : forall c x, short_escape c = Some x <->
  In (c, x) [(34, 34); (92, 92); (47, 47); (98, 8); (102, 12); (110, 10); (114, 13); (116, 9)].
Proof.
  intros c x. unfold short_escape. cbn [In]. split.
  - intros H. beq; try (injection H as <-; tauto); discriminate.
  - intros H. repeat (destruct H as [H|H]; [injection H as <- <-; reflexivity|]). destruct H.
Qed.

Lemma short_char : forall c, (exists x, short_escape c = Some x) <->
  In [c] [[34]; [92]; ascii "/"; ascii "b"; ascii "f"; ascii "n"; ascii "r"; ascii "t"].
Proof.
  intros c. split.
  - intros (x & H). apply short_escape_spec in H. cbn [In] in H.
    repeat (destruct H as [H|H]; [injection H as <- <-; cbn; tauto|]). destruct H.
  - intros H. cbn -[ascii] in H. repeat (destruct H as [H|H]; [injection H as <-; eexists; reflexivity|]). destruct H.
Qed.

Lemma chars_sound : forall n s t r, (length s <= n)%nat -> scan_chars s = Some (t, r) -> s = t ++ [34] ++ r /\ chars t.
Proof.
  induction n as [|n IH]; intros s t r L E; (destruct s as [|c s]; [discriminate|]); cbn in L; [lia|].
  cbn [scan_chars] in E. destruct (N.eqb_spec c 34) as [->|C1]; [injection E as <- <-; split; [reflexivity|constructor]|].
  destruct (N.eqb_spec c 92) as [->|C2].
  - destruct s as [|c1 s]; [discriminate|]. destruct (N.eqb_spec c1 117) as [->|C3].
    + destruct s as [|h1 [|h2 [|h3 [|h4 s]]]]; try discriminate.
      destruct (hex4 h1 h2 h3 h4) as [m|] eqn:H; [cbn [obind] in E|discriminate].
      destruct (scan_chars s) as [[t' r']|] eqn:Q; [cbn [obind] in E|discriminate]. injection E as <- <-.
      destruct (IH s t' r') as [-> T]; [cbn in L; lia|exact Q|]. split; [reflexivity|].
      destruct (proj1 (code_hexadecimal h1 h2 h3 h4) (ex_intro _ m H)) as (A & B & C & D). exact (Chars_code h1 h2 h3 h4 t' A B C D T).
    + destruct (short_escape c1) as [m|] eqn:H; [cbn [obind] in E|discriminate].
      destruct (scan_chars s) as [[t' r']|] eqn:Q; [cbn [obind] in E|discriminate]. injection E as <- <-.
      destruct (IH s t' r') as [-> T]; [cbn in L; lia|exact Q|]. split; [reflexivity|].
      constructor; [apply short_char; eauto|exact T].
  - destruct (N.ltb_spec c 32) as [C3|C3]; [discriminate|].
    destruct (scan_chars s) as [[t' r']|] eqn:Q; [cbn [obind] in E|discriminate]. injection E as <- <-.
    destruct (IH s t' r') as [-> T]; [lia|exact Q|]. split; [reflexivity|]. constructor; assumption.
Qed.

Lemma chars_complete : forall t r, chars t -> scan_chars (t ++ [34] ++ r) = Some (t, r).
Proof.
  intros t r H. induction H as [|c s A B C H IH|c s A H IH|a b c d s A B C D H IH]; cbn [app] in *.
  - reflexivity.
  - cbn [scan_chars]. rewrite IH. destruct (N.eqb_spec c 34); [congruence|]. destruct (N.eqb_spec c 92); [congruence|].
    destruct (N.ltb_spec c 32); [lia|]. reflexivity.
  - cbn [scan_chars]. change (92 =? 34) with false. change (92 =? 92) with true. cbv iota. rewrite IH.
    apply short_char in A. destruct A as (x & A). rewrite A.
    destruct (N.eqb_spec c 117) as [->|]; [discriminate A|]. reflexivity.
  - change (scan_chars (92 :: 117 :: a :: b :: c :: d :: s ++ 34 :: r) = Some (92 :: 117 :: a :: b :: c :: d :: s, r)). cbn [scan_chars].
    change (92 =? 34) with false. change (92 =? 92) with true. change (117 =? 117) with true. cbv iota.
    destruct (proj2 (code_hexadecimal a b c d) (conj A (conj B (conj C D)))) as (n & E). rewrite E, IH. reflexivity.
Qed.

Lemma chars_complete1 : forall t r, chars t -> scan_chars (t ++ 34 :: r) = Some (t, r).
Proof. exact chars_complete. Qed.

Lemma strip_spec : forall lit s r, strip lit s = Some r <-> s = lit ++ r.
Proof.
  induction lit as [|c lit IH]; intros s r; cbn [strip app]; [split; congruence|].
  destruct s as [|c' s]; [split; discriminate|]. destruct (N.eqb_spec c' c) as [->|C].
  - rewrite IH. split; [intros ->; reflexivity|intros E; injection E; auto].
  - split; [discriminate|]. intros E. injection E as E _. congruence.
Qed.

Scheme value_elim := Minimality for value Sort Prop
  with elements_elim := Minimality for elements Sort Prop
  with members_elim := Minimality for members Sort Prop.
Combined Scheme grammar_elim from value_elim, elements_elim, members_elim.

Lemma blank_app : forall a b, blank a -> blank b -> blank (a ++ b).
Proof. intros a b A B. apply Forall_app. auto. Qed.
Lemma elements_blank : forall a l t, blank a -> elements l t -> elements l (a ++ t).
Proof.
  intros a l t A H. inversion H; subst; rewrite app_assoc; constructor; auto using blank_app.
Qed.
Lemma members_blank : forall a l t, blank a -> members l t -> members l (a ++ t).
Proof.
  intros a l t A H. inversion H; subst; rewrite app_assoc; constructor; auto using blank_app.
Qed.

(** ** Soundness *)
Lemma parse_sound : forall f,
  (forall s v r, parse_value f s = Some (v, r) -> exists t, s = t ++ r /\ value v t) /\
  (forall s l r, parse_elements f s = Some (l, r) -> exists t, s = t ++ ascii "]" ++ r /\ elements l t) /\
  (forall s l r, parse_members f s = Some (l, r) -> exists t, s = t ++ ascii "}" ++ r /\ members l t).
Proof.
  induction f as [|f (IHv & IHe & IHm)]; [repeat split; discriminate|]. split; [|split].
  - intros s v r E. cbn [parse_value] in E. destruct s as [|c s]; [discriminate|].
    destruct (N.eqb_spec c 110) as [->|C1].
    { destruct (strip (str "ull") s) as [r'|] eqn:S; [cbn [obind] in E|discriminate]. injection E as <- <-.
      apply strip_spec in S. subst s. exists (ascii "null"). split; [reflexivity|constructor]. }
    destruct (N.eqb_spec c 116) as [->|C2].
    { destruct (strip (str "rue") s) as [r'|] eqn:S; [cbn [obind] in E|discriminate]. injection E as <- <-.
      apply strip_spec in S. subst s. exists (ascii "true"). split; [reflexivity|constructor]. }
    destruct (N.eqb_spec c 102) as [->|C3].
    { destruct (strip (str "alse") s) as [r'|] eqn:S; [cbn [obind] in E|discriminate]. injection E as <- <-.
      apply strip_spec in S. subst s. exists (ascii "false"). split; [reflexivity|constructor]. }
    destruct (N.eqb_spec c 34) as [->|C4].
    { destruct (scan_chars s) as [[t r']|] eqn:S; [cbn [obind] in E|discriminate]. injection E as <- <-.
      apply (chars_sound _ _ _ _ (le_n _)) in S. destruct S as [-> H]. exists ([34] ++ t ++ [34]).
      split; [cbn; rewrite <- app_assoc; reflexivity|constructor; exact H]. }
    destruct (N.eqb_spec c 91) as [->|C5].
    { destruct (skip_spec s) as (b & Q & B & _). destruct (skip s) as [|c2 s2]; [discriminate|].
      destruct (N.eqb_spec c2 93) as [->|D].
      - injection E as <- <-. subst s. exists (ascii "[" ++ b ++ ascii "]"). split; [cbn; rewrite <- app_assoc; reflexivity|constructor; exact B].
      - destruct (parse_elements f (c2 :: s2)) as [[l r']|] eqn:P; [cbn [obind] in E|discriminate]. injection E as <- <-.
        destruct (IHe _ _ _ P) as (t & T & H). rewrite T in Q. subst s. exists (ascii "[" ++ (b ++ t) ++ ascii "]").
        split; [cbn; rewrite <- !app_assoc; reflexivity|]. constructor. apply elements_blank; assumption. }
    destruct (N.eqb_spec c 123) as [->|C6].
    { destruct (skip_spec s) as (b & Q & B & _). destruct (skip s) as [|c2 s2]; [discriminate|].
      destruct (N.eqb_spec c2 125) as [->|D].
      - injection E as <- <-. subst s. exists (ascii "{" ++ b ++ ascii "}"). split; [cbn; rewrite <- app_assoc; reflexivity|constructor; exact B].
      - destruct (parse_members f (c2 :: s2)) as [[l r']|] eqn:P; [cbn [obind] in E|discriminate]. injection E as <- <-.
        destruct (IHm _ _ _ P) as (t & T & H). rewrite T in Q. subst s. exists (ascii "{" ++ (b ++ t) ++ ascii "}").
        split; [cbn; rewrite <- !app_assoc; reflexivity|]. constructor. apply members_blank; assumption. }
    destruct (scan_number (c :: s)) as [[t r']|] eqn:S; [cbn [obind] in E|discriminate]. injection E as <- <-.
    apply number_sound in S. destruct S as [-> H]. exists t. split; [reflexivity|constructor; exact H].
  - intros s l r E. cbn [parse_elements] in E.
    destruct (parse_value f s) as [[v s1]|] eqn:P; [cbn [obind] in E|discriminate].
    destruct (IHv _ _ _ P) as (t & -> & T). destruct (skip_spec s1) as (b & Q & B & _).
    destruct (skip s1) as [|c s2]; [discriminate|]. destruct (N.eqb_spec c 93) as [->|C].
    + injection E as <- <-. subst s1. exists ([] ++ t ++ b). split; [cbn; rewrite <- app_assoc; reflexivity|].
      constructor; [constructor|exact T|exact B].
    + destruct (N.eqb_spec c 44) as [->|D]; [|discriminate].
      destruct (parse_elements f (skip s2)) as [[l' r']|] eqn:P2; [cbn [obind] in E|discriminate]. injection E as <- <-.
      destruct (IHe _ _ _ P2) as (t2 & T2 & H2). destruct (skip_spec s2) as (b2 & Q2 & B2 & _). rewrite T2 in Q2. subst s2 s1.
      exists ([] ++ t ++ b ++ ascii "," ++ (b2 ++ t2)). split; [cbn; rewrite <- !app_assoc; cbn; rewrite <- !app_assoc; reflexivity|].
      constructor; [constructor|exact T|exact B|]. apply elements_blank; assumption.
  - intros s l r E. cbn [parse_members] in E.
    destruct (strip [34] s) as [s1|] eqn:S; [cbn [obind] in E|discriminate]. apply strip_spec in S. subst s.
    destruct (scan_chars s1) as [[k s2]|] eqn:K; [cbn [obind] in E|discriminate].
    apply (chars_sound _ _ _ _ (le_n _)) in K. destruct K as [-> K].
    destruct (strip [58] (skip s2)) as [s3|] eqn:S; [cbn [obind] in E|discriminate]. apply strip_spec in S.
    destruct (skip_spec s2) as (b1 & Q1 & B1 & _). rewrite S in Q1. subst s2. clear S.
    destruct (parse_value f (skip s3)) as [[v s4]|] eqn:P; [cbn [obind] in E|discriminate].
    destruct (IHv _ _ _ P) as (t & T0 & T). destruct (skip_spec s3) as (b2 & Q2 & B2 & _). rewrite T0 in Q2. subst s3. clear T0 P.
    destruct (skip_spec s4) as (b3 & Q3 & B3 & _). destruct (skip s4) as [|c s5]; [discriminate|].
    destruct (N.eqb_spec c 125) as [->|C].
    + injection E as <- <-. subst s4. exists ([] ++ ([34] ++ k ++ [34]) ++ b1 ++ ascii ":" ++ b2 ++ t ++ b3).
      split; [cbn; repeat (rewrite <- !app_assoc; cbn); reflexivity|]. constructor; auto. constructor.
    + destruct (N.eqb_spec c 44) as [->|D]; [|discriminate].
      destruct (parse_members f (skip s5)) as [[l' r']|] eqn:P2; [cbn [obind] in E|discriminate]. injection E as <- <-.
      destruct (IHm _ _ _ P2) as (t2 & T2 & H2). destruct (skip_spec s5) as (b4 & Q4 & B4 & _). rewrite T2 in Q4. subst s5 s4.
      exists ([] ++ ([34] ++ k ++ [34]) ++ b1 ++ ascii ":" ++ b2 ++ t ++ b3 ++ ascii "," ++ (b4 ++ t2)).
      split; [cbn; repeat (rewrite <- !app_assoc; cbn); reflexivity|]. constructor; auto; [constructor|].
      apply members_blank; assumption.
Qed.

(** ** Completeness *)
Definition opens (c : N) : Prop := is_space c = false /\ c <> 93 /\ c <> 125.
Lemma number_opens : forall t, number t -> exists c t', t = c :: t' /\ (c = 45 \/ digit c).
Proof.
  intros t (g & i & f & x & -> & M & I & _). destruct M as [<-|[<-|[]]].
  - cbn [app]. destruct I as [->|(c & d & -> & C & D)]; [exists 48, (f ++ x)|exists c, (d ++ f ++ x)]; (split; [reflexivity|]);
      right; unfold digit; lia.
  - exists 45, (i ++ f ++ x). split; [reflexivity|]. left. reflexivity.
Qed.
Lemma value_opens : forall v t, value v t -> exists c t', t = c :: t' /\ opens c.
Proof.
  intros v t H. inversion H; subst; try (eexists _, _; split; [reflexivity|]; unfold opens; cbn; repeat split; discriminate).
  destruct (number_opens _ H0) as (c & t' & -> & D). exists c, t'. split; [reflexivity|].
  unfold opens, is_space, digit in *. beq; lia.
Qed.

Lemma opens_stops : forall c s, opens c -> stops (fun c => is_space c = true) (c :: s).
Proof. intros c s (A & _). cbn. congruence. Qed.

Lemma blank_ends : forall b s, blank b -> ends s -> ends (b ++ s).
Proof.
  intros [|c b] s B E; [exact E|]. cbn. inversion B; subst. unfold closes. cbn [In] in *. tauto.
Qed.

Lemma elements_opens : forall l t s, elements l t -> exists c t', skip (t ++ s) = c :: t' /\ opens c.
Proof.
  intros l t s H. inversion H as [v a u b A U B|v a u b l' w A U B W]; subst; destruct (value_opens _ _ U) as (c & u' & -> & O);
    eexists c, _; (split; [|exact O]); rewrite <- app_assoc, skip_blank; try assumption; try reflexivity;
    apply opens_stops; exact O.
Qed.
Lemma members_opens : forall l t s, members l t -> exists t', skip (t ++ s) = 34 :: t'.
Proof.
  intros l t s H. inversion H; subst; eexists; rewrite <- app_assoc, skip_blank; try assumption; try reflexivity;
    cbn; discriminate.
Qed.

Lemma parse_complete :
  (forall v t, value v t -> forall f r, ends r -> (length t <= f)%nat -> parse_value f (t ++ r) = Some (v, r)) /\
  (forall l t, elements l t -> forall f r, (length t < f)%nat -> parse_elements f (skip (t ++ 93 :: r)) = Some (l, r)) /\
  (forall l t, members l t -> forall f r, (length t < f)%nat -> parse_members f (skip (t ++ 125 :: r)) = Some (l, r)).
Proof.
  apply grammar_elim.
  - intros [|f] r R L; [cbn in L; lia|reflexivity].
  - intros [|f] r R L; [cbn in L; lia|reflexivity].
  - intros [|f] r R L; [cbn in L; lia|reflexivity].
  - intros t N f r R L. destruct (number_opens _ N) as (c & t' & E & D). pose proof (number_complete _ _ N R) as S.
    subst t. cbn [app length] in *. destruct f as [|f]; [lia|]. cbn [parse_value]. rewrite S. unfold digit in D. beq; try lia. reflexivity.
  - intros k K f r R L. destruct f as [|f]; [cbn in L; lia|]. cbn [app parse_value]. rewrite <- app_assoc, chars_complete by exact K. reflexivity.
  - intros b B f r R L. destruct f as [|f]; [cbn in L; lia|].
    change ((ascii "[" ++ b ++ ascii "]") ++ r) with (91 :: (b ++ [93]) ++ r). rewrite <- app_assoc. cbn [app parse_value].
    rewrite skip_blank; [|exact B|cbn; discriminate]. reflexivity.
  - intros l s H IH f r R L. destruct f as [|f]; [cbn in L; lia|].
    change ((ascii "[" ++ s ++ ascii "]") ++ r) with (91 :: (s ++ [93]) ++ r). rewrite <- app_assoc. cbn [app parse_value].
    specialize (IH f r). destruct (elements_opens l s (93 :: r) H) as (c & t' & E & _ & O & _). rewrite E in *.
    change (ascii "[" ++ s ++ ascii "]") with (91 :: s ++ [93]) in L. cbn [length] in L. rewrite app_length in L. cbn [length] in L.
    rewrite IH by lia. destruct (N.eqb_spec c 93); [congruence|reflexivity].
  - intros b B f r R L. destruct f as [|f]; [cbn in L; lia|].
    change ((ascii "{" ++ b ++ ascii "}") ++ r) with (123 :: (b ++ [125]) ++ r). rewrite <- app_assoc. cbn [app parse_value].
    rewrite skip_blank; [|exact B|cbn; discriminate]. reflexivity.
  - intros l s H IH f r R L. destruct f as [|f]; [cbn in L; lia|].
    change ((ascii "{" ++ s ++ ascii "}") ++ r) with (123 :: (s ++ [125]) ++ r). rewrite <- app_assoc. cbn [app parse_value].
    specialize (IH f r). destruct (members_opens l s (125 :: r) H) as (t' & E). rewrite E in *.
    change (ascii "{" ++ s ++ ascii "}") with (123 :: s ++ [125]) in L. cbn [length] in L. rewrite app_length in L. cbn [length] in L.
    rewrite IH by lia. reflexivity.
  - intros v a s b A H IH B f r L. destruct f as [|f]; [lia|]. rewrite !app_length in L.
    destruct (value_opens _ _ H) as (c & s' & -> & O). rewrite <- !app_assoc, skip_blank; [|exact A|apply opens_stops; exact O].
    cbn [parse_elements]. rewrite IH; [|apply blank_ends; [exact B|cbn; tauto]|lia]. cbn [obind].
    rewrite skip_blank; [reflexivity|exact B|cbn; discriminate].
  - intros v a s b l t A H IH B E IHe f r L. destruct f as [|f]; [lia|]. rewrite !app_length in L.
    destruct (value_opens _ _ H) as (c & s' & -> & O). rewrite <- !app_assoc, skip_blank; [|exact A|apply opens_stops; exact O].
    cbn [parse_elements]. rewrite IH; [|apply blank_ends; [exact B|cbn; tauto]|lia]. cbn [obind].
    rewrite skip_blank; [|exact B|cbn; discriminate]. change (ascii "," ++ t ++ 93 :: r) with (44 :: t ++ 93 :: r). cbv iota.
    change (44 =? 93) with false. change (44 =? 44) with true. cbv iota. rewrite IHe by (cbn in L; lia). reflexivity.
  - intros k v a b c s d A K B C H IH D f r L. destruct f as [|f]; [lia|]. repeat (rewrite !app_length in L; cbn [length] in L).
    rewrite <- !app_assoc, skip_blank; [|exact A|cbn; discriminate].
    cbn [app parse_members strip]. change (34 =? 34) with true. cbv iota. cbn [obind].
    rewrite chars_complete1 by exact K. cbn [obind]. rewrite skip_blank; [|exact B|cbn; discriminate].
    change (ascii ":" ++ c ++ s ++ d ++ 125 :: r) with (58 :: c ++ s ++ d ++ 125 :: r).
    cbn [strip]. change (58 =? 58) with true. cbv iota. cbn [obind].
    destruct (value_opens _ _ H) as (c0 & s' & -> & O). rewrite skip_blank; [|exact C|apply opens_stops; exact O].
    rewrite IH; [|apply blank_ends; [exact D|cbn; tauto]|lia]. cbn [obind]. rewrite skip_blank; [|exact D|cbn; discriminate].
    reflexivity.
  - intros k v a b c s d l t A K B C H IH D E IHm f r L. destruct f as [|f]; [lia|]. repeat (rewrite !app_length in L; cbn [length] in L).
    rewrite <- !app_assoc, skip_blank; [|exact A|cbn; discriminate].
    cbn [app parse_members strip]. change (34 =? 34) with true. cbv iota. cbn [obind].
    rewrite chars_complete1 by exact K. cbn [obind]. rewrite skip_blank; [|exact B|cbn; discriminate].
    change (ascii ":" ++ c ++ s ++ d ++ ascii "," ++ t ++ 125 :: r) with (58 :: c ++ s ++ d ++ 44 :: t ++ 125 :: r).
    cbn [strip]. change (58 =? 58) with true. cbv iota. cbn [obind].
    destruct (value_opens _ _ H) as (c0 & s' & -> & O). rewrite skip_blank; [|exact C|apply opens_stops; exact O].
    rewrite IH; [|apply blank_ends; [exact D|cbn; tauto]|lia]. cbn [obind]. rewrite skip_blank; [|exact D|cbn; discriminate].
    change (44 =? 125) with false. change (44 =? 44) with true. cbv iota. rewrite IHm by (cbn in L; lia). reflexivity.
Qed.

(** ** Documents *)
Lemma blank_skip : forall b, blank b -> skip b = [].
Proof. intros b B. rewrite <- (app_nil_r b). apply skip_blank; [exact B|exact I]. Qed.

Lemma parse_spec : forall s v, parse s = Some v <-> document v s.
Proof.
  intros s v. unfold parse, document. split.
  - intros E. destruct (parse_value (S (length s)) (skip s)) as [[v' r]|] eqn:P; [cbn [obind] in E|discriminate].
    destruct (proj1 (parse_sound _) _ _ _ P) as (t & T & H). destruct (skip_spec s) as (a & A1 & A & _).
    destruct (skip_spec r) as (b & B1 & B & _). destruct (skip r); [|discriminate]. injection E as <-.
    exists a, t, b. rewrite app_nil_r in B1. subst r. rewrite <- T. auto.
  - intros (a & t & b & -> & A & H & B). destruct (value_opens _ _ H) as (c & t' & E & O).
    rewrite skip_blank; [|exact A|subst t; apply opens_stops; exact O].
    rewrite (proj1 parse_complete v t H).
    + cbn [obind]. rewrite blank_skip by exact B. reflexivity.
    + rewrite <- (app_nil_r b). apply blank_ends; [exact B|exact I].
    + rewrite !app_length. lia.
Qed.

(** A text is the text of one value only. *)
Lemma document_unique : forall s v w, document v s -> document w s -> v = w.
Proof. intros s v w A B. apply parse_spec in A, B. congruence. Qed.

(** More fuel does not make a difference. *)
Lemma parse_more : forall s v f, (length s < f)%nat ->
  (parse s = Some v <-> exists r, parse_value f (skip s) = Some (v, r) /\ skip r = []).
Proof.
  intros s v f L. rewrite parse_spec. split.
  - intros (a & t & b & -> & A & H & B). exists b. destruct (value_opens _ _ H) as (c & t' & E & O).
    rewrite skip_blank; [|exact A|subst t; apply opens_stops; exact O]. split; [|apply blank_skip; exact B].
    apply (proj1 parse_complete v t H); [|rewrite !app_length in L; lia].
    rewrite <- (app_nil_r b). apply blank_ends; [exact B|exact I].
  - intros (r & P & S). destruct (proj1 (parse_sound _) _ _ _ P) as (t & T & H). destruct (skip_spec s) as (a & A1 & A & _).
    destruct (skip_spec r) as (b & B1 & B & _). rewrite S, app_nil_r in B1. subst r. exists a, t, b. rewrite <- T. auto.
Qed.
