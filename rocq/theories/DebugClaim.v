(** * What the texts of sketches tell *)
From Coq Require Import String.
From Coq Require Import NArith Arith List Bool Lia Ascii.
From Verif Require Import ModelRust ModelF64 ModelEnv ModelRegisters ModelEncoding ModelCommon ModelPF ModelPlus ModelFormat ModelFiles ModelTests ModelDebug SpecFiles SpecFormat SpecDebug
  FormatFacts TextFacts DebugFacts DebugLines.
Import ListNotations.
Local Open Scope N_scope.

(** ** Lines *)
Definition word_chars : list N := ascii "+x" ++ hex_chars.
Lemma numeral_word : forall n s, numeral n s -> Forall (fun c => In c word_chars) s.
Proof.
  intros n s H. apply Forall_forall. intros c I. pose proof (numeral_chars n s c H I) as R.
  assert (C : forallb (fun d => existsb (N.eqb (48 + d)) word_chars) (map N.of_nat (seq 0 10)) = true) by reflexivity.
  rewrite forallb_forall in C. specialize (C (c - 48)). rewrite existsb_exists in C.
  destruct C as (x & IX & E); [apply in_map_iff; exists (N.to_nat (c - 48)); split; [lia|apply in_seq; lia]|].
  apply N.eqb_eq in E. replace (48 + (c - 48)) with c in E by lia. now subst x.
Qed.
Lemma hex_word : forall c n s, hexadecimal_numeral c n s -> Forall (fun c => In c word_chars) s.
Proof.
  intros c n s (ds & _ & F & -> & _). apply Forall_map. eapply Forall_impl; [|exact F]. intros d D. apply in_or_app. right. now apply hex_text_in.
Qed.
Lemma word_nl : forall s, Forall (fun c => In c word_chars) s -> nl s.
Proof.
  intros s F I. rewrite Forall_forall in F. specialize (F 10 I). revert F. apply (nl_str "+x0123456789abcdefABCDEF"). reflexivity.
Qed.

Definition sign_of (o : options) : list N := if o_plus o then ascii "+" else [].
Definition mark_of (o : options) : list N := match o_hex o with None => [] | Some _ => if o_alternate o then ascii "0x" else [] end.
Definition digits_of (o : options) (n : N) : list N := match o_hex o with None => display_uint n | Some c => hex_uint c n end.
Lemma body_word : forall o n, Forall (fun c => In c word_chars) (sign_of o ++ mark_of o ++ digits_of o n).
Proof.
  intros o n. apply Forall_app. split; [|apply Forall_app; split].
  - unfold sign_of. destruct (o_plus o); [|constructor]. constructor; [left; reflexivity|constructor].
  - unfold mark_of. destruct (o_hex o); [|constructor]. destruct (o_alternate o); [|constructor].
    constructor; [right; right; left; reflexivity|]. constructor; [right; left; reflexivity|constructor].
  - unfold digits_of. destruct (o_hex o) as [c|]; [eapply hex_word; apply hex_numeral|eapply numeral_word; apply display_numeral].
Qed.
Lemma shown_parts : forall o n out, shown o n out ->
  (if o_zero o then exists zeros, out = sign_of o ++ mark_of o ++ zeros ++ digits_of o n /\ Forall (fun c => c = 48) zeros /\
     size out = match f_width (o_format o) with None => size (sign_of o ++ mark_of o ++ digits_of o n) | Some w => N.max w (size (sign_of o ++ mark_of o ++ digits_of o n)) end
   else padded (f_fill (o_format o)) (Some match f_align (o_format o) with None => Right | Some a => a end)
          (f_width (o_format o)) (sign_of o ++ mark_of o ++ digits_of o n) out).
Proof.
  intros o n out (sign & mark & ds & -> & D & H). unfold sign_of, mark_of, digits_of. destruct (o_hex o) as [c|].
  - destruct D as (-> & D). rewrite (hex_unique c n _ _ (hex_numeral c n) D). exact H.
  - destruct D as (-> & D). rewrite <- (numeral_display n _ D). exact H.
Qed.
Lemma shown_plain : forall o n out, f_width (o_format o) = None -> shown o n out -> out = sign_of o ++ mark_of o ++ digits_of o n.
Proof.
  intros o n out W H. apply shown_parts in H. rewrite W in H. destruct (o_zero o).
  - destruct H as (zeros & -> & _ & S). rewrite !size_app in S. unfold size in S. destruct zeros; [reflexivity|cbn [length] in S; lia].
  - destruct H as (a & b & -> & _ & S & _). rewrite !size_app in S. unfold size in S.
    destruct a; [|cbn [length] in S; lia]. destruct b; [|cbn [length] in S; lia]. cbn [app]. now rewrite app_nil_r.
Qed.
Lemma shown_nl : forall o n out, f_width (o_format o) = None \/ f_fill (o_format o) <> 10 -> shown o n out -> nl out.
Proof.
  intros o n out W H. pose proof (body_word o n) as B. destruct (f_width (o_format o)) as [w|] eqn:EW.
  2: { rewrite (shown_plain o n out EW H). now apply word_nl. }
  destruct W as [W|W]; [discriminate|]. apply shown_parts in H. destruct (o_zero o).
  - destruct H as (zeros & -> & Z & _). apply word_nl in B. rewrite !nl_app in *. destruct B as (B1 & B2 & B3). split; [exact B1|]. split; [exact B2|]. split; [|exact B3].
    intros I. rewrite Forall_forall in Z. specialize (Z _ I). discriminate.
  - destruct H as (a & b & -> & F & _ & _). apply word_nl in B. rewrite !nl_app in *. apply Forall_app in F as (FA & FB).
    rewrite Forall_forall in FA, FB. split; [intros I; apply W; symmetry; exact (FA _ I)|]. split; [exact B|]. intros I; apply W; symmetry; exact (FB _ I).
Qed.

Lemma long_pf_spec : forall (V : Type) o builder phantom (s : pf V), o_alternate o = true ->
  f_width (o_format o) = None \/ f_fill (o_format o) <> 10 ->
  builder <> [] -> phantom <> [] -> Forall nl builder -> Forall nl phantom ->
  long_pf o builder phantom s (pf_debug o (lined builder) (lined phantom) s).
Proof.
  intros V o builder phantom s A W NB NP FB FP.
  destruct (lines_pf o A (fun n => shown_nl o n _ W (shown_uint o n)) V builder phantom s NB NP FB FP) as (ls & _ & E & _ & L). now rewrite E.
Qed.
Lemma long_plus_spec : forall (V : Type) o ord builder phantom (s : plus V), o_alternate o = true ->
  f_width (o_format o) = None \/ f_fill (o_format o) <> 10 ->
  builder <> [] -> phantom <> [] -> Forall nl builder -> Forall nl phantom ->
  long_plus o builder phantom (ord (hp_tmpset s)) s (plus_debug o ord (lined builder) (lined phantom) s).
Proof.
  intros V o ord builder phantom s A W NB NP FB FP.
  destruct (lines_plus o A (fun n => shown_nl o n _ W (shown_uint o n)) V ord builder phantom s NB NP FB FP) as (ls & _ & E & _ & L). now rewrite E.
Qed.
(** Every text consists of lines. *)
Lemma text_lines : forall s, exists ls, ls <> [] /\ Forall nl ls /\ s = lined ls.
Proof.
  induction s as [|c s (ls & N & F & E)].
  - exists [[]]. split; [discriminate|]. split; [|reflexivity]. constructor; [intros []|constructor].
  - destruct ls as [|l ls]; [congruence|]. inversion F; subst. destruct (N.eq_dec c 10) as [->|C].
    + exists ([] :: l :: ls). split; [discriminate|]. split; [|reflexivity]. constructor; [intros []|exact F].
    + exists ((c :: l) :: ls). split; [discriminate|]. split; [|destruct ls; reflexivity]. constructor; [|assumption]. intros [X|X]; [congruence|contradiction].
Qed.

(** ** The text determines the sketch *)
Definition stops (x : list N) : Prop := match x with [] => True | c :: _ => ~ In c word_chars end.
Lemma cut_words : forall a b x y, Forall (fun c => In c word_chars) a -> Forall (fun c => In c word_chars) b -> stops x -> stops y ->
  a ++ x = b ++ y -> a = b /\ x = y.
Proof.
  induction a as [|c a IH]; intros [|d b] x y A B X Y E; cbn [app] in E.
  - tauto.
  - subst x. cbn in X. inversion B; subst. contradiction.
  - subst y. cbn in Y. inversion A; subst. contradiction.
  - injection E as -> E. inversion A; inversion B; subst. destruct (IH b x y H2 H6 X Y E) as (-> & ->). tauto.
Qed.
Lemma digits_inj : forall o n m, digits_of o n = digits_of o m -> n = m.
Proof.
  intros o n m. unfold digits_of. destruct (o_hex o) as [c|]; intros E.
  - apply (hex_inj c n m (hex_uint c n)); [apply hex_numeral|rewrite E; apply hex_numeral].
  - apply (numeral_inj n m (display_uint n)); [apply display_numeral|rewrite E; apply display_numeral].
Qed.
Lemma shown_cut : forall o n m s t x y, f_width (o_format o) = None -> shown o n s -> shown o m t -> s ++ x = t ++ y -> stops x -> stops y ->
  n = m /\ x = y.
Proof.
  intros o n m s t x y W A B E X Y. apply (shown_plain o n s W) in A. apply (shown_plain o m t W) in B. subst s t.
  destruct (cut_words _ _ _ _ (body_word o n) (body_word o m) X Y E) as (E1 & E2). split; [|exact E2].
  apply app_inv_head, app_inv_head in E1. exact (digits_inj o n m E1).
Qed.
Lemma shown_first : forall o n s, f_width (o_format o) = None -> shown o n s -> exists c s', s = c :: s' /\ In c word_chars.
Proof.
  intros o n s W A. apply (shown_plain o n s W) in A. pose proof (body_word o n) as B. rewrite <- A in B. destruct s as [|c s].
  - symmetry in A. apply app_eq_nil in A as (_ & A). apply app_eq_nil in A as (_ & A). unfold digits_of in A. destruct (o_hex o) as [k|].
    + destruct (hex_numeral k n) as (ds & D & _ & E & _). rewrite A in E. destruct ds; [congruence|discriminate].
    + destruct (numeral_not_nil n _ (display_numeral n) A).
  - exists c, s. split; [reflexivity|]. now inversion B.
Qed.
Lemma separated_cut : forall o l m s t c x y, f_width (o_format o) = None -> separated o l s -> separated o m t -> ~ In c (44 :: word_chars) ->
  s ++ c :: x = t ++ c :: y -> l = m /\ x = y.
Proof.
  intros o l m s t c x y W A. revert m t. induction A as [|n s A|n s k l s' A A' IH]; intros m t B C E.
  - inversion B as [|n' t' B1|n' t' k' l' t'' B1 B2]; subst; cbn [app] in E.
    + injection E as ->. tauto.
    + destruct (shown_first o n' t W B1) as (d & t' & -> & I). cbn in E. injection E as -> _. destruct C. now right.
    + destruct (shown_first o n' t' W B1) as (d & t1 & -> & I). cbn in E. injection E as -> _. destruct C. now right.
  - assert (stops (c :: x)) by (intros I; apply C; now right). inversion B as [|n' t' B1|n' t' k' l' t'' B1 B2]; subst; cbn [app] in E.
    + destruct (shown_first o n s W A) as (d & t' & -> & I). cbn in E. injection E as -> _. destruct C. now right.
    + destruct (shown_cut o n n' s t _ _ W A B1 E H ltac:(intros I; apply C; now right)) as (-> & E'). injection E' as ->. tauto.
    + rewrite <- !app_assoc in E. destruct (shown_cut o n n' s t' _ _ W A B1 E H ltac:(cbn; intuition discriminate)) as (-> & E').
      cbn in E'. injection E' as -> _. destruct C. now left.
  - rewrite <- !app_assoc in E. assert (Q : forall r, stops (ascii ", " ++ r)) by (intros r; cbn; intuition discriminate).
    inversion B as [|n' t' B1|n' t' k' l' t'' B1 B2]; subst.
    + destruct (shown_first o n s W A) as (d & t' & -> & I). cbn in E. injection E as -> _. destruct C. now right.
    + destruct (shown_cut o n n' s t _ _ W A B1 E (Q _) ltac:(intros I; apply C; now right)) as (-> & E').
      cbn in E'. injection E' as <- _. destruct C. now left.
    + rewrite <- !app_assoc in E. destruct (shown_cut o n n' s t' _ _ W A B1 E (Q _) (Q _)) as (-> & E'). apply app_inv_head in E'.
      destruct (IH _ _ B2 C E') as (E1 & E2). split; [now rewrite E1|exact E2].
Qed.

Ltac no_word := cbn; intuition discriminate.
Lemma short_registers_cut : forall o name r r' s t x y, f_width (o_format o) = None -> short_registers o name r s -> short_registers o name r' t ->
  s ++ x = t ++ y -> r = r' /\ x = y.
Proof.
  intros o name r r' s t x y W (b & c & z & B & C & Z & ->) (b' & c' & z' & B' & C' & Z' & ->) E. rewrite <- !app_assoc in E.
  apply app_inv_head, app_inv_head in E.
  destruct (separated_cut o _ _ b b' 93 _ _ W B B' ltac:(no_word) E) as (E1 & E2). cbn [app] in E2. 
  change (ascii ", count: " ++ c ++ ascii ", zeros: " ++ z ++ ascii " }" ++ x = ascii ", count: " ++ c' ++ ascii ", zeros: " ++ z' ++ ascii " }" ++ y) in E2.
  apply app_inv_head in E2. destruct (shown_cut o _ _ c c' _ _ W C C' E2 ltac:(no_word) ltac:(no_word)) as (E3 & E4). apply app_inv_head in E4.
  destruct (shown_cut o _ _ z z' _ _ W Z Z' E4 ltac:(no_word) ltac:(no_word)) as (E5 & E6). apply app_inv_head in E6. split; [|exact E6].
  destruct r, r'. cbn in *. now subst.
Qed.
Lemma short_list_cut : forall o d d' s t x y, f_width (o_format o) = None -> short_list o d s -> short_list o d' t ->
  s ++ x = t ++ y -> d = d' /\ x = y.
Proof.
  intros o d d' s t x y W (c & l & b & C & L & B & ->) (c' & l' & b' & C' & L' & B' & ->) E. rewrite <- !app_assoc in E.
  apply app_inv_head in E. destruct (shown_cut o _ _ c c' _ _ W C C' E ltac:(no_word) ltac:(no_word)) as (E3 & E4). apply app_inv_head in E4.
  destruct (shown_cut o _ _ l l' _ _ W L L' E4 ltac:(no_word) ltac:(no_word)) as (E5 & E6). apply app_inv_head in E6.
  destruct (separated_cut o _ _ b b' 93 _ _ W B B' ltac:(no_word) E6) as (E1 & E2).
  change (ascii ") }" ++ x = ascii ") }" ++ y) in E2. apply app_inv_head in E2. split; [|exact E2]. destruct d, d'. cbn in *. now subst.
Qed.

Lemma short_pf_same : forall (V W : Type) o builder phantom (s : pf V) (s' : pf W) t, f_width (o_format o) = None ->
  short_pf o builder phantom s t -> short_pf o builder phantom s' t ->
  pf_count s = pf_count s' /\ pf_precision s = pf_precision s' /\ pf_registers s = pf_registers s'.
Proof.
  intros V V' o builder phantom s s' t W (c & p & r & C & P & R & ->) (c' & p' & r' & C' & P' & R' & E).
  apply app_inv_head, app_inv_head, app_inv_head in E.
  destruct (shown_cut o _ _ c c' _ _ W C C' E ltac:(no_word) ltac:(no_word)) as (E1 & E2). apply app_inv_head in E2.
  destruct (shown_cut o _ _ p p' _ _ W P P' E2 ltac:(no_word) ltac:(no_word)) as (E3 & E4). apply app_inv_head in E4.
  destruct (short_registers_cut o _ _ _ _ _ _ _ W R R' E4) as (E5 & _). tauto.
Qed.
Lemma short_plus_same : forall (V W : Type) o builder phantom codes codes' (s : plus V) (s' : plus W) t, f_width (o_format o) = None ->
  short_plus o builder phantom codes s t -> short_plus o builder phantom codes' s' t ->
  hp_precision s = hp_precision s' /\ hp_counts0 s = hp_counts0 s' /\ hp_counts1 s = hp_counts1 s' /\ hp_counts2 s = hp_counts2 s' /\
  codes = codes' /\ hp_sparse s = hp_sparse s' /\ hp_registers s = hp_registers s'.
Proof.
  intros V V' o builder phantom codes codes' s s' t W (p & c & x & d & r & P & C & X & D & R & ->) (p' & c' & x' & d' & r' & P' & C' & X' & D' & R' & E).
  apply app_inv_head, app_inv_head, app_inv_head in E.
  destruct (shown_cut o _ _ p p' _ _ W P P' E ltac:(no_word) ltac:(no_word)) as (E1 & E2). apply app_inv_head in E2.
  destruct (separated_cut o _ _ c c' 41 _ _ W C C' ltac:(no_word) E2) as (E3 & E4).
  change (ascii ", tmpset: {" ++ x ++ ascii "}, sparse: " ++ d ++ ascii ", registers: " ++ r ++ ascii ", phantom: " ++ phantom ++ ascii " }" =
          ascii ", tmpset: {" ++ x' ++ ascii "}, sparse: " ++ d' ++ ascii ", registers: " ++ r' ++ ascii ", phantom: " ++ phantom ++ ascii " }") in E4.
  apply app_inv_head in E4. destruct (separated_cut o _ _ x x' 125 _ _ W X X' ltac:(no_word) E4) as (E5 & E6).
  change (ascii ", sparse: " ++ d ++ ascii ", registers: " ++ r ++ ascii ", phantom: " ++ phantom ++ ascii " }" =
          ascii ", sparse: " ++ d' ++ ascii ", registers: " ++ r' ++ ascii ", phantom: " ++ phantom ++ ascii " }") in E6.
  apply app_inv_head in E6. destruct (short_list_cut o _ _ d d' _ _ W D D' E6) as (E7 & E8). apply app_inv_head in E8.
  injection E3 as E31 E32 E33. repeat (split; [assumption|]).
  destruct (hp_registers s) as [g|], (hp_registers s') as [g'|].
  - destruct R as (u & R & ->), R' as (u' & R' & ->). rewrite <- !app_assoc in E8. apply app_inv_head in E8.
    destruct (short_registers_cut o _ _ _ _ _ _ _ W R R' E8) as (-> & _). reflexivity.
  - destruct R as (u & R & ->). subst r'. discriminate E8.
  - destruct R' as (u & R' & ->). subst r. discriminate E8.
  - reflexivity.
Qed.

(** Many lines. *)
Lemma lined_inj : forall a b, a <> [] -> b <> [] -> Forall nl a -> Forall nl b -> lined a = lined b -> a = b.
Proof.
  assert (C : forall l m x y, nl l -> nl m -> l ++ [10] ++ x = m ++ [10] ++ y -> l = m /\ x = y).
  { induction l as [|c l IH]; intros [|d m] x y L M E; cbn in E.
    - injection E as ->. tauto.
    - injection E as <- _. destruct M. now left.
    - injection E as -> _. destruct L. now left.
    - injection E as -> E. destruct (IH m x y) as (-> & ->); [intros I; apply L; now right|intros I; apply M; now right|exact E|]. tauto. }
  induction a as [|l [|l2 a] IH]; intros [|m [|m2 b]] NA NB FA FB E; try congruence; inversion FA; inversion FB; subst.
  - cbn in E. now subst.
  - rewrite lined_cons in E. cbn [lined] in E. subst l. rewrite nl_app in H1. destruct H1 as (_ & H1). destruct H1. now left.
  - rewrite lined_cons in E. cbn [lined] in E. subst m. rewrite nl_app in H5. destruct H5 as (_ & H5). destruct H5. now left.
  - rewrite !lined_cons in E. destruct (C l m _ _ H1 H5 E) as (-> & E'). f_equal. apply IH; try assumption; discriminate.
Qed.
Lemma line_inj : forall k a b, line k a = line k b -> a = b.
Proof. intros k a b E. exact (app_inv_head _ _ _ E). Qed.
Lemma line_shown : forall o k before n m s t, f_width (o_format o) = None -> shown o n s -> shown o m t ->
  line k (before ++ s ++ ascii ",") = line k (before ++ t ++ ascii ",") -> n = m.
Proof.
  intros o k before n m s t W A B E. apply line_inj, app_inv_head in E.
  destruct (shown_cut o n m s t _ _ W A B E ltac:(no_word) ltac:(no_word)) as (-> & _). reflexivity.
Qed.
Lemma deeper : forall k d a c b, line (k + S d) a = line k (c :: b) -> c = 32.
Proof.
  intros k d a c b E. unfold line in E. rewrite repeat_app, <- app_assoc in E. apply app_inv_head in E. cbn in E. congruence.
Qed.
Lemma rows_cut : forall o k c closing l ts m us x y, f_width (o_format o) = None -> c <> 32 -> Forall2 (shown o) l ts -> Forall2 (shown o) m us ->
  map (fun t => line (k + 4) (t ++ ascii ",")) ts ++ line k (c :: closing) :: x = map (fun t => line (k + 4) (t ++ ascii ",")) us ++ line k (c :: closing) :: y ->
  l = m /\ x = y.
Proof.
  intros o k c closing l ts m us x y W C A. revert m us. induction A as [|n t l ts A _ IH]; intros m us B E; inversion B as [|n' t' m' us' B1 B2]; subst; cbn [map app] in E.
  - injection E as ->. tauto.
  - injection E as E _. symmetry in E. apply deeper in E. congruence.
  - injection E as E _. apply deeper in E. congruence.
  - pose proof (f_equal (@hd _ []) E) as E1. pose proof (f_equal (@tl _) E) as E2. cbn [hd tl] in E1, E2.
    rewrite (line_shown o _ [] n n' t t' W A B1 E1). destruct (IH _ _ B2 E2) as (-> & ->). tauto.
Qed.
Lemma block_cut : forall o k opening c closing l m a b x y, f_width (o_format o) = None ->
  block o k opening (c :: closing) l a -> block o k opening (c :: closing) m b -> a ++ x = b ++ y -> c <> 32 -> l = m /\ x = y.
Proof.
  intros o k opening c closing l m a b x y W A B E C.
  assert (Q : line k opening = line k (opening ++ (c :: closing) ++ ascii ",") -> False).
  { intros Q. apply line_inj in Q. rewrite <- (app_nil_r opening) in Q at 1. apply app_inv_head in Q. discriminate Q. }
  destruct l as [|n l], m as [|n' m]; cbn [block] in A, B.
  - subst a b. cbn [app] in E. injection E as ->. tauto.
  - subst a. destruct B as (us & _ & ->). pose proof (f_equal (@hd _ []) E) as E1. cbn [hd app] in E1. symmetry in E1. now apply Q in E1.
  - subst b. destruct A as (us & _ & ->). pose proof (f_equal (@hd _ []) E) as E1. cbn [hd app] in E1. now apply Q in E1.
  - destruct A as (ts & A & ->), B as (us & B & ->). rewrite <- !app_assoc in E. apply app_inv_head in E.
    exact (rows_cut o k c _ _ _ _ _ _ _ W C A B E).
Qed.
Ltac peel E H := pose proof (f_equal (@hd _ []) E) as H; apply (f_equal (@tl _)) in E; cbn [hd tl] in H, E.
Lemma long_registers_cut : forall o k r r' a b x y, f_width (o_format o) = None -> long_registers o k r a -> long_registers o k r' b ->
  a ++ x = b ++ y -> r = r' /\ x = y.
Proof.
  intros o k r r' a b x y W (bb & c & z & B & C & Z & ->) (bb' & c' & z' & B' & C' & Z' & ->) E. rewrite <- !app_assoc in E.
  destruct (block_cut o _ _ _ _ _ _ _ _ _ _ W B B' E ltac:(discriminate)) as (E1 & E2). cbn [app] in E2.
  peel E2 E3. peel E2 E4. peel E2 E5. clear E5. split; [|exact E2].
  apply (line_shown o _ _ _ _ _ _ W C C') in E3. apply (line_shown o _ _ _ _ _ _ W Z Z') in E4. destruct r, r'. cbn in *. now subst.
Qed.
Lemma block_nl : forall o k opening closing l ls, f_width (o_format o) = None -> nl opening -> nl closing -> block o k opening closing l ls -> Forall nl ls.
Proof.
  intros o k opening closing l ls W NO NC B. assert (NK : nl (ascii ",")) by (apply nl_str; reflexivity). destruct l as [|n l]; cbn [block] in B.
  - subst ls. constructor; [|constructor]. apply nl_line. rewrite !nl_app. tauto.
  - destruct B as (ts & F & ->). constructor; [now apply nl_line|]. apply Forall_app. split; [|constructor; [apply nl_line; rewrite nl_app; tauto|constructor]].
    apply Forall_map. clear -F W NK. remember (n :: l) as q eqn:EQ. clear EQ. induction F as [|a t q0 ts A _ IH]; constructor; [|exact IH]. apply nl_line. rewrite nl_app. split; [|exact NK].
    apply (shown_nl o a t); [now left|exact A].
Qed.
Lemma field_nl : forall o k name n s, f_width (o_format o) = None -> nl name -> shown o n s -> nl (line k (name ++ s ++ ascii ",")).
Proof.
  intros o k name n s W NN A. apply nl_line. rewrite !nl_app. split; [exact NN|]. split; [apply (shown_nl o n s); [now left|exact A]|apply nl_str; reflexivity].
Qed.
Ltac nls := first [apply nl_str; reflexivity | apply nl_line, nl_str; reflexivity | eapply field_nl; [eassumption|apply nl_str; reflexivity|eassumption]
  | match goal with H : block _ _ _ _ _ ?b |- Forall nl ?b => refine (block_nl _ _ _ _ _ _ _ _ _ H); [assumption|apply nl_str; reflexivity|apply nl_str; reflexivity] end | apply hanging_nl; [apply nl_str; reflexivity|assumption]].
Ltac all_nls := repeat first [apply Forall_nil | apply Forall_app; split | apply Forall_cons | nls].
Lemma long_registers_nl : forall o k r ls, f_width (o_format o) = None -> long_registers o k r ls -> Forall nl ls.
Proof. intros o k r ls W (b & c & z & B & C & Z & ->). all_nls. Qed.

Lemma long_pf_same : forall (V W : Type) o builder phantom (s : pf V) (s' : pf W) t, f_width (o_format o) = None ->
  Forall nl builder -> Forall nl phantom -> long_pf o builder phantom s t -> long_pf o builder phantom s' t ->
  pf_count s = pf_count s' /\ pf_precision s = pf_precision s' /\ pf_registers s = pf_registers s'.
Proof.
  intros V V' o builder phantom s s' t W FB FP (c & p & r & C & P & R & ->) (c' & p' & r' & C' & P' & R' & E).
  apply lined_inj in E; [|discriminate|discriminate| |].
  2: { pose proof (long_registers_nl o _ _ _ W R). all_nls. assumption. }
  2: { pose proof (long_registers_nl o _ _ _ W R'). all_nls. assumption. }
  apply app_inv_head, app_inv_head in E. cbn [app] in E. peel E E1. peel E E2. peel E E3.
  apply (line_shown o _ _ _ _ _ _ W C C') in E1. apply (line_shown o _ _ _ _ _ _ W P P') in E2.
  destruct (long_registers_cut o _ _ _ _ _ _ _ W R R' E) as (E4 & _). tauto.
Qed.
Lemma long_plus_same : forall (V W : Type) o builder phantom codes codes' (s : plus V) (s' : plus W) t, f_width (o_format o) = None ->
  Forall nl builder -> Forall nl phantom -> long_plus o builder phantom codes s t -> long_plus o builder phantom codes' s' t ->
  hp_precision s = hp_precision s' /\ hp_counts0 s = hp_counts0 s' /\ hp_counts1 s = hp_counts1 s' /\ hp_counts2 s = hp_counts2 s' /\
  codes = codes' /\ hp_sparse s = hp_sparse s' /\ hp_registers s = hp_registers s'.
Proof.
  intros V V' o builder phantom codes codes' s s' t W FB FP (p & c & x & dc & dl & db & r & P & C & X & DC & DL & DB & R & ->)
    (p' & c' & x' & dc' & dl' & db' & r' & P' & C' & X' & DC' & DL' & DB' & R' & E).
  apply lined_inj in E; [|discriminate|discriminate| |].
  2: { assert (Forall nl r) by (destruct (hp_registers s); [destruct R as (u & R & ->); pose proof (long_registers_nl o _ _ _ W R)|subst r]; all_nls; assumption). all_nls. assumption. }
  2: { assert (Forall nl r') by (destruct (hp_registers s'); [destruct R' as (u & R' & ->); pose proof (long_registers_nl o _ _ _ W R')|subst r']; all_nls; assumption). all_nls. assumption. }
  apply app_inv_head, app_inv_head in E. cbn [app] in E. peel E E1. apply (line_shown o _ _ _ _ _ _ W P P') in E1.
  destruct (block_cut o _ _ _ _ _ _ _ _ _ _ W C C' E ltac:(discriminate)) as (E2 & E'). clear E.
  destruct (block_cut o _ _ _ _ _ _ _ _ _ _ W X X' E' ltac:(discriminate)) as (E3 & E). clear E'.
  peel E E4. clear E4. peel E E4. peel E E5. peel E E6. clear E6.
  apply (line_shown o _ _ _ _ _ _ W DC DC') in E4. apply (line_shown o _ _ _ _ _ _ W DL DL') in E5.
  destruct (block_cut o _ _ _ _ _ _ _ _ _ _ W DB DB' E ltac:(discriminate)) as (E6 & E'). clear E.
  peel E' E7. clear E7. peel E' E7. clear E7. injection E2 as E21 E22 E23.
  do 5 (split; [assumption|]). split. { destruct (hp_sparse s), (hp_sparse s'). cbn in *. now subst. }
  destruct (hp_registers s) as [g|], (hp_registers s') as [g'|].
  - destruct R as (u & R & ->), R' as (u' & R' & ->). rewrite <- !app_assoc in E'. apply app_inv_head in E'.
    destruct (long_registers_cut o _ _ _ _ _ _ _ W R R' E') as (-> & _). reflexivity.
  - destruct R as (u & R & ->). subst r'. discriminate E'.
  - destruct R' as (u & R' & ->). subst r. discriminate E'.
  - reflexivity.
Qed.

(** ** There is one text *)
Lemma shown_one : forall o n s t, shown o n s -> shown o n t -> s = t.
Proof. intros o n s t A B. apply shown_spec in A, B. congruence. Qed.
Lemma separated_one : forall o l s t, separated o l s -> separated o l t -> s = t.
Proof.
  intros o l s t A. revert t. induction A as [|n s A|n s m l s' A _ IH]; intros t B; inversion B; subst; [reflexivity|now apply (shown_one o n)|].
  rewrite (shown_one o n s s0) by assumption. now rewrite (IH t0).
Qed.
Lemma shown_all_one : forall o l ts us, Forall2 (shown o) l ts -> Forall2 (shown o) l us -> ts = us.
Proof.
  intros o l ts us A. revert us. induction A as [|n t l ts A _ IH]; intros us B; inversion B; subst; [reflexivity|].
  rewrite (shown_one o n t y) by assumption. now rewrite (IH l').
Qed.
Lemma block_one : forall o k op cl l a b, block o k op cl l a -> block o k op cl l b -> a = b.
Proof.
  intros o k op cl [|n l] a b A B; cbn [block] in A, B; [congruence|]. destruct A as (ts & A & ->), B as (us & B & ->). now rewrite (shown_all_one o _ ts us A B).
Qed.
Lemma short_registers_one : forall o name r s t, short_registers o name r s -> short_registers o name r t -> s = t.
Proof.
  intros o name r s t (b & c & z & B & C & Z & ->) (b' & c' & z' & B' & C' & Z' & ->).
  now rewrite (separated_one o _ b b' B B'), (shown_one o _ c c' C C'), (shown_one o _ z z' Z Z').
Qed.
Lemma long_registers_one : forall o k r s t, long_registers o k r s -> long_registers o k r t -> s = t.
Proof.
  intros o k r s t (b & c & z & B & C & Z & ->) (b' & c' & z' & B' & C' & Z' & ->).
  now rewrite (block_one o _ _ _ _ b b' B B'), (shown_one o _ c c' C C'), (shown_one o _ z z' Z Z').
Qed.
Lemma short_pf_iff : forall (V : Type) o builder phantom (s : pf V) t, o_alternate o = false ->
  (short_pf o builder phantom s t <-> t = pf_debug o builder phantom s).
Proof.
  intros V o builder phantom s t A. pose proof (short_pf_spec V o builder phantom s A) as H. split; [|now intros ->]. revert H. generalize (pf_debug o builder phantom s).
  intros u (c & p & r & C & P & R & ->) (c' & p' & r' & C' & P' & R' & ->).
  now rewrite (shown_one o _ c c' C C'), (shown_one o _ p p' P P'), (short_registers_one o _ _ r r' R R').
Qed.
Lemma short_plus_iff : forall (V : Type) o ord builder phantom (s : plus V) t, o_alternate o = false ->
  (short_plus o builder phantom (ord (hp_tmpset s)) s t <-> t = plus_debug o ord builder phantom s).
Proof.
  intros V o ord builder phantom s t A. pose proof (short_plus_spec V o ord builder phantom s A) as H. split; [|now intros ->]. revert H. generalize (plus_debug o ord builder phantom s).
  intros u (p & c & x & d & r & P & C & X & (dc & dl & db & DC & DL & DB & ->) & R & ->) (p' & c' & x' & d' & r' & P' & C' & X' & (dc' & dl' & db' & DC' & DL' & DB' & ->) & R' & ->).
  rewrite (shown_one o _ p p' P P'), (separated_one o _ c c' C C'), (separated_one o _ x x' X X'), (shown_one o _ dc dc' DC DC'), (shown_one o _ dl dl' DL DL'), (separated_one o _ db db' DB DB').
  enough (r' = r) as -> by reflexivity. destruct (hp_registers s); [|congruence]. destruct R as (a & R & ->), R' as (a' & R' & ->). now rewrite (short_registers_one o _ _ a a' R R').
Qed.
Lemma long_pf_iff : forall (V : Type) o builder phantom (s : pf V) t, o_alternate o = true ->
  f_width (o_format o) = None \/ f_fill (o_format o) <> 10 ->
  builder <> [] -> phantom <> [] -> Forall nl builder -> Forall nl phantom ->
  (long_pf o builder phantom s t <-> t = pf_debug o (lined builder) (lined phantom) s).
Proof.
  intros V o builder phantom s t A W NB NP FB FP. pose proof (long_pf_spec V o builder phantom s A W NB NP FB FP) as H. split; [|now intros ->].
  revert H. generalize (pf_debug o (lined builder) (lined phantom) s).
  intros u (c & p & r & C & P & R & ->) (c' & p' & r' & C' & P' & R' & ->).
  now rewrite (shown_one o _ c c' C C'), (shown_one o _ p p' P P'), (long_registers_one o _ _ r r' R R').
Qed.
Lemma long_plus_iff : forall (V : Type) o ord builder phantom (s : plus V) t, o_alternate o = true ->
  f_width (o_format o) = None \/ f_fill (o_format o) <> 10 ->
  builder <> [] -> phantom <> [] -> Forall nl builder -> Forall nl phantom ->
  (long_plus o builder phantom (ord (hp_tmpset s)) s t <-> t = plus_debug o ord (lined builder) (lined phantom) s).
Proof.
  intros V o ord builder phantom s t A W NB NP FB FP. pose proof (long_plus_spec V o ord builder phantom s A W NB NP FB FP) as H. split; [|now intros ->].
  revert H. generalize (plus_debug o ord (lined builder) (lined phantom) s).
  intros u (p & c & x & dc & dl & db & r & P & C & X & DC & DL & DB & R & ->) (p' & c' & x' & dc' & dl' & db' & r' & P' & C' & X' & DC' & DL' & DB' & R' & ->).
  rewrite (shown_one o _ p p' P P'), (block_one o _ _ _ _ c c' C C'), (block_one o _ _ _ _ x x' X X'), (shown_one o _ dc dc' DC DC'), (shown_one o _ dl dl' DL DL'), (block_one o _ _ _ _ db db' DB DB').
  enough (r' = r) as -> by reflexivity. destruct (hp_registers s); [|congruence]. destruct R as (a & R & ->), R' as (a' & R' & ->). now rewrite (long_registers_one o _ _ a a' R R').
Qed.

(** ** Equal texts *)
Lemma debug_pf_same : forall (V W : Type) o builder phantom (s : pf V) (s' : pf W), f_width (o_format o) = None ->
  pf_debug o builder phantom s = pf_debug o builder phantom s' ->
  pf_count s = pf_count s' /\ pf_precision s = pf_precision s' /\ pf_registers s = pf_registers s'.
Proof.
  intros V W o builder phantom s s' NW E. destruct (o_alternate o) eqn:A.
  - destruct (text_lines builder) as (lb & NB & FB & ->), (text_lines phantom) as (lp & NP & FP & ->).
    apply (long_pf_same V W o lb lp s s' (pf_debug o (lined lb) (lined lp) s)); try assumption; [|rewrite E]; apply long_pf_spec; auto.
  - apply (short_pf_same V W o builder phantom s s' (pf_debug o builder phantom s)); [assumption| |rewrite E]; now apply short_pf_spec.
Qed.
Lemma debug_plus_same : forall (V W : Type) o ord ord' builder phantom (s : plus V) (s' : plus W), f_width (o_format o) = None ->
  plus_debug o ord builder phantom s = plus_debug o ord' builder phantom s' ->
  hp_precision s = hp_precision s' /\ hp_counts0 s = hp_counts0 s' /\ hp_counts1 s = hp_counts1 s' /\ hp_counts2 s = hp_counts2 s' /\
  ord (hp_tmpset s) = ord' (hp_tmpset s') /\ hp_sparse s = hp_sparse s' /\ hp_registers s = hp_registers s'.
Proof.
  intros V W o ord ord' builder phantom s s' NW E. destruct (o_alternate o) eqn:A.
  - destruct (text_lines builder) as (lb & NB & FB & ->), (text_lines phantom) as (lp & NP & FP & ->).
    apply (long_plus_same V W o lb lp _ _ s s' (plus_debug o ord (lined lb) (lined lp) s)); try assumption; [|rewrite E]; apply long_plus_spec; auto.
  - apply (short_plus_same V W o builder phantom _ _ s s' (plus_debug o ord builder phantom s)); [assumption| |rewrite E]; now apply short_plus_spec.
Qed.
Lemma debug_pf_count : forall (V : Type) e o builder phantom (s s' : pf V), f_width (o_format o) = None ->
  pf_debug o builder phantom s = pf_debug o builder phantom s' -> pf_count_est e s = pf_count_est e s'.
Proof.
  intros V e o builder phantom s s' NW E. destruct (debug_pf_same V V o builder phantom s s' NW E) as (E1 & E2 & E3).
  destruct s, s'. cbn in *. subst. reflexivity.
Qed.
Lemma debug_plus_count : forall (V : Type) e o ord ord' builder phantom (s s' : plus V), f_width (o_format o) = None ->
  plus_debug o ord builder phantom s = plus_debug o ord' builder phantom s' -> hp_builder s = hp_builder s' ->
  (let* x := hp_count e ord s in Ret (snd x)) = (let* x := hp_count e ord' s' in Ret (snd x)).
Proof.
  intros V e o ord ord' builder phantom s s' NW E EB. destruct (debug_plus_same V V o ord ord' builder phantom s s' NW E) as (E1 & E2 & E3 & E4 & E5 & E6 & E7).
  unfold hp_count. destruct s as [b p c0 c1 c2 t d r], s' as [b' p' c0' c1' c2' t' d' r']. cbn [hp_builder hp_precision hp_counts0 hp_counts1 hp_counts2 hp_tmpset hp_sparse hp_registers] in *. subst.
  unfold is_sparse. cbn [hp_registers]. destruct r' as [r|]; cbn [hp_registers negb bind].
  - cbn [hp_counts0 hp_precision]. destruct (negb (reg_zeros r =? 0)).
    + destruct (linear_count e c0' (reg_zeros r)); [|reflexivity..]. cbn [bind]. destruct (threshold p'); [|reflexivity..]. cbn [bind]. destruct (fle _ _); [reflexivity|].
      destruct (estimate_corrected _ _ _ _); reflexivity.
    + destruct (estimate_corrected _ _ _ _); reflexivity.
  - unfold merge_sparse. cbn [hp_tmpset hp_sparse]. rewrite E5. reflexivity.
Qed.

(** ** Texts that tell less, and more *)
(** "{:?}", "{:#?}" and "{:1>10?}". *)
Definition plain : options := {| o_format := {| f_fill := 32; f_align := None; f_width := None; f_precision := None |};
  o_plus := false; o_alternate := false; o_zero := false; o_hex := None |}.
Definition pretty : options := {| o_format := o_format plain; o_plus := false; o_alternate := true; o_zero := false; o_hex := None |}.
Definition ones : options := {| o_format := {| f_fill := 49; f_align := Some Right; f_width := Some 10; f_precision := None |};
  o_plus := false; o_alternate := false; o_zero := false; o_hex := None |}.
Definition with_values (l : list N) : M (plus N) := let* s := new_plus 16 in inserts test_env s l.
Lemma ones_same : exists s s', with_values [2 ^ 39] = Ret s /\ with_values [6 * 2 ^ 39] = Ret s' /\ hp_tmpset s <> hp_tmpset s' /\
  plus_debug ones keep (ascii "B") (ascii "P") s = plus_debug ones keep (ascii "B") (ascii "P") s'.
Proof.
  destruct (with_values [2 ^ 39]) as [s| |] eqn:E; [|exfalso; vm_compute in E; discriminate..]. destruct (with_values [6 * 2 ^ 39]) as [s'| |] eqn:E'; [|exfalso; vm_compute in E'; discriminate..].
  exists s, s'. vm_compute in E, E'. injection E as <-. injection E' as <-. split; [reflexivity|]. split; [reflexivity|]. split; [discriminate|]. vm_compute. reflexivity.
Qed.
(** The order of insertion can be seen, although the sketches estimate the same. *)
Definition four (l : list N) : M (plus N) := let* s := new_plus 8 in inserts test_env s l.
Lemma order_seen : exists a b, four [2 ^ 39; 2 ^ 40; 6 * 2 ^ 39; 2 ^ 42] = Ret a /\ four [2 ^ 42; 2 ^ 40; 6 * 2 ^ 39; 2 ^ 39] = Ret b /\
  plus_debug plain keep (ascii "B") (ascii "P") a <> plus_debug plain keep (ascii "B") (ascii "P") b /\
  hp_count test_env keep a = hp_count test_env keep b.
Proof.
  destruct (four [2 ^ 39; 2 ^ 40; 6 * 2 ^ 39; 2 ^ 42]) as [a| |] eqn:E; [|exfalso; vm_compute in E; discriminate..].
  destruct (four [2 ^ 42; 2 ^ 40; 6 * 2 ^ 39; 2 ^ 39]) as [b| |] eqn:E'; [|exfalso; vm_compute in E'; discriminate..].
  exists a, b. vm_compute in E, E'. injection E as <-. injection E' as <-. split; [reflexivity|]. split; [reflexivity|]. split.
  - intros C. apply debug_plus_same in C; [|reflexivity]. destruct C as (_ & _ & _ & _ & C & _). discriminate C.
  - unfold hp_count. cbn [is_sparse hp_registers negb].
    match goal with |- bind ?x _ = bind ?y _ => assert (Q : x = y) by (vm_compute; reflexivity); now rewrite Q end.
Qed.
