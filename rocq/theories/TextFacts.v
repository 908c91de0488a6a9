(** * Numbers, lines and paths as text *)
From Coq Require Import String.
From Coq Require Import NArith ZArith List Bool Lia Ascii.
From Verif Require Import ModelRust ModelF64 ModelEnv ModelCommon ModelPlus ModelFiles SpecFiles.
Import ListNotations.
Local Open Scope N_scope.

Lemma str_ascii : forall s, str s = ascii s.
Proof. reflexivity. Qed.

(** ** Numbers *)
Lemma pow10_pos : forall n, 0 < 10 ^ n.
Proof. intros n. apply N.neq_0_lt_0, N.pow_nonzero. lia. Qed.

Lemma pow10_S : forall (k : nat), 10 ^ N.of_nat (S k) = 10 * 10 ^ N.of_nat k.
Proof. intros k. rewrite Nat2N.inj_succ, N.pow_succ_r'. reflexivity. Qed.

Lemma digit_cons : forall c s ds, c :: s = digit_text ds -> exists x ds', ds = x :: ds' /\ c = 48 + x /\ s = digit_text ds'.
Proof. intros c s [|x ds] E; [discriminate E|]. exists x, ds. unfold digit_text in *. cbn [map] in E. repeat split; congruence. Qed.

Lemma parse_digits_spec : forall w s acc n, acc < 2 ^ w ->
  (parse_digits w acc s = Some n <->
   exists ds, Forall (fun d => d < 10) ds /\ s = digit_text ds /\ n = acc * 10 ^ N.of_nat (length ds) + decimal_value ds /\ n < 2 ^ w).
Proof.
  intros w. induction s as [|c s IH]; intros acc n A.
  - cbn [parse_digits]. split.
    + intros E. injection E as <-. exists []. cbn. repeat split; [constructor|lia|exact A].
    + intros (ds & _ & E & V & _). destruct ds; [|discriminate E]. cbn in V. f_equal. lia.
  - cbn [parse_digits]. split.
    + destruct (N.ltb_spec (acc * 10) (2 ^ w)) as [B|B]; [|discriminate].
      destruct (N.leb_spec 48 c) as [C1|C1]; [|discriminate]. destruct (N.leb_spec c 57) as [C2|C2]; [|discriminate]. cbn [andb].
      destruct (N.ltb_spec (acc * 10 + (c - 48)) (2 ^ w)) as [D|D]; [|discriminate].
      intros E. apply IH in E; [|exact D]. destruct E as (ds & F & -> & V & L). exists ((c - 48) :: ds).
      split; [constructor; [lia|exact F]|]. split; [unfold digit_text; cbn [map]; f_equal; lia|]. split; [|exact L].
      cbn [length decimal_value]. rewrite V, pow10_S. ring.
    + intros (ds & F & E & V & L). apply digit_cons in E. destruct E as (x & ds' & -> & -> & ->). rename ds' into ds.
      pose proof (Forall_inv F) as X. pose proof (Forall_inv_tail F) as F'. cbv beta in X. cbn [length decimal_value] in V. rewrite pow10_S in V.
      pose proof (pow10_pos (N.of_nat (length ds))) as P.
      assert (acc * 10 + x <= n) by nia.
      destruct (N.ltb_spec (acc * 10) (2 ^ w)) as [B|B]; [|lia].
      destruct (N.leb_spec 48 (48 + x)) as [C1|C1]; [|lia]. destruct (N.leb_spec (48 + x) 57) as [C2|C2]; [|lia]. cbn [andb].
      replace (48 + x - 48) with x by lia.
      destruct (N.ltb_spec (acc * 10 + x) (2 ^ w)) as [D|D]; [|lia].
      apply IH; [exact D|]. exists ds. repeat split; [exact F'| |exact L]. rewrite V. ring.
Qed.

Lemma digit_text_head : forall ds c s, Forall (fun d => d < 10) ds -> digit_text ds = c :: s -> 48 <= c <= 57.
Proof. intros ds c s F E. symmetry in E. apply digit_cons in E. destruct E as (x & ds' & -> & -> & _). apply Forall_inv in F. lia. Qed.

Lemma parse_uint_spec : forall w s n, parse_uint w s = Some n <-> reads s n /\ n < 2 ^ w.
Proof.
  intros w s n. assert (W : 0 < 2 ^ w) by (apply N.neq_0_lt_0, N.pow_nonzero; lia).
  assert (P : forall s, s <> [] -> (parse_digits w 0 s = Some n <->
     exists ds, digits ds /\ s = digit_text ds /\ decimal_value ds = n /\ n < 2 ^ w)).
  { intros s0 N0. rewrite (parse_digits_spec w s0 0 n W). split.
    - intros (ds & F & E & V & L). exists ds. split; [split; [intros ->; cbn in E; congruence|exact F]|]. repeat split; [exact E|lia|exact L].
    - intros (ds & (_ & F) & E & V & L). exists ds. repeat split; [exact F|exact E|lia|exact L]. }
  assert (Q : forall c s', c <> 43 -> (parse_digits w 0 (c :: s') = Some n <-> reads (c :: s') n /\ n < 2 ^ w)).
  { intros c s' C. rewrite P by discriminate. split.
    - intros (ds & D & E & V & L). split; [exists ds; split; [exact D|]; split; [left; exact E|exact V]|exact L].
    - intros ((ds & D & [E|E] & V) & L); [exists ds; tauto|]. cbn in E. injection E as E _. contradiction. }
  assert (P' : forall s', s' <> [] -> (parse_digits w 0 s' = Some n <-> reads (43 :: s') n /\ n < 2 ^ w)).
  { intros s' N'. rewrite P by exact N'. split.
    - intros (ds & D & E & V & L). split; [exists ds; split; [exact D|]; split; [right; cbn; now rewrite E|exact V]|exact L].
    - intros ((ds & D & [E|E] & V) & L).
      + symmetry in E. apply digit_text_head in E; [lia|apply D].
      + cbn in E. injection E as E. exists ds. tauto. }
  destruct s as [|c [|c' s]].
  - cbn. split; [discriminate|]. intros ((ds & (D & _) & [E|E] & _) & _); [destruct ds; [congruence|discriminate E]|discriminate E].
  - cbn [parse_uint]. destruct (N.eqb_spec c 43) as [->|C]; [cbn [orb]|].
    + split; [discriminate|]. intros ((ds & D & [E|E] & _) & _).
      * symmetry in E. apply digit_text_head in E; [lia|apply D].
      * cbn in E. injection E as E. destruct D as [D _]. destruct ds; [congruence|discriminate E].
    + cbn [orb]. destruct (N.eqb_spec c 45) as [->|C'].
      * split; [discriminate|]. rewrite <- (Q 45 [] C). cbn. destruct (0 <? 2 ^ w); discriminate.
      * apply Q, C.
  - cbn [parse_uint]. destruct (N.eqb_spec c 43) as [->|C]; [apply P'; discriminate|apply Q, C].
Qed.

Lemma reads_unique : forall s n m, reads s n -> reads s m -> n = m.
Proof.
  intros s n m A B. set (w := N.size n + N.size m).
  assert (forall x, x = n \/ x = m -> x < 2 ^ w) as H.
  { intros x X. assert (x < 2 ^ N.size x) by apply N.size_gt. eapply N.lt_le_trans; [eassumption|]. apply N.pow_le_mono_r; [lia|].
    unfold w. destruct X; subst; lia. }
  pose proof (proj2 (parse_uint_spec w s n) (conj A (H n (or_introl eq_refl)))) as E.
  pose proof (proj2 (parse_uint_spec w s m) (conj B (H m (or_intror eq_refl)))) as F. congruence.
Qed.

(** Display. *)
Lemma decimal_value_app : forall a b, decimal_value (a ++ b) = decimal_value a * 10 ^ N.of_nat (length b) + decimal_value b.
Proof.
  induction a as [|d a IH]; intros b; [reflexivity|]. cbn [decimal_value app]. rewrite IH, app_length, Nat2N.inj_add, N.pow_add_r. ring.
Qed.

Lemma display_loop_spec : forall fuel n acc, n < 2 ^ N.of_nat fuel -> (0 < fuel)%nat ->
  exists ds, digits ds /\ display_loop fuel n acc = digit_text ds ++ acc /\ decimal_value ds = n /\
    (forall ds', ds = 0 :: ds' -> ds' = []).
Proof.
  induction fuel as [|fuel IH]; intros n acc B F; [lia|]. cbn [display_loop].
  pose proof (N.div_mod n 10 ltac:(lia)) as DM. pose proof (N.mod_lt n 10 ltac:(lia)) as M.
  destruct (N.eqb_spec (n / 10) 0) as [Z|Z].
  - exists [n mod 10]. split; [split; [discriminate|]; repeat constructor; exact M|]. split; [reflexivity|].
    split; [cbn; lia|]. intros ds' E. injection E as _ <-. reflexivity.
  - rewrite Nat2N.inj_succ, N.pow_succ_r' in B. assert (n / 10 < 2 ^ N.of_nat fuel).
    { apply N.div_lt_upper_bound; [lia|]. lia. }
    destruct fuel as [|fuel]; [cbn in H; lia|].
    destruct (IH (n / 10) ((48 + n mod 10) :: acc) H ltac:(lia)) as (ds & (D1 & D2) & E & V & L).
    exists (ds ++ [n mod 10]). split; [split; [now destruct ds|]|].
    + apply Forall_app. split; [exact D2|repeat constructor; exact M].
    + split; [rewrite E; unfold digit_text; rewrite map_app, <- app_assoc; reflexivity|]. split.
      * rewrite decimal_value_app, V. cbn. lia.
      * intros ds' Q. destruct ds as [|d ds]; [congruence|]. cbn in Q. injection Q as -> Q. specialize (L ds eq_refl). subst ds.
        cbn in V. lia.
Qed.

Lemma display_numeral : forall n, numeral n (display_uint n).
Proof.
  intros n. destruct (display_loop_spec (S (N.size_nat n)) n []) as (ds & D & E & V & L).
  - rewrite Nat2N.inj_succ, N.pow_succ_r'. assert (n < 2 ^ N.of_nat (N.size_nat n)).
    { destruct n as [|q]; [reflexivity|]. rewrite <- (N.size_gt (N.pos q)) || pose proof (N.size_gt (N.pos q)) as G.
      cbn [N.size_nat]. cbn [N.size] in G. replace (N.of_nat (Pos.size_nat q)) with (N.pos (Pos.size q)); [exact G|].
      clear. induction q; cbn [Pos.size_nat Pos.size]; rewrite ?Nat2N.inj_succ, <- ?IHq; lia. }
    lia.
  - lia.
  - exists ds. rewrite app_nil_r in E. tauto.
Qed.

Lemma value_bound : forall ds, Forall (fun d => d < 10) ds -> decimal_value ds < 10 ^ N.of_nat (length ds).
Proof.
  induction ds as [|d ds IH]; intros F; [cbn; lia|]. inversion F; subst. cbn [decimal_value length]. rewrite pow10_S.
  specialize (IH H2). pose proof (pow10_pos (N.of_nat (length ds))). nia.
Qed.

Lemma value_inj : forall a b, Forall (fun d => d < 10) a -> Forall (fun d => d < 10) b -> length a = length b ->
  decimal_value a = decimal_value b -> a = b.
Proof.
  induction a as [|x a IH]; intros [|y b] FA FB L E; try discriminate L; [reflexivity|]. inversion FA; inversion FB; subst.
  cbn in L. injection L as L. cbn [decimal_value] in E. rewrite L in E.
  pose proof (value_bound a H2). pose proof (value_bound b H6). rewrite L in H.
  assert (x = y) by nia. subst. f_equal. apply IH; auto. lia.
Qed.

Lemma numeral_low : forall d ds, 0 < d -> 10 ^ N.of_nat (length ds) <= decimal_value (d :: ds).
Proof. intros d ds H. cbn [decimal_value]. nia. Qed.

Lemma numeral_unique : forall n a b, numeral n a -> numeral n b -> a = b.
Proof.
  intros n a b (x & (X1 & X2) & -> & VX & LX) (y & (Y1 & Y2) & -> & VY & LY). f_equal. rewrite <- VY in VX. clear n VY.
  assert (C : forall x y, x <> [] -> Forall (fun d => d < 10) x -> Forall (fun d => d < 10) y -> y <> [] -> decimal_value x = decimal_value y ->
     (forall ds', y = 0 :: ds' -> ds' = []) -> ~ (length x < length y)%nat).
  { clear. intros x y X1 X2 Y2 Y1 V LY L. destruct y as [|d y]; [congruence|]. destruct (N.eq_dec d 0) as [->|D].
    - rewrite (LY y eq_refl) in L. destruct x; cbn in L; [congruence|lia].
    - pose proof (numeral_low d y ltac:(lia)) as H. rewrite <- V in H. pose proof (value_bound x X2) as B.
      assert (10 ^ N.of_nat (length x) <= 10 ^ N.of_nat (length y)) by (apply N.pow_le_mono_r; [lia|]; cbn in L; lia). lia. }
  pose proof (C x y X1 X2 Y2 Y1 VX LY). pose proof (C y x Y1 Y2 X2 X1 (eq_sym VX) LX).
  apply value_inj; auto. lia.
Qed.

Lemma numeral_display : forall n s, numeral n s -> s = display_uint n.
Proof. intros n s H. exact (numeral_unique n s _ H (display_numeral n)). Qed.

Lemma numeral_reads : forall n s, numeral n s -> reads s n.
Proof. intros n s (ds & D & E & V & _). exists ds. tauto. Qed.

Lemma numeral_inj : forall n m s, numeral n s -> numeral m s -> n = m.
Proof. intros n m s A B. exact (reads_unique s n m (numeral_reads _ _ A) (numeral_reads _ _ B)). Qed.

Lemma numeral_chars : forall n s c, numeral n s -> In c s -> 48 <= c <= 57.
Proof.
  intros n s c (ds & (_ & F) & -> & _) I. unfold digit_text in I. apply in_map_iff in I. destruct I as (d & <- & I).
  rewrite Forall_forall in F. specialize (F d I). lia.
Qed.

Lemma numeral_not_nil : forall n s, numeral n s -> s <> [].
Proof. intros n s (ds & (H & _) & -> & _). destruct ds; [congruence|discriminate]. Qed.

(** ** Lines *)
Lemma drop_cr_spec : forall l, (exists l', l = l' ++ [13] /\ drop_cr l = l') \/ ((forall l', l <> l' ++ [13]) /\ drop_cr l = l).
Proof.
  intros l. unfold drop_cr. destruct (rev l) as [|c r] eqn:E.
  - right. split; [|reflexivity]. intros l' ->. rewrite rev_app_distr in E. discriminate E.
  - destruct (N.eqb_spec c 13) as [->|C].
    + left. exists (rev r). split; [|reflexivity]. rewrite <- (rev_involutive l), E. reflexivity.
    + right. split; [|reflexivity]. intros l' ->. rewrite rev_app_distr in E. cbn in E. congruence.
Qed.

Lemma lines_loop_spec : forall s cur, ~ In 10 cur -> lines_of (cur ++ s) (lines_loop cur s).
Proof.
  induction s as [|c s IH]; intros cur C.
  - cbn [lines_loop]. rewrite app_nil_r. destruct cur as [|x cur]; [constructor|]. constructor; [discriminate|exact C].
  - cbn [lines_loop]. destruct (N.eqb_spec c 10) as [->|N].
    + pose proof (IH [] ltac:(intros [])) as R. cbn [app] in R. destruct (drop_cr_spec cur) as [(l' & -> & ->)|(H & ->)].
      * rewrite <- app_assoc. cbn [app]. constructor; [|exact R]. intros I. apply C, in_or_app. now left.
      * constructor; assumption.
    + specialize (IH (cur ++ [c])). rewrite <- app_assoc in IH. apply IH. intros I. apply in_app_or in I. cbn in I. intuition.
Qed.

Lemma lines_spec : forall s, lines_of s (lines s).
Proof. intros s. apply (lines_loop_spec s []). intros []. Qed.

Lemma first_nl : forall a b s t, ~ In 10 a -> ~ In 10 b -> a ++ 10 :: s = b ++ 10 :: t -> a = b /\ s = t.
Proof.
  induction a as [|x a IH]; intros [|y b] s t A B E; cbn in E.
  - injection E as <-. tauto.
  - injection E as <- _. exfalso. apply B. now left.
  - injection E as -> _. exfalso. apply A. now left.
  - injection E as <- E. destruct (IH b s t) as (-> & ->); [intros I; apply A; now right|intros I; apply B; now right|exact E|]. tauto.
Qed.

Lemma lines_unique : forall s ls, lines_of s ls -> forall ls', lines_of s ls' -> ls = ls'.
Proof.
  assert (NI : forall l s : list N, ~ ~ In 10 (l ++ 10 :: s)) by (intros l s H; apply H, in_or_app; right; now left).
  assert (CR : forall l s : list N, l ++ 13 :: 10 :: s = (l ++ [13]) ++ 10 :: s) by (intros; rewrite <- app_assoc; reflexivity).
  assert (IC : forall l : list N, ~ In 10 l -> ~ In 10 (l ++ [13])).
  { intros l H I. apply in_app_or in I. cbn in I. destruct I as [I|[I|[]]]; [exact (H I)|discriminate I]. }
  intros s ls H. induction H as [|l L N|l s ls N K H IH|l s ls N H IH]; intros ls' H'.
  - inversion H'; try congruence; destruct l; discriminate.
  - inversion H'; subst.
    + congruence.
    + reflexivity.
    + exfalso. eapply NI. eassumption.
    + exfalso. rewrite CR in N. eapply NI. eassumption.
  - inversion H' as [E|l0 L0 N0|l0 s0 ls0 N0 K0 H0 E|l0 s0 ls0 N0 H0 E].
    + destruct l; discriminate.
    + subst. exfalso. eapply NI. eassumption.
    + apply first_nl in E; auto. destruct E as (-> & ->). f_equal. now apply IH.
    + exfalso. rewrite CR in E. apply first_nl in E; auto. destruct E as (E & _). exact (K l0 (eq_sym E)).
  - inversion H' as [E|l0 L0 N0|l0 s0 ls0 N0 K0 H0 E|l0 s0 ls0 N0 H0 E].
    + destruct l; discriminate.
    + subst. exfalso. rewrite CR in N0. eapply NI. eassumption.
    + exfalso. rewrite CR in E. apply first_nl in E; auto. destruct E as (E & _). exact (K0 l E).
    + rewrite !CR in E. apply first_nl in E; auto. destruct E as (E & ->). apply app_inj_tail in E. destruct E as (-> & _).
      f_equal. now apply IH.
Qed.

Lemma lines_text : forall ls, Forall (fun l => ~ In 10 l /\ ~ In 13 l) ls -> lines_of (text ls) ls.
Proof.
  induction ls as [|l ls IH]; intros F; [constructor|]. inversion F as [|? ? (A & B) F']; subst.
  unfold text. cbn [map concat]. rewrite <- app_assoc. cbn [app]. constructor; [exact A| |apply IH, F'].
  intros l' ->. apply B, in_or_app. right. now left.
Qed.

(** ** Loading *)
Lemma load_loop : forall w ls acc,
  for_each ls (fun nums line => let* n := unwrap (parse_uint w line) in Ret (nums ++ [n])) acc =
  match fold_right (fun line r => match parse_uint w line, r with Some n, Some l => Some (n :: l) | _, _ => None end) (Some []) ls with
  | Some l => Ret (acc ++ l)
  | None => Panic
  end.
Proof.
  intros w. induction ls as [|l ls IH]; intros acc; cbn [for_each fold_right]; [now rewrite app_nil_r|].
  destruct (parse_uint w l) as [n|]; cbn [unwrap bind]; [|reflexivity]. rewrite IH.
  destruct (fold_right _ (Some []) ls); [|reflexivity]. now rewrite <- app_assoc.
Qed.

Lemma parsed_lines : forall w ls nums,
  fold_right (fun line r => match parse_uint w line, r with Some n, Some l => Some (n :: l) | _, _ => None end) (Some []) ls = Some nums <->
  Forall2 (fun l n => reads l n /\ n < 2 ^ w) ls nums.
Proof.
  intros w. induction ls as [|l ls IH]; intros nums; cbn [fold_right].
  - split; [intros E; injection E as <-; constructor|intros H; inversion H; reflexivity].
  - split.
    + destruct (parse_uint w l) as [n|] eqn:P; [|discriminate]. apply parse_uint_spec in P.
      destruct (fold_right _ (Some []) ls) as [r|]; [|discriminate]. intros E. injection E as <-. constructor; [exact P|]. now apply IH.
    + intros H. inversion H as [|? n ? nums' A B]; subst. apply parse_uint_spec in A. rewrite A. apply IH in B. now rewrite B.
Qed.

Section Load.
Variable resolve : list N -> option N.

Lemma load_spec : forall w d path nums, load resolve w d path = Ret nums <->
  exists content, has_file resolve d path content /\ number_file w content nums.
Proof.
  intros w d path nums. unfold load, has_file. split.
  - destruct (resolve path) as [l|]; [|discriminate]. cbn [unwrap bind]. destruct (d l) as [c|] eqn:D; [|discriminate]. cbn [unwrap bind].
    rewrite load_loop. destruct (fold_right _ (Some []) (lines c)) as [r|] eqn:E; [|discriminate]. cbn [app]. intros Q. injection Q as <-.
    apply parsed_lines in E. exists c. split; [exists l; tauto|]. exists (lines c). split; [apply lines_spec|exact E].
  - intros (c & (l & -> & D) & ls & L & F). cbn [unwrap bind]. rewrite D. cbn [unwrap bind]. rewrite load_loop.
    rewrite (lines_unique _ _ (lines_spec c) _ L). apply parsed_lines in F. now rewrite F.
Qed.

Lemma load_total : forall w d path, load resolve w d path = Panic \/ exists nums, load resolve w d path = Ret nums.
Proof.
  intros w d path. unfold load. destruct (resolve path) as [l|]; [|now left]. cbn [unwrap bind].
  destruct (d l) as [c|]; [|now left]. cbn [unwrap bind]. rewrite load_loop. destruct (fold_right _ (Some []) (lines c)); eauto.
Qed.
End Load.

Lemma numeral_file_unique : forall w content a b, number_file w content a -> number_file w content b -> a = b.
Proof.
  intros w c a b (la & A & FA) (lb & B & FB). rewrite (lines_unique _ _ A _ B) in FA. clear la A B.
  revert a FA. induction FB as [|l n ls ns (R & _) _ IH]; intros a FA; inversion FA; subst; [reflexivity|].
  f_equal; [|now apply IH]. destruct H1 as (R' & _). exact (reads_unique _ _ _ R' R).
Qed.

(** What is saved can be loaded. *)
Lemma saved_numerals : forall nums, numeral_file nums (saved display_uint nums).
Proof.
  intros nums. exists (map display_uint nums). split.
  - induction nums; constructor; [apply display_numeral|assumption].
  - unfold saved, text. now rewrite map_map.
Qed.

Lemma saved_estimates : forall ests, estimate_file ests (saved display_estimation ests).
Proof.
  intros ests. exists (map display_estimation ests). split.
  - induction ests as [|x ests IH]; constructor; [|exact IH]. exists (display_uint (fst x)), (display_uint (snd x)).
    split; [apply display_numeral|]. split; [apply display_numeral|reflexivity].
  - unfold saved, text. now rewrite map_map.
Qed.

Lemma saved_loads : forall w nums content, Forall (fun x => x < 2 ^ w) nums -> numeral_file nums content -> number_file w content nums.
Proof.
  intros w nums c F (ls & N & ->). exists ls. split.
  - apply lines_text. clear F. induction N as [|n s nums ls A _ IH]; constructor; [|exact IH].
    split; intros I; pose proof (numeral_chars n s _ A I); lia.
  - induction N as [|n s nums ls A N IH]; constructor; [split; [exact (numeral_reads _ _ A)|now inversion F]|].
    apply IH. now inversion F.
Qed.

Lemma numeral_file_functional : forall nums a b, numeral_file nums a -> numeral_file nums b -> a = b.
Proof.
  intros nums a b (x & A & ->) (y & B & ->). f_equal. revert y B. induction A as [|n s nums ls H _ IH]; intros y B; inversion B; subst; [reflexivity|].
  f_equal; [exact (numeral_unique n _ _ H H2)|now apply IH].
Qed.
